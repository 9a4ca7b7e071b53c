(** Model of StringHash, IsStrIn, IsStrCaseIn and TrimCSVLineCRLFStrict of libutils/string_lib.c, and of libutils/encode.c. *)
From Verif Require Import Prelude Str Libc EditModel.
Set Implicit Arguments.

(** ** StringHash *)
(** unsigned int has 32 bits *)
Definition u32 (x : N) : N := (x mod 2 ^ 32)%N.
Definition shl (h k : N) : N := u32 (N.shiftl h k).
Definition add32 (a b : N) : N := u32 (a + b).
(** libutils/string_lib.c:89-111 StringHash: the body of the loop *)
Definition hash_step (h : N) (c : byte) : N :=
  let h := add32 h (code c) in
  let h := add32 h (shl h 10) in
  N.lxor h (N.shiftr h 6).
(** libutils/string_lib.c:89-111 StringHash; the string is not NULL *)
Definition StringHash (str : list byte) (seed : N) : N :=
  let h := fold_left hash_step str seed in
  let h := add32 h (shl h 3) in
  let h := N.lxor h (N.shiftr h 11) in
  add32 h (shl h 15).

(** ** IsStrIn *)
(** the array ends with NULL (None); [same] is strcmp(..) == 0 or strcasecmp(..) == 0 *)
Fixpoint is_in_loop (same : list byte -> list byte -> bool) (fuel : nat) (str : list byte) (strs : list (option (list byte))) (i : nat) : res bool :=
  match fuel with
  | O => Fuel
  | S fuel =>
      match nth_error strs i with
      | None => UB
      | Some None => Ok false
      | Some (Some x) => if same str x then Ok true else is_in_loop same fuel str strs (S i)
      end
  end.
(** libutils/string_lib.c:939-951 IsStrIn *)
Definition IsStrIn (str : list byte) (strs : list (option (list byte))) : res bool := is_in_loop bytes_eqb (S (length strs)) str strs 0.
(** libutils/string_lib.c:953-965 IsStrCaseIn; strcasecmp of the C library in the C locale *)
Definition IsStrCaseIn (str : list byte) (strs : list (option (list byte))) : res bool :=
  is_in_loop (fun a b => bytes_eqb (map tolower a) (map tolower b)) (S (length strs)) str strs 0.

(** ** TrimCSVLineCRLFStrict *)
(** isspace((int) c) for a plain char: undefined if it is negative (and not EOF) *)
Definition isspace_char (c : byte) : res bool :=
  if (scode c <? -1)%Z then UB else Ok (if (scode c =? -1)%Z then false else isspace c).
(** libutils/string_lib.c:1428-1442 TrimCSVLineCRLFStrict *)
Definition TrimCSVLineCRLFStrict (data : cells byte) : res (cells byte * nat) :=
  let* s := mstr data in
  massert (0 <? length s)
  (massert (N.of_nat (length s) <? 4096)%N
  (let* c := aget data 0 in let* b := isspace_char c in
   massert (negb b)
   (let* ' (data, length) := TrimCSVLineCRLF data in
    let* s := mstr data in
    massert (length =? List.length s)
    (massert (0 <? length)
    (let* c := aget data (length - 1) in let* b := isspace_char c in
     massert (negb b)
     (let* c := aget data 0 in let* b := isspace_char c in
      massert (negb b) (Ok (data, length)))))))).

(** ** StringEncodeBase64 *)
(** the alphabet of RFC 4648 *)
Definition alphabet : list byte := lit "ABCDEFGHIJKLMNOPQRSTUVWXYZabcdefghijklmnopqrstuvwxyz0123456789+/".
Definition digit64 (n : N) : byte := nth (N.to_nat n) alphabet NUL.
(** three bytes as four digits; the last one or two bytes with padding *)
Fixpoint encode64 (data : list byte) : list byte :=
  match data with
  | a :: b :: c :: rest =>
      let n := (code a * 65536 + code b * 256 + code c)%N in
      digit64 (n / 262144) :: digit64 (n / 4096 mod 64) :: digit64 (n / 64 mod 64) :: digit64 (n mod 64) :: encode64 rest
  | [a; b] => let n := (code a * 65536 + code b * 256)%N in
      [digit64 (n / 262144); digit64 (n / 4096 mod 64); digit64 (n / 64 mod 64); "="%char]
  | [a] => let n := (code a * 65536)%N in [digit64 (n / 262144); digit64 (n / 4096 mod 64); "="%char; "="%char]
  | [] => []
  end.
(** what the BIO chain of OpenSSL writes for data that is not empty: lines of at most 64 characters, each with a newline *)
Fixpoint lines64 (fuel : nat) (text : list byte) : list byte :=
  match fuel with
  | O => []
  | S fuel => match text with [] => [] | _ => firstn 64 text ++ ascii_of_nat 10 :: lines64 fuel (skipn 64 text) end
  end.
Definition bio_write (data : list byte) : list byte := lines64 (length (encode64 data)) (encode64 data).
(** libutils/encode.c:36-68 StringEncodeBase64; [str] is not NULL and [len] bytes are readable *)
Definition StringEncodeBase64 (str : cells byte) (len : nat) : res (cells byte) :=
  if len =? 0 then Ok (calloc 1)
  else
    if existsb (fun c => match c with None => true | Some _ => false end) (firstn len str) || (length str <? len) then UB
    else
      let buffer := bio_write (map (fun c => match c with Some b => b | None => NUL end) (firstn len str)) in
      let out := calloc (length buffer) in
      let* out := acopy out 0 (map Some buffer) 0 (length buffer - 1) in
      aset out (length buffer - 1) NUL.
