(** Model of the comparison functions of libutils/string_lib.c. *)
From Verif Require Import Prelude Str Libc.
Set Implicit Arguments.
Local Open Scope Z_scope.

(** a [const char *]: NULL, or an address with the string stored there *)
Definition cptr := option (N * list byte).

Definition same_ptr (a b : cptr) : bool :=
  match a, b with
  | None, None => true
  | Some (p, _), Some (q, _) => (p =? q)%N
  | _, _ => false
  end.

(** libutils/string_lib.c:118-128 ToLower *)
Definition ToLower (ch : byte) : byte :=
  if isupper ch then ascii_of_N (code ch - 65 + 97) else ch.

(** libutils/string_lib.c:132-147 ToUpper.  [ch - 'a' + 'A'] is computed modulo 256. *)
Definition ToUpper (ch : byte) : byte :=
  if isdigit ch || ispunct ch then ch
  else if isupper ch then ch
  else ascii_of_N ((code ch + 256 - 97 + 65) mod 256).

Section WithLibc.
  (** strcmp, strncmp, strcasecmp and strncasecmp return some int of the right
      sign; which one differs between platforms (the code says so), so they are
      parameters. *)
  Variable strcmp : list byte -> list byte -> Z.
  Variable strncmp : list byte -> list byte -> nat -> Z.
  Variable strcasecmp : list byte -> list byte -> Z.
  Variable strncasecmp : list byte -> list byte -> nat -> Z.

  (** libutils/string_lib.c:206-223 NullCompare *)
  Definition NullCompare (a b : cptr) : res Z :=
    massert (negb (same_ptr a b))
    (massert (match a, b with Some _, Some _ => false | _, _ => true end)
    (match a with
     | Some _ => Ok 1
     | None => match b with Some _ => Ok (-1) | None => Abort end
     end)).

  (** abs() of an int: INT_MIN overflows *)
  Definition c_abs (x : Z) : res Z := if x =? INT_MIN then UB else Ok (Z.abs x).

  (** libutils/string_lib.c:225-245 StringSafeCompare *)
  Definition StringSafeCompare (a b : cptr) : res Z :=
    if same_ptr a b then Ok 0
    else match a, b with
         | Some (_, sa), Some (_, sb) =>
             let r := strcmp sa sb in
             if negb (r =? 0) then let* d := c_abs r in Ok (Z.quot r d) else Ok r
         | _, _ => NullCompare a b
         end.

  (** libutils/string_lib.c:247-260 StringSafeCompareN *)
  Definition StringSafeCompareN (a b : cptr) (n : nat) : res Z :=
    if same_ptr a b then Ok 0
    else match a, b with
         | Some (_, sa), Some (_, sb) => Ok (strncmp sa sb n)
         | _, _ => NullCompare a b
         end.

  (** libutils/string_lib.c:262-265 StringEqual *)
  Definition StringEqual (a b : cptr) : res bool :=
    let* r := StringSafeCompare a b in Ok (r =? 0).

  (** libutils/string_lib.c:267-270 StringEqualN *)
  Definition StringEqualN (a b : cptr) (n : nat) : res bool :=
    let* r := StringSafeCompareN a b n in Ok (r =? 0).

  (** libutils/string_lib.c:272-285 StringSafeCompare_IgnoreCase *)
  Definition StringSafeCompare_IgnoreCase (a b : cptr) : res Z :=
    if same_ptr a b then Ok 0
    else match a, b with
         | Some (_, sa), Some (_, sb) => Ok (strcasecmp sa sb)
         | _, _ => NullCompare a b
         end.

  (** libutils/string_lib.c:287-300 StringSafeCompareN_IgnoreCase *)
  Definition StringSafeCompareN_IgnoreCase (a b : cptr) (n : nat) : res Z :=
    if same_ptr a b then Ok 0
    else match a, b with
         | Some (_, sa), Some (_, sb) => Ok (strncasecmp sa sb n)
         | _, _ => NullCompare a b
         end.

  (** libutils/string_lib.c:302-305 StringEqual_IgnoreCase *)
  Definition StringEqual_IgnoreCase (a b : cptr) : res bool :=
    let* r := StringSafeCompare_IgnoreCase a b in Ok (r =? 0).

  (** libutils/string_lib.c:307-310 StringEqualN_IgnoreCase *)
  Definition StringEqualN_IgnoreCase (a b : cptr) (n : nat) : res bool :=
    let* r := StringSafeCompareN_IgnoreCase a b n in Ok (r =? 0).

  (** libutils/string_lib.c:1742-1765 StringMatchesOption: arguments are distinct non-NULL
      strings, given by address and content *)
  Definition StringMatchesOption (supplied longopt shortopt : N * list byte) : res bool :=
    let s := snd supplied in
    let l := snd longopt in
    let o := snd shortopt in
    massert (length o =? 2)%nat
    (massert (3 <=? length l)%nat
    (let* o0 := chr o 0 in let* o1 := chr o 1 in
     massert (beq o0 "-" && negb (beq o1 "-"))
    (let* l0 := chr l 0 in let* l1 := chr l 1 in let* l2 := chr l 2 in
     massert (beq l0 "-" && beq l1 "-" && negb (beq l2 "-"))
    (if (length s <=? 1)%nat then Ok false
     else if (length s =? 2)%nat then StringEqual (Some supplied) (Some shortopt)
     else StringEqualN_IgnoreCase (Some supplied) (Some longopt) (length s))))).
End WithLibc.

(** libutils/string_lib.c:1492-1510 StringStartsWith *)
Fixpoint starts_loop (fuel i : nat) (str prefix : list byte) : res bool :=
  match fuel with
  | O => Fuel
  | S f => if (i <? length prefix)%nat then
             let* a := chr str i in let* b := chr prefix i in
             if negb (beq a b) then Ok false else starts_loop f (S i) str prefix
           else Ok true
  end.
Definition StringStartsWith (str prefix : list byte) : res bool :=
  if (length str <? length prefix)%nat then Ok false
  else starts_loop (S (length prefix)) 0 str prefix.

(** libutils/string_lib.c:1458-1485 StringEndsWithCase *)
Fixpoint ends_loop (fuel i : nat) (str suffix : list byte) (fold : bool) : res bool :=
  match fuel with
  | O => Fuel
  | S f => if (i <? length suffix)%nat then
             let* a := chr str (length str - i - 1) in
             let* b := chr suffix (length suffix - i - 1) in
             let a' := if fold then ToLower a else a in
             let b' := if fold then ToLower b else b in
             if negb (beq a' b') then Ok false else ends_loop f (S i) str suffix fold
           else Ok true
  end.
Definition StringEndsWithCase (str suffix : list byte) (fold : bool) : res bool :=
  if (length str <? length suffix)%nat then Ok false
  else ends_loop (S (length suffix)) 0 str suffix fold.
(** libutils/string_lib.c:1487-1490 StringEndsWith *)
Definition StringEndsWith (str suffix : list byte) : res bool := StringEndsWithCase str suffix false.

(** libcompat/strcasecmp.c and strncasecmp.c are read in CompatModel.v *)
