(** Model of libutils/regex.c and StringCaptureData of libutils/json.c.

    PCRE is an oracle: what pcre_fullinfo, pcre_compile and pcre_exec answer.  Buffers are
    their texts (buffer.c is C21: BufferNewFrom keeps the bytes before the first NUL), a
    sequence is a list of them; what is logged is left out; allocations succeed. *)
From Verif Require Import Prelude Str Libc JsonModel.
Set Implicit Arguments.

(** a compiled pattern: the number of capturing groups, the table of names as it lies in memory, the size
    and number of its entries, and pcre_exec from offset 0 with an offset vector of [size] ints: the
    result and the pairs of offsets it writes at the beginning of the vector *)
Record pcre := mkPcre {
  capturecount : nat;
  name_table : list byte;
  name_entry_size : nat;
  namecount : nat;
  pcre_exec : list byte -> nat -> Z * list (Z * Z) }.

(** libutils/regex.c:34 STRING_MATCH_OVECCOUNT *)
Definition STRING_MATCH_OVECCOUNT : nat := 30.

(** libutils/regex.c:55-88 StringMatchWithPrecompiledRegex; [start], [end] as size_t *)
Definition StringMatchWithPrecompiledRegex (regex : pcre) (str : list byte) : bool * (Z * Z) :=
  let (result, pairs) := pcre_exec regex str STRING_MATCH_OVECCOUNT in
  let o := nth 0 pairs (0, 0)%Z in     (* the vector is 0 before *)
  ((0 <=? result)%Z, if (result =? 0)%Z then (0, 0)%Z else o).

(** libutils/regex.c:121-133 StringMatchFullWithPrecompiledRegex *)
Definition StringMatchFullWithPrecompiledRegex (pattern : pcre) (str : list byte) : bool :=
  match StringMatchWithPrecompiledRegex pattern str with
  | (true, (s, e)) => ((s =? 0) && (e =? Z.of_nat (length str)))%Z
  | (false, _) => false
  end.

(** libutils/regex.c:278-284 RegexPartialMatch *)
Definition RegexPartialMatch (rx : pcre) (teststring : list byte) : bool :=
  (0 <=? fst (pcre_exec rx teststring STRING_MATCH_OVECCOUNT))%Z.

(** BufferNewFrom(str + a, b - a): nothing is read if the length is 0; a negative length is a huge one *)
Definition text_from (str : list byte) (a b : Z) : res (list byte) :=
  if (a =? b)%Z then Ok []
  else if ((0 <=? a) && (a <? b) && (b <=? Z.of_nat (length str)))%Z
       then Ok (upto_nul (firstn (Z.to_nat (b - a)) (skipn (Z.to_nat a) str))) else UB.

(** libutils/regex.c:144-220 StringMatchCapturesWithPrecompiledRegex: the scan of the name table for group [i] *)
Fixpoint find_name (count : nat) (table : list byte) (entry : nat) (i : nat) : res (option (list byte)) :=
  match count with
  | O => Ok None
  | S count =>
      match table with
      | h :: l :: rest =>
          if (N.of_nat i =? code h * 256 + code l)%N then
            if (entry - 3 <=? length rest)%nat then Ok (Some (upto_nul (firstn (entry - 3) rest))) else UB
          else find_name count (skipn entry table) entry i
      | _ => UB
      end
  end.
(** libutils/regex.c:144-220 StringMatchCapturesWithPrecompiledRegex: the loop over the groups *)
Fixpoint captures_loop (p : pcre) (str : list byte) (pairs : list (Z * Z)) (return_names : bool) (i : nat) (n : nat) : res (list (list byte)) :=
  match n with
  | O => Ok []
  | S n =>
      let* name := if return_names then
                     let* found := if (0 <? namecount p)%nat then find_name (namecount p) (name_table p) (name_entry_size p) i else Ok None in
                     Ok [match found with Some s => s | None => udec (N.of_nat i) end]
                   else Ok [] in
      match nth_error pairs i with
      | None => UB                                    (* an offset that was not written *)
      | Some (a, b) =>
          let* data := text_from str a b in
          let* rest := captures_loop p str pairs return_names (S i) n in
          Ok (name ++ data :: rest)
      end
  end.
(** libutils/regex.c:144-220 StringMatchCapturesWithPrecompiledRegex *)
Definition StringMatchCapturesWithPrecompiledRegex (p : pcre) (str : list byte) (return_names : bool) : res (option (list (list byte))) :=
  let (result, pairs) := pcre_exec p str ((capturecount p + 1) * 3) in
  if (result <=? 0)%Z then Ok None
  else let* l := captures_loop p str pairs return_names 0 (capturecount p + 1) in Ok (Some l).

Section Compile.
  (** pcre_compile(regex, PCRE_MULTILINE | PCRE_DOTALL): NULL if the expression is bad *)
  Variable compile : list byte -> option pcre.
  (** libutils/regex.c:90-104 StringMatch: [None]: start and end are not set *)
  Definition StringMatch (regex str : list byte) : bool * option (Z * Z) :=
    match compile regex with
    | None => (false, None)
    | Some p => let (r, se) := StringMatchWithPrecompiledRegex p str in (r, Some se)
    end.
  (** libutils/regex.c:106-119 StringMatchFull *)
  Definition StringMatchFull (regex str : list byte) : bool :=
    match compile regex with None => false | Some p => StringMatchFullWithPrecompiledRegex p str end.
  (** libutils/regex.c:232-253 StringMatchCaptures *)
  Definition StringMatchCaptures (regex str : list byte) (return_names : bool) : res (option (list (list byte))) :=
    match compile regex with None => Ok None | Some p => StringMatchCapturesWithPrecompiledRegex p str return_names end.
  (** libutils/regex.c:255-272 CompareStringOrRegex; [None]: NULL *)
  Definition CompareStringOrRegex (value : list byte) (compareTo : option (list byte)) (regex : bool) : bool :=
    match compareTo with
    | None | Some [] => true
    | Some c => if regex then StringMatchFull c value else bytes_eqb c value
    end.
  (** libutils/json.c:2858-2897 StringCaptureData: the loop over the sequence *)
  Fixpoint capture_members (l : list (list byte)) (acc : list (list byte * json)) : list (list byte * json) :=
    match l with
    | k :: v :: l => capture_members l (JsonObjectAppendElement acc k (JsonStringCreate v))
    | _ => acc
    end.
  (** libutils/json.c:2858-2897 StringCaptureData *)
  Definition StringCaptureData (pattern : option pcre) (regex data : list byte) : res (option json) :=
    let* s := match pattern with
              | Some p => StringMatchCapturesWithPrecompiledRegex p data true
              | None => StringMatchCaptures regex data true
              end in
    match s with
    | None | Some [] => Ok None
    | Some l => Ok (Some (JObj (snd (JsonObjectRemoveKey (capture_members l []) (lit "0")))))
    end.
End Compile.
