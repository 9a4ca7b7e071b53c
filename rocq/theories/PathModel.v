(** Model of libutils/path.c, of the file name helpers of libutils/file_lib.c (on a system
    that is not Windows) and of libutils/version_comparison.c. *)
From Verif Require Import Prelude Str Libc CmpModel EditModel.
Set Implicit Arguments.

Definition SEP : byte := "/"%char.
Definition DQUOTE : byte := ascii_of_N 34.

(** strrchr: the index of the last [c] in the string *)
Fixpoint strrchr_from (s : list byte) (c : byte) (i : nat) (found : option nat) : option nat :=
  match s with [] => found | x :: s => strrchr_from s c (S i) (if beq x c then Some i else found) end.
Definition strrchr (s : list byte) (c : byte) : option nat := strrchr_from s c 0 None.

(** libutils/path.c:5-26 Path_Basename: the result points into [path]; here the offset *)
Definition Path_Basename (path : list byte) : res (option nat) :=
  let filename := match strrchr path SEP with Some i => i + 1 | None => 0 end in
  let* c := chr path filename in
  Ok (if beq c NUL then None else Some filename).

(** libutils/path.c:28-35 Path_JoinAlloc *)
Definition Path_JoinAlloc (dir leaf : list byte) : res (option (cells byte)) :=
  let* e := StringEndsWith dir [SEP] in
  if e : bool then StringConcatenate 2 [Some dir; Some leaf]
  else StringConcatenate 3 [Some dir; Some [SEP]; Some leaf].

(** libutils/path.c:37-70 Path_GetQuoted *)
Definition safe_char (c : byte) : bool :=
  ((code "a"%char <=? code c) && (code c <=? code "z"%char) || (code "A"%char <=? code c) && (code c <=? code "Z"%char) ||
   (code "0"%char <=? code c) && (code c <=? code "9"%char) || beq c "_"%char || beq c "-"%char || beq c SEP)%N.
Fixpoint needs_quoting (s : list byte) : bool :=
  match s with [] => false | c :: s => if safe_char c then needs_quoting s else true end.
Definition Path_GetQuoted (path : list byte) : res (option (cells byte)) :=
  let path_len := length path in
  let* c := chr path 0 in
  let* quoted := if beq c DQUOTE then let* d := chr path (path_len - 1) in Ok (beq d DQUOTE) else Ok false in
  if quoted : bool then Ok (Some (block path))
  else if needs_quoting path then StringConcatenate 3 [Some [DQUOTE]; Some path; Some [DQUOTE]]
  else Ok (Some (block path)).

(** libutils/file_lib.c:333-360 IsAbsoluteFileName *)
Fixpoint absolute_loop (fuel off : nat) (f : list byte) : res bool :=
  match fuel with
  | O => Fuel
  | S g => let* c := chr f off in if beq c DQUOTE then absolute_loop g (S off) f else Ok (beq c SEP)
  end.
Definition IsAbsoluteFileName (f : list byte) : res bool := absolute_loop (S (length f)) 0 f.

(** libutils/file_lib.c:453-461 MapNameForward: strchr from the last hit on; the pointer returned
    is the NULL that ended the loop *)
Fixpoint map_forward (fuel : nat) (m : cells byte) (s : nat) : res (cells byte * option nat) :=
  match fuel with
  | O => Fuel
  | S g => let* t := mstr (skipn s m) in
           match strchr t "\"%char with
           | None => Ok (m, None)
           | Some i => let* m := aset m (s + i) SEP in map_forward g m (s + i)
           end
  end.
Definition MapNameForward (m : cells byte) : res (cells byte * option nat) := map_forward (S (length m)) m 0.

(** ** version_comparison.c *)
(** libutils/version_comparison.h:4-10 VersionComparison *)
Inductive VersionComparison := VERSION_SMALLER | VERSION_EQUAL | VERSION_GREATER | VERSION_ERROR.

(** sscanf's %d: as strtol, the value converted to int (glibc; overflow is undefined in the
    standard) *)
Definition to_int (z : Z) : Z := ((z + 2 ^ 31) mod 2 ^ 32 - 2 ^ 31)%Z.
Definition scan_d (s : list byte) : option (Z * list byte) :=
  let '(v, e, _) := strtol s in
  match e with O => None | _ => Some (to_int v, skipn e s) end.
Definition scan_dot (s : list byte) : option (list byte) := match s with c :: r => if beq c "."%char then Some r else None | [] => None end.
(** sscanf(s, "%d.%d.%d", ...): the numbers converted *)
Definition sscanf_version (s : list byte) : list Z :=
  match scan_d s with
  | None => []
  | Some (a, r) => a :: match scan_dot r with None => [] | Some r =>
      match scan_d r with
      | None => []
      | Some (b, r) => b :: match scan_dot r with None => [] | Some r => match scan_d r with None => [] | Some (c, _) => [c] end end
      end end
  end.
(** libutils/version_comparison.c:5-78 CompareVersion; unconverted components stay 0 *)
Definition CompareVersion (a b : list byte) : res VersionComparison :=
  let va := sscanf_version a in
  let a_num := length va in
  if (a_num <? 1) || (3 <? a_num) then Ok VERSION_ERROR
  else
    let vb := sscanf_version b in
    let b_num := length vb in
    if (b_num <? 1) || (3 <? b_num) then Ok VERSION_ERROR
    else
      let a_major := nth 0 va 0%Z in let a_minor := nth 1 va 0%Z in let a_patch := nth 2 va 0%Z in
      let b_major := nth 0 vb 0%Z in let b_minor := nth 1 vb 0%Z in let b_patch := nth 2 vb 0%Z in
      if (b_major <? a_major)%Z then Ok VERSION_GREATER
      else if (a_major <? b_major)%Z then Ok VERSION_SMALLER
      else if (a_num =? 1) || (b_num =? 1) then Ok VERSION_EQUAL
      else if (a_minor <? b_minor)%Z then Ok VERSION_SMALLER
      else if (b_minor <? a_minor)%Z then Ok VERSION_GREATER
      else if (a_num =? 2) || (b_num =? 2) then Ok VERSION_EQUAL
      else massert ((a_num =? 3) && (b_num =? 3)) (
           if (a_patch <? b_patch)%Z then Ok VERSION_SMALLER
           else if (b_patch <? a_patch)%Z then Ok VERSION_GREATER
           else Ok VERSION_EQUAL).
