(** Specifications of the string editing functions. *)
From Verif Require Import Prelude Str Libc MemSpec.
Set Implicit Arguments.

(** [out] is [s] with every leftmost, non-overlapping occurrence of [find] replaced *)
Inductive replaced (find rep : list byte) : list byte -> list byte -> Prop :=
| rep_none s : absent find s -> replaced find rep s s
| rep_next s i out : first_occurrence find s i ->
    replaced find rep (skipn (i + length find) s) out ->
    replaced find rep s (firstn i s ++ rep ++ out).

(** [t] is [s] without its trailing characters satisfying [p] *)
Definition stripped_right (p : byte -> bool) (s t : list byte) : Prop :=
  exists w, s = t ++ w /\ (forall c, In c w -> p c = true) /\
            (t = [] \/ exists t' c, t = t' ++ [c] /\ p c = false).

(** [t] is [s] without leading and trailing characters satisfying [p] *)
Definition stripped (p : byte -> bool) (s t : list byte) : Prop :=
  exists v w, s = v ++ t ++ w /\ (forall c, In c (v ++ w) -> p c = true) /\
    (t = [] \/ ((exists c t', t = c :: t' /\ p c = false) /\ exists t' c, t = t' ++ [c] /\ p c = false)).

(** [ts] are the maximal runs of non-separators of [s], with their offsets, the
    first character of [s] being at offset [off] *)
Inductive runs (sep : byte -> bool) : nat -> list byte -> list (nat * list byte) -> Prop :=
| runs_end off : runs sep off [] []
| runs_sep off c s ts : sep c = true -> runs sep (S off) s ts -> runs sep off (c :: s) ts
| runs_tok off t s ts : t <> [] -> (forall c, In c t -> sep c = false) ->
    (s = [] \/ exists c s', s = c :: s' /\ sep c = true) ->
    runs sep (off + length t) s ts -> runs sep off (t ++ s) ((off, t) :: ts).

(** the pieces of [s] between occurrences of [c] *)
Definition pieces_of (c : byte) (s : list byte) (ps : list (list byte)) : Prop :=
  ps <> [] /\ join [c] ps = s /\ forall p, In p ps -> ~ In c p.

(** prefix every [t] with [e] *)
Fixpoint escaped (t e : byte) (s : list byte) : list byte :=
  match s with
  | [] => []
  | c :: s' => if beq c t then e :: c :: escaped t e s' else c :: escaped t e s'
  end.
(** read back: [e] followed by [t] stands for [t] *)
Fixpoint unescape (t e : byte) (s : list byte) : list byte :=
  match s with
  | [] => []
  | c :: s' => match s' with
               | d :: s'' => if beq c e && beq d t then t :: unescape t e s'' else c :: unescape t e s'
               | [] => [c]
               end
  end.

(** two lower-case hexadecimal digits *)
Definition hexdigit (n : N) : byte := if (n <? 10)%N then ascii_of_N (48 + n) else ascii_of_N (87 + n).
Definition hex (s : list byte) : list byte := flat_map (fun b => [hexdigit (code b / 16); hexdigit (code b mod 16)]%N) s.

(** append with a delimiter unless the left part is empty *)
Definition delim (sep : byte) (d s : list byte) : list byte :=
  match d with [] => s | _ => d ++ sep :: s end.
