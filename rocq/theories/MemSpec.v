(** Specification vocabulary for functions working on character buffers. *)
From Verif Require Import Prelude Str.
Set Implicit Arguments.

(** the buffer holds the C string [s]: its bytes followed by a terminator *)
Definition holds (m : cells byte) (s : list byte) : Prop :=
  is_cstr s /\ exists r, m = map Some s ++ Some NUL :: r.

(** [m'] has the size of [m] and the same contents from offset [n] on *)
Definition same_from (n : nat) (m m' : cells byte) : Prop :=
  length m' = length m /\ skipn n m' = skipn n m.

(** [find] occurs in [s] at offset [i] *)
Definition occurs_at (find s : list byte) (i : nat) : Prop :=
  exists a b, s = a ++ find ++ b /\ length a = i.

(** [find] occurs in [s] first at offset [i] *)
Definition first_occurrence (find s : list byte) (i : nat) : Prop :=
  occurs_at find s i /\ forall j, occurs_at find s j -> i <= j.

Definition absent (find s : list byte) : Prop := forall i, ~ occurs_at find s i.

(** [m] after the C string [x] has been stored at its start: the bytes of [x], a
    terminator, and everything behind it unchanged *)
Definition put (m : cells byte) (x : list byte) : cells byte :=
  map Some x ++ Some NUL :: skipn (S (length x)) m.
