(** Specification of string comparison: lexicographic order of unsigned bytes,
    stated without reference to any comparison function. *)
From Verif Require Import Prelude Str Libc.
Set Implicit Arguments.

(** [a] comes strictly before [b]: it is a proper prefix, or at the first
    difference it has the smaller byte *)
Definition before (a b : list byte) : Prop :=
  (exists c t, b = a ++ c :: t) \/
  (exists p x y t u, a = p ++ x :: t /\ b = p ++ y :: u /\ (code x < code y)%N).

(** the sign of [r] tells how [a] and [b] compare *)
Definition compares (r : Z) (a b : list byte) : Prop :=
  ((r < 0)%Z <-> before a b) /\ (r = 0%Z <-> a = b) /\ ((0 < r)%Z <-> before b a).

(** what POSIX says about the four comparison functions; the C standard leaves the
    magnitude open (we only exclude INT_MIN, whose absolute value is not an int) *)
Definition strcmp_ok (f : list byte -> list byte -> Z) : Prop :=
  forall a b, compares (f a b) a b /\ (INT_MIN < f a b <= INT_MAX)%Z.
Definition strncmp_ok (f : list byte -> list byte -> nat -> Z) : Prop :=
  forall a b n, compares (f a b n) (firstn n a) (firstn n b).
Definition strcasecmp_ok (f : list byte -> list byte -> Z) : Prop :=
  forall a b, compares (f a b) (map tolower a) (map tolower b).
Definition strncasecmp_ok (f : list byte -> list byte -> nat -> Z) : Prop :=
  forall a b n, compares (f a b n) (map tolower (firstn n a)) (map tolower (firstn n b)).

(** order with NULL smallest *)
Definition before0 (a b : option (list byte)) : Prop :=
  match a, b with
  | None, Some _ => True
  | Some s, Some t => before s t
  | _, None => False
  end.
