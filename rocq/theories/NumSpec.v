(** Decimal numerals inside a text. *)
From Verif Require Import Prelude Str Libc.
Set Implicit Arguments.
Local Open Scope Z_scope.

(** [s] begins with optional white space, an optional sign and digits denoting [v],
    and [rest] is what follows the last digit *)
Definition reads (s : list byte) (v : Z) (rest : list byte) : Prop :=
  exists blank sign digits, s = blank ++ sign ++ digits ++ rest /\
    (forall c, In c blank -> isspace c = true) /\
    digits <> [] /\ (forall c, In c digits -> isdigit c = true) /\
    match rest with [] => True | c :: _ => isdigit c = false end /\
    ((sign = [] \/ sign = ["+"%char]) /\ v = Z.of_N (undec digits) \/
     sign = ["-"%char] /\ v = - Z.of_N (undec digits)).

(** the numeral is followed by the end of the text or by white space *)
Definition ends_well (rest : list byte) : bool :=
  match rest with [] => true | c :: _ => isspace c end.
(** the character after the numeral is ASCII *)
Definition ascii_next (rest : list byte) : Prop :=
  match rest with [] => True | c :: _ => (code c < 128)%N end.
