(** Model of the arithmetic in libutils/misc_lib.c and misc_lib.h. *)
From Verif Require Import Prelude.

Definition two64 : N := 18446744073709551616%N.   (* 2^64: size_t wraps here *)
Definition LONG_MAX : Z := 9223372036854775807%Z.
Definition LONG_MIN : Z := (-9223372036854775808)%Z.

(** misc_lib.h:75 ISPOW2, on size_t *)
Definition ISPOW2 (n : N) : bool :=
  ((0 <? n) && (N.land n ((n + (two64 - 1)) mod two64) =? 0))%N.

(** [v |= v >> s] *)
Definition smear (v s : N) : N := N.lor v (N.shiftr v s).

(** misc_lib.c:41-53 UpperPowerOfTwo, size_t of 64 bits with wrap-around *)
Definition UpperPowerOfTwo (v : N) : N :=
  let v := ((v + (two64 - 1)) mod two64)%N in
  let v := smear v 1 in
  let v := smear v 2 in
  let v := smear v 4 in
  let v := smear v 8 in
  let v := smear v 16 in
  ((v + 1) mod two64)%N.

(** C's % on long: undefined for divisor 0 and for LONG_MIN % -1 *)
Definition long_rem (a b : Z) : res Z :=
  if (b =? 0)%Z then UB
  else if ((a =? LONG_MIN) && (b =? -1))%Z then UB
  else Ok (Z.rem a b).

(** signed addition on long: overflow is undefined *)
Definition long_add (a b : Z) : res Z :=
  if ((LONG_MIN <=? a + b) && (a + b <=? LONG_MAX))%Z then Ok (a + b)%Z else UB.

(** misc_lib.c:36-39 UnsignedModulus; the conversion of the long result to
    unsigned long is modulo 2^64 *)
Definition UnsignedModulus (dividend divisor : Z) : res Z :=
  let* r := long_rem dividend divisor in
  let* s := long_add r divisor in
  let* t := long_rem s divisor in
  Ok (t mod (Z.of_N two64))%Z.
