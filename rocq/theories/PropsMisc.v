(** Property theorems about libutils/misc_lib.c (C38, C39). *)
From Verif Require Import Prelude MiscModel MiscProofs.

(** C38: for 1 <= v <= 2^32 the result is the least power of two >= v.
    The full claim covers every size_t. *)
Theorem C38_upper_power_of_two_partial : forall v : N, (1 <= v)%N -> (v <= 2 ^ 32)%N ->
  exists k, UpperPowerOfTwo v = (2 ^ k)%N /\ (v <= 2 ^ k)%N /\
            forall j, (v <= 2 ^ j)%N -> (2 ^ k <= 2 ^ j)%N.
Proof. exact upper_pow2_spec. Qed.
Print Assumptions C38_upper_power_of_two_partial.

(** Missing: above 2^32 the code never smears by 32 bits. *)
Theorem C38_upper_power_of_two_above_2_32_refuted :
  exists v : N, (v < 2 ^ 64)%N /\ (v <= UpperPowerOfTwo v)%N /\
    forall k, UpperPowerOfTwo v <> (2 ^ k)%N.
Proof. exact upper_pow2_big. Qed.
Print Assumptions C38_upper_power_of_two_above_2_32_refuted.

Theorem C38_upper_power_of_two_of_zero_refuted : UpperPowerOfTwo 0 = 0%N.
Proof. exact upper_pow2_zero. Qed.
Print Assumptions C38_upper_power_of_two_of_zero_refuted.

Theorem C38_ispow2 : forall n : N, (n < 2 ^ 64)%N -> ISPOW2 n = true <-> exists k, n = (2 ^ k)%N.
Proof. exact ispow2_spec. Qed.
Print Assumptions C38_ispow2.

Example C38_nonvacuous : UpperPowerOfTwo 1000 = 1024%N /\ UpperPowerOfTwo 1024 = 1024%N /\
  UpperPowerOfTwo (2 ^ 32) = (2 ^ 32)%N /\ UpperPowerOfTwo 1 = 1%N.
Proof. vm_compute. repeat split. Qed.

(** C39: exact domain on which the intermediate sum does not overflow. *)
Theorem C39_unsigned_modulus_partial : forall a b : Z,
  (LONG_MIN <= a <= LONG_MAX)%Z -> (0 < b <= LONG_MAX)%Z -> (Z.rem a b + b <= LONG_MAX)%Z ->
  UnsignedModulus a b = Ok (a mod b)%Z.
Proof. exact unsigned_modulus_ok. Qed.
Print Assumptions C39_unsigned_modulus_partial.

Theorem C39_unsigned_modulus_small_divisor : forall a b : Z,
  (LONG_MIN <= a <= LONG_MAX)%Z -> (0 < b <= 2 ^ 62)%Z -> UnsignedModulus a b = Ok (a mod b)%Z.
Proof. exact unsigned_modulus_half. Qed.
Print Assumptions C39_unsigned_modulus_small_divisor.

Theorem C39_unsigned_modulus_nonpositive_dividend : forall a b : Z,
  (LONG_MIN <= a <= 0)%Z -> (0 < b <= LONG_MAX)%Z -> UnsignedModulus a b = Ok (a mod b)%Z.
Proof. exact unsigned_modulus_nonpos. Qed.
Print Assumptions C39_unsigned_modulus_nonpositive_dividend.

Theorem C39_unsigned_modulus_overflow_refuted : exists a b,
  (0 < a <= LONG_MAX)%Z /\ (0 < b <= LONG_MAX)%Z /\ UnsignedModulus a b = UB.
Proof. exact unsigned_modulus_overflow. Qed.
Print Assumptions C39_unsigned_modulus_overflow_refuted.

Example C39_nonvacuous : UnsignedModulus (-1) 3 = Ok 2%Z /\ UnsignedModulus (-7) 7 = Ok 0%Z.
Proof. vm_compute. split; reflexivity. Qed.
