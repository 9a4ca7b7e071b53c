From Verif Require Import Prelude PreludeFacts MiscModel.

(** [covers m x y]: bit j of y is set iff one of the bits j..j+m-1 of x is *)
Definition covers (m x y : N) : Prop :=
  forall j, N.testbit y j = true <-> exists d, (d < m)%N /\ N.testbit x (j + d) = true.

Lemma covers_1 x : covers 1 x x.
Proof.
  intros j; split.
  - intros H. exists 0%N. split; [lia|]. rewrite N.add_0_r. exact H.
  - intros (d & Hd & H). replace d with 0%N in H by lia. rewrite N.add_0_r in H. exact H.
Qed.

Lemma covers_smear m x y : covers m x y -> covers (m + m) x (smear y m).
Proof.
  intros C j. unfold smear. rewrite N.lor_spec, N.shiftr_spec', orb_true_iff, (C j), (C (j + m)%N). split.
  - intros [(d & Hd & H)|(d & Hd & H)].
    + exists d. split; [lia|exact H].
    + exists (m + d)%N. split; [lia|]. rewrite N.add_assoc. exact H.
  - intros (d & Hd & H). destruct (N.lt_ge_cases d m) as [L|L].
    + left. eauto.
    + right. exists (d - m)%N. split; [lia|]. replace (j + m + (d - m))%N with (j + d)%N by lia. exact H.
Qed.

Lemma covers_ones m x : x <> 0%N -> (N.log2 x < m)%N -> forall y, covers m x y -> y = N.ones (N.succ (N.log2 x)).
Proof.
  intros Hx Hm y C. apply N.bits_inj. intros j.
  destruct (N.lt_ge_cases j (N.succ (N.log2 x))) as [L|L].
  - rewrite N.ones_spec_low by exact L. apply C.
    exists (N.log2 x - j)%N. split; [lia|]. replace (j + (N.log2 x - j))%N with (N.log2 x) by lia.
    apply N.bit_log2. exact Hx.
  - rewrite N.ones_spec_high by exact L. destruct (N.testbit y j) eqn:E; auto.
    apply C in E. destruct E as (d & _ & H). rewrite N.bits_above_log2 in H by lia. discriminate.
Qed.

Lemma N_log2_lt_pow x k : x <> 0%N -> (x < 2 ^ k)%N -> (N.log2 x < k)%N.
Proof. intros H1 H2. apply N.log2_lt_pow2; lia. Qed.

Lemma upper_pow2 v : (1 < v)%N -> (v <= 2 ^ 32)%N ->
  UpperPowerOfTwo v = (2 ^ N.succ (N.log2 (v - 1)))%N.
Proof.
  intros H1 H2. unfold UpperPowerOfTwo.
  assert (P32 : (2 ^ 32 = 4294967296)%N) by reflexivity.
  replace ((v + (two64 - 1)) mod two64)%N with (v - 1)%N.
  2:{ unfold two64 in *. replace (v + (18446744073709551616 - 1))%N with (v - 1 + 1 * 18446744073709551616)%N by lia.
      rewrite N.mod_add by discriminate. rewrite N.mod_small; lia. }
  pose proof (covers_1 (v - 1)) as C.
  apply covers_smear in C; change (1 + 1)%N with 2%N in C.
  apply covers_smear in C; change (2 + 2)%N with 4%N in C.
  apply covers_smear in C; change (4 + 4)%N with 8%N in C.
  apply covers_smear in C; change (8 + 8)%N with 16%N in C.
  apply covers_smear in C; change (16 + 16)%N with 32%N in C.
  assert (L : (N.log2 (v - 1) < 32)%N) by (apply N_log2_lt_pow; lia).
  apply covers_ones in C; [|lia|exact L]. rewrite C.
  rewrite N.ones_equiv, N.add_1_r.
  assert (Q : (2 ^ N.succ (N.log2 (v - 1)) <= 2 ^ 32)%N) by (apply N.pow_le_mono_r; lia).
  assert (Q0 : (2 ^ N.succ (N.log2 (v - 1)) <> 0)%N) by (apply N.pow_nonzero; lia).
  rewrite N.succ_pred by exact Q0. apply N.mod_small. unfold two64. lia.
Qed.

Lemma upper_pow2_spec v : (1 <= v)%N -> (v <= 2 ^ 32)%N ->
  exists k, UpperPowerOfTwo v = (2 ^ k)%N /\ (v <= 2 ^ k)%N /\
            forall j, (v <= 2 ^ j)%N -> (2 ^ k <= 2 ^ j)%N.
Proof.
  intros H1 H2. destruct (N.eq_dec v 1) as [->|E].
  - exists 0%N. split; [reflexivity|]. split; [lia|]. intros j Hj. rewrite N.pow_0_r. exact Hj.
  - rewrite upper_pow2 by lia. exists (N.succ (N.log2 (v - 1))). split; [reflexivity|].
    destruct (N.log2_spec (v - 1)) as [L1 L2]; [lia|]. split; [lia|].
    intros j Hj. apply N.pow_le_mono_r; [lia|]. apply N.le_succ_l. apply N.log2_lt_pow2; lia.
Qed.

Lemma upper_pow2_zero : UpperPowerOfTwo 0 = 0%N.
Proof. vm_compute. reflexivity. Qed.

Lemma upper_pow2_big : exists v, (v < 2 ^ 64)%N /\ (v <= UpperPowerOfTwo v)%N /\ forall k, UpperPowerOfTwo v <> (2 ^ k)%N.
Proof.
  exists (2 ^ 32 + 1)%N. split; [vm_compute; reflexivity|]. split; [vm_compute; discriminate|].
  assert (E : UpperPowerOfTwo (2 ^ 32 + 1) = 8589934591%N) by (vm_compute; reflexivity).
  rewrite E. intros k H.
  destruct (N.eq_dec k 0) as [->|K]; [discriminate|].
  assert (Ev : N.even (2 ^ k) = true) by (rewrite N.even_pow; auto).
  rewrite <- H in Ev. vm_compute in Ev. discriminate.
Qed.

Lemma ispow2_spec n : (n < 2 ^ 64)%N -> ISPOW2 n = true <-> exists k, n = (2 ^ k)%N.
Proof.
  intros Hn. unfold ISPOW2.
  change (2 ^ 64)%N with two64 in Hn.
  rewrite andb_true_iff, N.ltb_lt, N.eqb_eq.
  split.
  - intros [H0 H].
    replace ((n + (two64 - 1)) mod two64)%N with (n - 1)%N in H.
    2:{ replace (n + (two64 - 1))%N with (n - 1 + 1 * two64)%N by (unfold two64 in *; lia).
        rewrite N.mod_add by discriminate. rewrite N.mod_small; [reflexivity|unfold two64 in *; lia]. }
    exists (N.log2 n). destruct (N.log2_spec n) as [L1 L2]; [lia|].
    destruct (N.eq_dec n (2 ^ N.log2 n)) as [E|E]; [exact E|exfalso].
    assert (L : N.log2 (n - 1) = N.log2 n).
    { apply N.log2_unique; [lia|]. split; lia. }
    assert (B : N.testbit (N.land n (n - 1)) (N.log2 n) = true).
    { rewrite N.land_spec, N.bit_log2 by lia. rewrite <- L. rewrite N.bit_log2; [reflexivity|].
      pose proof (N.pow_nonzero 2 (N.log2 n)). lia. }
    rewrite H in B. rewrite N.bits_0 in B. discriminate.
  - intros (k & ->). assert (P : (0 < 2 ^ k)%N) by (apply N.neq_0_lt_0, N.pow_nonzero; lia).
    split; [exact P|].
    replace ((2 ^ k + (two64 - 1)) mod two64)%N with (2 ^ k - 1)%N.
    2:{ replace (2 ^ k + (two64 - 1))%N with (2 ^ k - 1 + 1 * two64)%N by (unfold two64 in *; lia).
        rewrite N.mod_add by discriminate. rewrite N.mod_small; [reflexivity|unfold two64 in *; lia]. }
    replace (2 ^ k - 1)%N with (N.ones k) by (rewrite N.ones_equiv; lia).
    rewrite N.land_ones. apply N.mod_same. lia.
Qed.

Lemma unsigned_modulus_ok a b : (LONG_MIN <= a <= LONG_MAX)%Z -> (0 < b <= LONG_MAX)%Z ->
  (Z.rem a b + b <= LONG_MAX)%Z -> UnsignedModulus a b = Ok (a mod b)%Z.
Proof.
  intros Ha Hb Ho. unfold UnsignedModulus, long_rem.
  destruct (Z.eqb_spec b 0); [lia|]. destruct (Z.eqb_spec b (-1)); [lia|].
  rewrite andb_false_r. cbn [bind]. unfold long_add.
  assert (R : (- b < Z.rem a b < b)%Z) by (pose proof (Z.rem_bound_abs a b ltac:(lia)); lia).
  destruct (Z.leb_spec LONG_MIN (Z.rem a b + b)); [|unfold LONG_MIN in *; lia].
  destruct (Z.leb_spec (Z.rem a b + b) LONG_MAX); [|lia]. cbn [andb bind].
  rewrite andb_false_r. cbn [bind]. f_equal.
  assert (E : (Z.rem (Z.rem a b + b) b = a mod b)%Z).
  { rewrite Z.rem_mod_nonneg by lia.
    replace (Z.rem a b + b)%Z with (Z.rem a b + 1 * b)%Z by lia.
    rewrite Z.mod_add by lia.
    pose proof (Z.quot_rem' a b) as Q.
    replace (Z.rem a b) with (a + - (Z.quot a b) * b)%Z by lia. apply Z.mod_add; lia. }
  rewrite E. apply Z.mod_small. pose proof (Z.mod_pos_bound a b ltac:(lia)).
  unfold LONG_MAX, LONG_MIN, two64 in *. simpl Z.of_N. lia.
Qed.

Lemma unsigned_modulus_half a b : (LONG_MIN <= a <= LONG_MAX)%Z -> (0 < b <= 2 ^ 62)%Z ->
  UnsignedModulus a b = Ok (a mod b)%Z.
Proof.
  intros Ha Hb. change (2 ^ 62)%Z with 4611686018427387904%Z in Hb.
  pose proof (Z.rem_bound_abs a b ltac:(lia)).
  apply unsigned_modulus_ok; auto; unfold LONG_MIN, LONG_MAX in *; lia.
Qed.

Lemma unsigned_modulus_nonpos a b : (LONG_MIN <= a <= 0)%Z -> (0 < b <= LONG_MAX)%Z ->
  UnsignedModulus a b = Ok (a mod b)%Z.
Proof.
  intros Ha Hb. pose proof (Z.rem_nonpos a b).
  apply unsigned_modulus_ok; auto; unfold LONG_MIN, LONG_MAX in *; lia.
Qed.

Lemma unsigned_modulus_overflow : exists a b,
  (0 < a <= LONG_MAX)%Z /\ (0 < b <= LONG_MAX)%Z /\ UnsignedModulus a b = UB.
Proof.
  exists (LONG_MAX - 1)%Z, LONG_MAX. split; [unfold LONG_MAX; lia|]. split; [unfold LONG_MAX; lia|].
  vm_compute. reflexivity.
Qed.
