(** Proofs about libcompat/snprintf.c: the arithmetic of the floating point conversions. *)
From Coq Require Import QArith Qabs Qround Qpower Lqa.
From Verif Require Import Prelude PreludeFacts Str StrFacts Libc LibcFacts PrintfModel PrintfSpec.
Local Close Scope Q_scope.
Set Implicit Arguments.

Lemma Qltb_lt a b : Qltb a b = true <-> (a < b)%Q.
Proof.
  unfold Qltb. rewrite negb_true_iff. split.
  - intros E. apply Qnot_le_lt. intros L. apply Qle_bool_iff in L. congruence.
  - intros L. destruct (Qle_bool b a) eqn:E; auto. apply Qle_bool_iff in E. exfalso. exact (Qlt_not_le _ _ L E).
Qed.
Lemma Qltb_ge a b : Qltb a b = false <-> (b <= a)%Q.
Proof. unfold Qltb. rewrite negb_false_iff. apply Qle_bool_iff. Qed.
Lemma Qleb_gt a b : Qle_bool a b = false <-> (b < a)%Q.
Proof. rewrite <- Qltb_lt. unfold Qltb. destruct (Qle_bool a b); cbn; intuition discriminate. Qed.

(** ** Powers of ten *)
Lemma ten_ne : ~ (10 == 0)%Q.
Proof. intros E. discriminate E. Qed.
Lemma pow_pos e : (0 < 10 ^ e)%Q.
Proof. apply Qpower_0_lt; reflexivity. Qed.
Lemma pow_S e : (10 ^ (e + 1) == 10 * 10 ^ e)%Q.
Proof. rewrite Qpower_plus by apply ten_ne. rewrite (Qmult_comm (10 ^ e)). reflexivity. Qed.
Lemma pow_Z p : (10 ^ Z.of_nat p == inject_Z (10 ^ Z.of_nat p))%Q.
Proof. symmetry. change 10%Q with (inject_Z 10). apply Zpower_Qpower. lia. Qed.
Lemma times10_spec n : forall r, (times10 n r == r * 10 ^ Z.of_nat n)%Q.
Proof.
  induction n as [|n IH]; intros r; cbn [times10]; [change (Z.of_nat 0) with 0%Z; cbn; lra|].
  rewrite IH. replace (Z.of_nat (S n)) with (Z.of_nat n + 1)%Z by lia. rewrite pow_S. lra.
Qed.
Lemma over10_spec n : forall r, (over10 n r == r / 10 ^ Z.of_nat n)%Q.
Proof.
  induction n as [|n IH]; intros r; cbn [over10]; [change (Z.of_nat 0) with 0%Z; cbn; field|].
  rewrite IH. replace (Z.of_nat (S n)) with (Z.of_nat n + 1)%Z by lia. rewrite pow_S. field.
  pose proof (pow_pos (Z.of_nat n)) as P. intros E. rewrite E in P. apply (Qlt_irrefl 0 P).
Qed.
Lemma mypow10_spec e : (mypow10 e == 10 ^ e)%Q.
Proof.
  unfold mypow10. rewrite over10_spec, times10_spec. destruct (Z.leb_spec 0 e) as [C|C].
  - rewrite !Z2Nat.id by lia. replace (Z.of_nat (Z.to_nat (- e))) with 0%Z by lia. cbn [Qpower]. field.
  - replace (Z.of_nat (Z.to_nat e)) with 0%Z by lia. rewrite Z2Nat.id by lia. rewrite Qpower_opp. cbn [Qpower]. field.
    pose proof (pow_pos e) as P. intros E. rewrite E in P. apply (Qlt_irrefl 0 P).
Qed.

(** ** Casting and rounding *)
Lemma trunc_floor q : (0 <= q)%Q -> trunc q = Qfloor q.
Proof. intros P. unfold trunc, Qfloor. destruct q as [n d]. cbn. apply Z.quot_div_nonneg; [|lia]. unfold Qle in P. cbn in P. lia. Qed.
Lemma floor_unique q n : (inject_Z n <= q < inject_Z n + 1)%Q -> Qfloor q = n.
Proof.
  intros [A B]. pose proof (Qfloor_le q) as F1. pose proof (Qlt_floor q) as F2.
  assert (n <= Qfloor q)%Z. { replace n with (Qfloor (inject_Z n)) by apply Qfloor_Z. now apply Qfloor_resp_le. }
  assert (Qfloor q < n + 1)%Z. { rewrite Zlt_Qlt, inject_Z_plus. change (inject_Z 1) with 1%Q. lra. }
  lia.
Qed.
Lemma cast_spec q : (0 <= q)%Q -> (q < inject_Z (2 ^ 64 - 1))%Q -> cast q = Qfloor q.
Proof.
  intros P L. unfold cast, UINTMAX_MAX. rewrite (proj2 (Qleb_gt _ _) L). cbv zeta. rewrite trunc_floor by exact P.
  rewrite (proj2 (Qle_bool_iff _ _) (Qfloor_le q)). reflexivity.
Qed.
Lemma rounds_unique x n n' : rounds x n -> rounds x n' -> n = n'.
Proof.
  unfold rounds. intros [A B] [C D].
  assert (E1 : (inject_Z n < inject_Z (n' + 1))%Q) by (rewrite inject_Z_plus; change (inject_Z 1) with 1%Q; lra).
  assert (E2 : (inject_Z n' < inject_Z (n + 1))%Q) by (rewrite inject_Z_plus; change (inject_Z 1) with 1%Q; lra).
  rewrite <- Zlt_Qlt in E1, E2. lia.
Qed.
Lemma rounds_eq x y n : (x == y)%Q -> rounds x n -> rounds y n.
Proof. unfold rounds. intros E [A B]. rewrite E in A, B. auto. Qed.
Lemma round_spec q : (0 <= q)%Q -> (q < inject_Z (2 ^ 64 - 1))%Q -> rounds q (myround q).
Proof.
  intros P L. unfold myround. rewrite cast_spec by auto. cbv zeta. pose proof (Qfloor_le q) as F1. pose proof (Qlt_floor q) as F2.
  rewrite inject_Z_plus in F2. change (inject_Z 1) with 1%Q in F2. unfold rounds.
  destruct (Qltb (q - inject_Z (Qfloor q)) (1 # 2)) eqn:E.
  - apply Qltb_lt in E. lra.
  - apply Qltb_ge in E. rewrite inject_Z_plus. change (inject_Z 1) with 1%Q. lra.
Qed.

Lemma abs_value q : (if Qle_bool 0 q then q else - q)%Q = Qabs q \/ ((if Qle_bool 0 q then q else - q) == Qabs q)%Q.
Proof.
  right. destruct (Qle_bool 0 q) eqn:E.
  - apply Qle_bool_iff in E. symmetry. now apply Qabs_pos.
  - apply Qleb_gt in E. symmetry. apply Qabs_neg. lra.
Qed.
Definition absq (q : Q) : Q := if Qle_bool 0 q then q else (- q)%Q.
Lemma absq_eq q : (absq q == Qabs q)%Q.
Proof. destruct (abs_value q) as [E|E]; unfold absq; [rewrite E; reflexivity|exact E]. Qed.
Lemma absq_nonneg q : (0 <= absq q)%Q.
Proof. rewrite absq_eq. apply Qabs_nonneg. Qed.
