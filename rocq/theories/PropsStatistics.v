(** C137 (statistics.c) and C138 (round). *)
From Coq Require Import QArith Qabs Qround Qpower Lqa.
From Verif Require Import Prelude StatisticsModel.
Set Implicit Arguments.
Local Open Scope Q_scope.

(** * C137.  Spec: the weight of a sample is its trust times what the later ones leave. *)
(** [l]: samples with their trusts, the first one in front *)
Fixpoint remains (l : list (Q * Q)) : Q := match l with [] => 1 | (_, p) :: l => (1 - p) * remains l end.
Fixpoint average (l : list (Q * Q)) : Q := match l with [] => 0 | (q, p) :: l => p * remains l * q + average l end.
Definition expectation (q0 : Q) (l : list (Q * Q)) : Q := remains l * q0 + average l.
(** the squares of the distances of each sample from the expectation before it *)
Fixpoint deviations (q0 : Q) (before l : list (Q * Q)) : list (Q * Q) :=
  match l with
  | [] => []
  | (q, p) :: l => ((q - expectation q0 before) * (q - expectation q0 before), p) :: deviations q0 (before ++ [(q, p)]) l
  end.
Definition exact (x : Q) : Q := x.
Definition trust (p : Q) : Prop := 0 <= p <= 1.
Definition trusts (l : list (Q * Q)) : Prop := Forall (fun x => trust (snd x)) l.
(** a rounding: it keeps the order, and 0 and 1 *)
Record rounding (rnd : Q -> Q) : Prop := { monotone : forall x y, x <= y -> rnd x <= rnd y; keeps_0 : rnd 0 == 0; keeps_1 : rnd 1 == 1 }.

Lemma remains_snoc l q p : remains (l ++ [(q, p)]) == remains l * (1 - p).
Proof. induction l as [|[q' p'] l IH]; cbn [app remains]; [ring|]. rewrite IH. ring. Qed.
Lemma average_snoc l q p : average (l ++ [(q, p)]) == (1 - p) * average l + p * q.
Proof. induction l as [|[q' p'] l IH]; cbn [app remains average]; [ring|]. rewrite IH, remains_snoc. ring. Qed.
Lemma expectation_snoc q0 l q p : expectation q0 (l ++ [(q, p)]) == p * q + (1 - p) * expectation q0 l.
Proof. unfold expectation. rewrite remains_snoc, average_snoc. ring. Qed.
Lemma deviations_snoc q0 l : forall b q p, deviations q0 b (l ++ [(q, p)]) =
  deviations q0 b l ++ [((q - expectation q0 (b ++ l)) * (q - expectation q0 (b ++ l)), p)].
Proof.
  induction l as [|[q' p'] l IH]; intros b q p; cbn [app deviations]; [now rewrite app_nil_r|]. rewrite IH, <- app_assoc. reflexivity.
Qed.
Lemma samples_snoc rnd q0 l q p : samples rnd q0 (l ++ [(q, p)]) = QAverage rnd (samples rnd q0 l) q p.
Proof. unfold samples. rewrite fold_left_app. reflexivity. Qed.

(** Without rounding: the expectation is the weighted average of all samples, the variance that of the squared
    deviations. *)
Theorem C137_expectation q0 l : qp_expect (samples exact q0 l) == expectation q0 l.
Proof.
  induction l as [|[q p] l IH] using rev_ind; [unfold expectation; cbn; ring|]. rewrite samples_snoc, expectation_snoc.
  cbn [QAverage qp_expect]. unfold GAverage, fadd, fsub, fmul, exact in *. rewrite IH. ring.
Qed.
Theorem C137_variance q0 l : qp_var (samples exact q0 l) == average (deviations q0 [] l).
Proof.
  induction l as [|[q p] l IH] using rev_ind; [reflexivity|]. rewrite samples_snoc, deviations_snoc, average_snoc.
  cbn [QAverage qp_var app]. pose proof (C137_expectation q0 l) as E. unfold GAverage, fadd, fsub, fmul, exact in *. rewrite IH, E. ring.
Qed.
(** the weights are not negative and add up to 1 *)
Lemma remains_between l : trusts l -> 0 <= remains l <= 1.
Proof.
  induction 1 as [|[q p] l T _ IH]; cbn [remains]; [lra|]. cbn in T. unfold trust in T. nra.
Qed.
Theorem C137_weights l : remains l + average (map (fun x => (1, snd x)) l) == 1.
Proof.
  assert (R : forall l : list (Q * Q), remains (map (fun x => (1, snd x)) l) == remains l) by (clear; induction l as [|[q p] l IH]; cbn; [reflexivity|]; rewrite IH; reflexivity).
  induction l as [|[q p] l IH]; cbn [map remains average snd]; [ring|]. rewrite R. setoid_replace (p * remains l * 1 + average (map (fun x => (1, snd x)) l)) with (p * remains l + (1 - remains l)) by (rewrite <- IH at 2; ring). ring.
Qed.
(** the expectation stays between the smallest and the largest sample, and the variance below the square of their distance *)
Theorem C137_between lo hi q0 l : trusts l -> lo <= q0 <= hi -> Forall (fun x => lo <= fst x <= hi) l ->
  lo <= qp_expect (samples exact q0 l) <= hi /\ 0 <= qp_var (samples exact q0 l) <= (hi - lo) * (hi - lo).
Proof.
  intros T B0 B. induction l as [|[q p] l IH] using rev_ind; [cbn; split; nra|].
  apply Forall_app in T as [T Tp]. apply Forall_app in B as [B Bq]. specialize (IH T B) as [[E1 E2] [V1 V2]].
  inversion Tp as [|? ? [P1 P2] _]; subst. inversion Bq as [|? ? [Q1 Q2] _]; subst. cbn [fst snd] in *.
  rewrite samples_snoc. cbn [QAverage qp_expect qp_var]. unfold GAverage, fadd, fsub, fmul, exact in *.
  set (e := qp_expect (samples (fun x => x) q0 l)) in *. set (v := qp_var (samples (fun x => x) q0 l)) in *.
  change (qp_expect (samples (fun x => x) q0 l)) with e. change (qp_var (samples (fun x => x) q0 l)) with v.
  assert (D : 0 <= (q - e) * (q - e) <= (hi - lo) * (hi - lo)).
  { assert (H1 : 0 <= ((hi - lo) - (q - e)) * ((hi - lo) + (q - e))) by (apply Qmult_le_0_compat; lra).
    split; [|clear - H1; nra]. destruct (Qlt_le_dec (q - e) 0); [setoid_replace ((q - e) * (q - e)) with ((- (q - e)) * (- (q - e))) by ring|]; apply Qmult_le_0_compat; lra. }
  set (d := (q - e) * (q - e)) in *. set (h := (hi - lo) * (hi - lo)) in *. clearbody d h. split; split; nra.
Qed.
(** With any rounding the variance is never negative, and the expectation of samples that are not negative is not either. *)
Theorem C137_never_negative rnd q0 l : rounding rnd -> trusts l ->
  0 <= qp_var (samples rnd q0 l) /\ (0 <= q0 -> Forall (fun x => 0 <= fst x) l -> 0 <= qp_expect (samples rnd q0 l)).
Proof.
  intros [MO K0 K1] T. assert (P : forall x, 0 <= x -> 0 <= rnd x) by (intros x L; apply MO in L; lra).
  assert (M : forall a b, 0 <= a -> 0 <= b -> 0 <= fmul rnd a b) by (intros a b A B; apply P; nra).
  assert (G : forall a o p, trust p -> 0 <= a -> 0 <= o -> 0 <= GAverage rnd a o p).
  { intros a o p [P1 P2] A O. unfold GAverage, fadd. apply P. assert (S1 : 0 <= fsub rnd 1 p) by (apply P; lra).
    pose proof (@M p a P1 A). pose proof (@M (fsub rnd 1 p) o S1 O). lra. }
  induction l as [|[q p] l IH] using rev_ind; [cbn; split; [lra|auto]|].
  apply Forall_app in T as [T Tp]. specialize (IH T) as [V E]. inversion Tp as [|? ? Tr _]; subst. rewrite samples_snoc. cbn [QAverage qp_expect qp_var].
  split.
  - apply G; auto. set (d := fsub rnd q (qp_expect (samples rnd q0 l))). unfold fmul. apply P. nra.
  - intros L0 F. apply Forall_app in F as [F Fq]. inversion Fq; subst. apply G; auto.
Qed.
(** The last sample and its distance from the one before are what the record says, and a trust of 1 forgets all before. *)
Theorem C137_last rnd q0 l q p : qp_q (samples rnd q0 (l ++ [(q, p)])) = q /\ qp_dq (samples rnd q0 (l ++ [(q, p)])) = rnd (q - last (map fst l) q0).
Proof.
  assert (A : forall l, qp_q (samples rnd q0 l) = last (map fst l) q0).
  { intros l0. induction l0 as [|[q1 p1] l0 IH] using rev_ind; [reflexivity|]. rewrite samples_snoc, map_app. cbn [map fst]. rewrite last_last. reflexivity. }
  rewrite samples_snoc. cbn [QAverage qp_q qp_dq]. now rewrite A.
Qed.
Print Assumptions C137_expectation.
Print Assumptions C137_variance.
Print Assumptions C137_weights.
Print Assumptions C137_between.
Print Assumptions C137_never_negative.
Print Assumptions C137_last.
(** a rounding to multiples of 1/1024 (downwards), and a history *)
Definition coarse (x : Q) : Q := Qfloor (x * 1024) # 1024.
Lemma coarse_rounding : rounding coarse.
Proof.
  split; [|reflexivity|reflexivity]. intros x y L. unfold coarse. assert (F : (Qfloor (x * 1024) <= Qfloor (y * 1024))%Z) by (apply Qfloor_resp_le; lra).
  unfold Qle. cbn. apply Z.mul_le_mono_nonneg_r; [discriminate|exact F].
Qed.
Example C137_instance : trusts [(4, 1 # 2); (1, 1 # 3)] /\ qp_expect (samples exact 2 [(4, 1 # 2); (1, 1 # 3)]) == 7 # 3 /\
  qp_var (samples exact 2 [(4, 1 # 2); (1, 1 # 3)]) == 8 # 3 /\ qp_expect (samples coarse 2 [(4, 1 # 2); (1, 1 # 3)]) == 2387 # 1024.
Proof. split; [repeat constructor; cbn; discriminate|]. repeat split; vm_compute; reflexivity. Qed.

(** * C138: round *)
(** the finite binary64 numbers *)
Definition double (x : Q) : Prop := exists m e, (Z.abs m < 2 ^ 53)%Z /\ (-1074 <= e <= 971)%Z /\ x == inject_Z m * 2 ^ e.
(** exact results are not changed *)
Definition keeps_doubles (rnd : Q -> Q) : Prop := forall x, double x -> rnd x == x.
(** the integer that is nearest to x, of two the one that is farther from 0 *)
Definition nearest (x : Q) (n : Z) : Prop := Qabs (x - inject_Z n) <= 1 # 2 /\ (Qabs (x - inject_Z n) == 1 # 2 -> Qabs x < Qabs (inject_Z n)).

Lemma double_cases x : double x -> (exists n, x == inject_Z n) \/ (exists m d k, (Z.abs m < 2 ^ 53)%Z /\ (0 < k <= 1074)%Z /\ (Z.pos d = 2 ^ k)%Z /\ x == m # d).
Proof.
  intros (m & e & M & E & X). destruct (Z_le_gt_dec 0 e) as [P|P].
  - left. exists (m * 2 ^ e)%Z. rewrite X, inject_Z_mult, Zpower_Qpower by exact P. reflexivity.
  - right. assert (PW : (0 < 2 ^ (- e))%Z) by (apply Z.pow_pos_nonneg; lia). destruct (2 ^ (- e))%Z as [|d|] eqn:D; try lia.
    exists m, d, (- e)%Z. repeat split; try lia; auto.
    assert (R : 2 ^ e == / inject_Z (Z.pos d)).
    { rewrite <- (Z.opp_involutive e) at 1. rewrite Qpower_opp. apply Qinv_comp. rewrite <- D, Zpower_Qpower by lia. reflexivity. }
    rewrite X, R. symmetry. apply Qmake_Qdiv.
Qed.
Lemma double_int n : (Z.abs n < 2 ^ 53)%Z -> double (inject_Z n).
Proof. intros L. exists n, 0%Z. repeat split; try lia. cbn. ring. Qed.
Lemma double_opp x : double x -> double (- x).
Proof. intros (m & e & M & E & X). exists (- m)%Z, e. rewrite X, inject_Z_opp. repeat split; try lia. ring. Qed.
(** the part behind the point is a double, and if it is not 0, the integer is small *)
Lemma fraction x : double x -> 0 <= x -> double (x - inject_Z (Qfloor x)) /\ (x == inject_Z (Qfloor x) \/ (0 <= Qfloor x < 2 ^ 52)%Z).
Proof.
  intros D P. destruct (double_cases D) as [(n & X)|(m & d & k & M & K & DK & X)].
  - assert (F : Qfloor x = n) by (rewrite (Qfloor_comp _ _ X); apply Qfloor_Z). rewrite F. split; [|left; exact X].
    destruct (@double_int 0 ltac:(reflexivity)) as (m & e & A & B & C). exists m, e. repeat split; try tauto. rewrite X, <- C. cbn. ring.
  - assert (F : Qfloor x = (m / Z.pos d)%Z) by (rewrite (Qfloor_comp _ _ X); reflexivity). rewrite F.
    assert (M0 : (0 <= m)%Z). { rewrite X in P. unfold Qle in P. cbn in P. lia. }
    assert (D2 : (2 <= Z.pos d)%Z). { rewrite DK. change 2%Z with (2 ^ 1)%Z at 1. apply Z.pow_le_mono_r; lia. }
    pose proof (Z.div_mod m (Z.pos d) ltac:(lia)) as DM. pose proof (Z.mod_pos_bound m (Z.pos d) ltac:(lia)) as MB.
    split.
    + exists (m mod Z.pos d)%Z, (- k)%Z. assert (0 <= m / Z.pos d)%Z by (apply Z.div_pos; lia). repeat split; try nia.
      assert (R : 2 ^ (- k) == / inject_Z (Z.pos d)) by (rewrite Qpower_opp; apply Qinv_comp; rewrite DK, Zpower_Qpower by lia; reflexivity).
      rewrite R, X, (Qmake_Qdiv m d). unfold Qdiv. rewrite DM at 1. rewrite inject_Z_plus, inject_Z_mult.
      field. unfold Qeq. cbn. lia.
    + right. split; [apply Z.div_pos; lia|]. apply Z.div_lt_upper_bound; [lia|]. change (2 ^ 53)%Z with (2 * 2 ^ 52)%Z in M. lia.
Qed.
Lemma round_up rnd x : keeps_doubles rnd -> double x -> 0 <= x ->
  exists n, (let y := inject_Z (Qfloor x) in if Qle_bool (1 # 2) (fsub rnd x y) then fadd rnd y 1 else y) == inject_Z n /\ nearest x n /\ (0 <= n)%Z /\ (n = Qfloor x \/ (n < 2 ^ 53)%Z).
Proof.
  intros KD D P. destruct (fraction D P) as [FD FI]. pose proof (Qfloor_le x) as L1. pose proof (Qlt_floor x) as L2. rewrite inject_Z_plus in L2. change (inject_Z 1) with 1 in L2.
  assert (FP : (0 <= Qfloor x)%Z) by (apply (Qfloor_resp_le 0); exact P).
  assert (FQ : 0 <= inject_Z (Qfloor x)) by (change 0 with (inject_Z 0); rewrite <- Zle_Qle; exact FP).
  cbv zeta. assert (R : fsub rnd x (inject_Z (Qfloor x)) == x - inject_Z (Qfloor x)) by (apply KD, FD).
  destruct (Qle_bool (1 # 2) (fsub rnd x (inject_Z (Qfloor x)))) eqn:B.
  - apply Qle_bool_iff in B. rewrite R in B. destruct FI as [FI|FI]; [rewrite <- FI in B; lra|].
    exists (Qfloor x + 1)%Z. split; [|split; [|split; [lia|right; lia]]].
    + unfold fadd. etransitivity; [apply KD|rewrite inject_Z_plus; reflexivity]. change 1 with (inject_Z 1) at 1. rewrite <- inject_Z_plus. apply double_int. lia.
    + split; rewrite inject_Z_plus; change (inject_Z 1) with 1.
      * rewrite Qabs_neg by lra. lra.
      * intros _. rewrite !Qabs_pos by lra. lra.
  - assert (B' : ~ 1 # 2 <= x - inject_Z (Qfloor x)) by (intros H; rewrite <- R, <- Qle_bool_iff in H; congruence).
    exists (Qfloor x). split; [reflexivity|]. split; [|auto]. split; rewrite Qabs_pos by lra; [lra|intros H; lra].
Qed.
(** For every double, and any machine that does not change exact results, round gives the nearest integer, and away
    from zero in the middle. *)
Theorem C138_round rnd x : keeps_doubles rnd -> double x -> exists n, round rnd x == inject_Z n /\ nearest x n.
Proof.
  intros KD D. unfold round. destruct (Qle_bool 0 x) eqn:B.
  - apply Qle_bool_iff in B. destruct (round_up KD D B) as (n & E & N & _). eauto.
  - assert (B' : x < 0) by (apply Qnot_le_lt; intros H; apply Qle_bool_iff in H; congruence).
    assert (P : 0 <= - x) by lra. destruct (fraction (double_opp D) P) as [FD FI].
    destruct (round_up KD (double_opp D) P) as (n & E & [N1 N2] & NN & _). unfold Qceiling. cbv zeta in *.
    set (f := Qfloor (- x)) in *.
    assert (R : fsub rnd (- x) (inject_Z f) == - x - inject_Z f) by (apply KD, FD).
    assert (R' : fsub rnd (inject_Z (- f)) x == - x - inject_Z f).
    { unfold fsub. rewrite inject_Z_opp. etransitivity; [apply KD|ring]. destruct FD as (m & e & A & C & G). exists m, e. repeat split; try tauto. rewrite <- G. ring. }
    assert (SAME : Qle_bool (1 # 2) (fsub rnd (inject_Z (- f)) x) = Qle_bool (1 # 2) (fsub rnd (- x) (inject_Z f))).
    { apply eq_true_iff_eq. rewrite !Qle_bool_iff, R, R'. reflexivity. }
    rewrite SAME. exists (- n)%Z. split.
    + destruct (Qle_bool (1 # 2) (fsub rnd (- x) (inject_Z f))) eqn:B2; [|rewrite !inject_Z_opp, E; reflexivity].
      apply Qle_bool_iff in B2. rewrite R in B2. destruct FI as [FI|FI]; [rewrite <- FI in B2; lra|].
      assert (A1 : fadd rnd (inject_Z f) 1 == inject_Z (f + 1)) by (unfold fadd; etransitivity; [apply KD|rewrite inject_Z_plus; reflexivity]; change 1 with (inject_Z 1) at 1; rewrite <- inject_Z_plus; apply double_int; lia).
      rewrite A1 in E. unfold fsub. etransitivity; [apply KD|].
      2: { rewrite !inject_Z_opp, <- E, inject_Z_plus. change (inject_Z 1) with 1. ring. }
      * change 1 with (inject_Z 1). unfold Qminus. rewrite <- inject_Z_opp, <- inject_Z_plus. apply double_int. lia.
    + assert (AB : Qabs (x - inject_Z (- n)) == Qabs (- x - inject_Z n)).
      { rewrite inject_Z_opp. rewrite <- (Qabs_opp (x - - inject_Z n)). apply Qabs_wd. ring. }
      split; [rewrite AB; exact N1|]. intros H. rewrite AB in H. specialize (N2 H). rewrite Qabs_opp in N2. rewrite inject_Z_opp, Qabs_opp. exact N2.
Qed.
Print Assumptions C138_round.
Definition just_below_half : Q := 9007199254740991 # 18014398509481984.
Example C138_instance : keeps_doubles exact /\ double just_below_half /\ round exact just_below_half == 0 /\ round exact (5 # 2) == 3 /\ round exact (- (5 # 2)) == -3.
Proof.
  split; [intros x _; reflexivity|]. split; [exists 9007199254740991%Z, (-54)%Z; repeat split; vm_compute; congruence|]. repeat split; vm_compute; reflexivity.
Qed.
