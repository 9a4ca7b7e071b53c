(** Proofs about libcompat/snprintf.c: getexponent, and the digits of a floating point value. *)
From Coq Require Import QArith Qabs Qround Qpower Lqa.
From Verif Require Import Prelude PreludeFacts Str StrFacts Libc LibcFacts PrintfModel PrintfSpec PrintfFloat.
Local Close Scope Q_scope.
Set Implicit Arguments.

Lemma pow_pred e : (10 ^ e == 10 * 10 ^ (e - 1))%Q.
Proof. replace e with (e - 1 + 1)%Z at 1 by lia. apply pow_S. Qed.
Lemma pow_ge1 k : (1 <= 10 ^ Z.of_nat k)%Q.
Proof. apply Qpower_1_le; [lra|lia]. Qed.
Lemma pow_neg_le k : (10 ^ (- Z.of_nat k) <= 1)%Q.
Proof. change 1%Q with (10 ^ 0)%Q. apply Qpower_le_compat_l; [lia|lra]. Qed.

(** * getexponent *)
Lemma down_spec : forall k f tmp e, (10 ^ (- Z.of_nat k) <= tmp < 10 ^ (- Z.of_nat k + 1))%Q -> (-99 <= e - Z.of_nat k)%Z -> k < f ->
  exists tmp', exponent_down f tmp e = Ok (tmp', (e - Z.of_nat k)%Z) /\ (tmp' < 10)%Q.
Proof.
  induction k as [|k IH]; intros f tmp e [A B] LE LT; (destruct f as [|f]; [lia|]); cbn [exponent_down].
  - change (- Z.of_nat 0)%Z with 0%Z in A, B. change (0 + 1)%Z with 1%Z in B. rewrite Qpower_1_r in B. change (10 ^ 0)%Q with 1%Q in A.
    rewrite (proj2 (Qltb_ge _ _) A). cbn [andb]. exists tmp. split; [|exact B]. do 2 f_equal. lia.
  - assert (B1 : (tmp < 1)%Q).
    { eapply Qlt_le_trans; [exact B|]. replace (- Z.of_nat (S k) + 1)%Z with (- Z.of_nat k)%Z by lia. apply pow_neg_le. }
    assert (A0 : (0 < tmp)%Q) by (eapply Qlt_le_trans; [apply pow_pos|exact A]).
    rewrite (proj2 (Qltb_lt _ _) B1), (proj2 (Qltb_lt _ _) A0). cbn [andb]. cbv zeta.
    destruct (e - 1 >? -99)%Z eqn:G; rewrite Z.gtb_ltb in G.
    + destruct (IH f (tmp * 10)%Q (e - 1)%Z) as (tmp' & E & L).
      * pose proof (pow_S (- Z.of_nat (S k))) as P1. pose proof (pow_S (- Z.of_nat (S k) + 1)) as P2.
        replace (- Z.of_nat (S k) + 1)%Z with (- Z.of_nat k)%Z in * by lia. lra.
      * lia.
      * lia.
      * exists tmp'. split; auto. rewrite E. do 2 f_equal. lia.
    + apply Z.ltb_ge in G. exists tmp. split; [|lra]. do 2 f_equal. lia.
Qed.
Lemma up_small f tmp e : (tmp < 10)%Q -> exponent_up (S f) tmp e = Ok e.
Proof. intros L. cbn [exponent_up]. now rewrite (proj2 (Qleb_gt _ _) L). Qed.
Lemma up_spec : forall k f tmp e, (10 ^ Z.of_nat k <= tmp < 10 ^ (Z.of_nat k + 1))%Q -> (e + Z.of_nat k <= 99)%Z -> k < f ->
  exponent_up f tmp e = Ok (e + Z.of_nat k)%Z.
Proof.
  induction k as [|k IH]; intros f tmp e [A B] LE LT; (destruct f as [|f]; [lia|]).
  - change (Z.of_nat 0 + 1)%Z with 1%Z in B. rewrite Qpower_1_r in B. rewrite up_small by exact B. f_equal. lia.
  - cbn [exponent_up].
    replace (Z.of_nat (S k)) with (Z.of_nat k + 1)%Z in * by lia. rewrite pow_S in A. rewrite (pow_S (Z.of_nat k + 1)) in B. pose proof (pow_S (Z.of_nat k)) as P. pose proof (pow_ge1 k) as G1.
    assert (T : (10 <= tmp)%Q) by lra. rewrite (proj2 (Qle_bool_iff _ _) T). cbv zeta.
    destruct (Z.ltb_spec (e + 1) 99) as [G|G].
    + rewrite IH; [f_equal; lia| |lia|lia]. split; [apply Qle_shift_div_l; [reflexivity|lra]|apply Qlt_shift_div_r; [reflexivity|lra]].
    + f_equal. lia.
Qed.
Lemma getexponent_spec q E : (10 ^ E <= Qabs q < 10 ^ (E + 1))%Q -> (-99 <= E <= 99)%Z -> getexponent q = Ok E.
Proof.
  intros [A B] R. unfold getexponent. fold (absq q). cbv zeta. rewrite <- (absq_eq q) in A, B. set (x := absq q) in *. clearbody x.
  destruct (Z.leb_spec E 0) as [C|C].
  - destruct (@down_spec (Z.to_nat (- E)) 100 x 0%Z) as (tmp' & D & L).
    + rewrite Z2Nat.id by lia. rewrite Z.opp_involutive. auto.
    + lia.
    + lia.
    + rewrite D. cbn [bind]. rewrite up_small by exact L. f_equal. lia.
  - assert (G : (1 <= x)%Q) by (eapply Qle_trans; [|exact A]; apply Qpower_1_le; [lra|lia]).
    change 100 with (S 99) at 1. cbn [exponent_down]. rewrite (proj2 (Qltb_ge _ _) G). cbn [andb bind].
    rewrite (@up_spec (Z.to_nat E) 100 x 0%Z); [f_equal; lia| |lia|lia]. rewrite Z2Nat.id by lia. auto.
Qed.
Lemma getexponent_zero q : (Qabs q == 0)%Q -> getexponent q = Ok 0%Z.
Proof.
  intros A. unfold getexponent. fold (absq q). cbv zeta. rewrite <- absq_eq in A. set (x := absq q) in *. clearbody x.
  change 100 with (S 99). cbn [exponent_down]. assert (L : (x <= 0)%Q) by (rewrite A; apply Qle_refl). rewrite (proj2 (Qltb_ge 0 x) L). rewrite andb_false_r. cbn [bind].
  apply up_small. rewrite A. reflexivity.
Qed.

(** * The digits *)
Lemma mask_spec p : trunc (mypow10 (Z.of_nat p)) = (10 ^ Z.of_nat p)%Z.
Proof.
  rewrite trunc_floor.
  - rewrite (Qfloor_comp _ _ (mypow10_spec (Z.of_nat p))), (Qfloor_comp _ _ (pow_Z p)). apply Qfloor_Z.
  - rewrite mypow10_spec. apply Qlt_le_weak, pow_pos.
Qed.
Definition scaled (q : Q) (estyle : bool) (e : Z) : Q := if estyle then (absq q / mypow10 e)%Q else absq q.
Lemma scaled_nonneg q s e : (0 <= scaled q s e)%Q.
Proof.
  unfold scaled. pose proof (absq_nonneg q) as P. destruct s; auto. apply Qle_shift_div_l; [rewrite mypow10_spec; apply pow_pos|]. rewrite Qmult_0_l. exact P.
Qed.
Lemma parts_spec q estyle p e n : p <= 19 -> (scaled q estyle e < inject_Z (2 ^ 64 - 1))%Q -> rounds (scaled q estyle e * 10 ^ Z.of_nat p)%Q n ->
  float_parts q estyle (Z.of_nat p) e =
  if estyle && (n =? 10 * 10 ^ Z.of_nat p)%Z && (10 ^ Z.of_nat p * Qfloor (scaled q estyle e) <? n)%Z && (Qfloor (scaled q estyle e) <? 10)%Z then Some (Z.of_nat p, 1%Z, 0%Z, (e + 1)%Z)
  else Some (Z.of_nat p, (n / 10 ^ Z.of_nat p)%Z, (n mod 10 ^ Z.of_nat p)%Z, e).
Proof.
  intros P L R. unfold float_parts. cbv zeta. replace (Z.of_nat p >? 19)%Z with false by (symmetry; rewrite Z.gtb_ltb; apply Z.ltb_ge; lia).
  fold (absq q). fold (scaled q estyle e). pose proof (scaled_nonneg q estyle e) as Y0. set (y := scaled q estyle e) in *. clearbody y.
  rewrite cast_spec by auto. rewrite mask_spec. apply (@rounds_eq _ (y * inject_Z (10 ^ Z.of_nat p))%Q) in R; [|rewrite pow_Z; reflexivity]. assert (MB : (1 <= 10 ^ Z.of_nat p <= 10 ^ 19)%Z) by (split; [|apply Z.pow_le_mono_r; lia]; pose proof (Z.pow_pos_nonneg 10 (Z.of_nat p)); lia).
  set (M := (10 ^ Z.of_nat p)%Z) in *. clearbody M. pose proof (Qfloor_le y) as F1. pose proof (Qlt_floor y) as F2.
  rewrite inject_Z_plus in F2. change (inject_Z 1) with 1%Q in F2.
  assert (I0 : (0 <= Qfloor y)%Z) by (change 0%Z with (Qfloor 0); now apply Qfloor_resp_le).
  assert (IB : (Qfloor y < 2 ^ 64 - 1)%Z) by (rewrite Zlt_Qlt; eapply Qle_lt_trans; eauto).
  unfold UINTMAX_MAX. rewrite (proj2 (Z.eqb_neq _ _)) by lia.
  assert (MQ : (1 <= inject_Z M)%Q) by (change 1%Q with (inject_Z 1); rewrite <- Zle_Qle; lia).
  assert (V0 : (0 <= inject_Z M * (y - inject_Z (Qfloor y)))%Q) by (apply Qmult_le_0_compat; lra).
  assert (V1 : (inject_Z M * (y - inject_Z (Qfloor y)) < inject_Z M)%Q).
  { setoid_replace (inject_Z M) with (inject_Z M * 1)%Q at 2 by ring. apply Qmult_lt_l; lra. }
  assert (MU : (inject_Z M < inject_Z (2 ^ 64 - 1))%Q) by (rewrite <- Zlt_Qlt; lia).
  pose proof (round_spec V0 ltac:(eapply Qlt_trans; eauto)) as RS. set (r := myround _) in *. clearbody r.
  assert (RB : (0 <= r <= M)%Z).
  { destruct RS as [A B]. split.
    - assert (X : (inject_Z (-1) < inject_Z r)%Q) by (change (inject_Z (-1)) with (-1)%Q; lra). rewrite <- Zlt_Qlt in X. lia.
    - assert (X : (inject_Z r < inject_Z (M + 1))%Q) by (rewrite inject_Z_plus; change (inject_Z 1) with 1%Q; lra). rewrite <- Zlt_Qlt in X. lia. }
  assert (EN : n = (M * Qfloor y + r)%Z).
  { eapply rounds_unique; [exact R|]. destruct RS as [A B]. unfold rounds. rewrite inject_Z_plus, inject_Z_mult.
    setoid_replace (y * inject_Z M)%Q with (inject_Z M * (y - inject_Z (Qfloor y)) + inject_Z M * inject_Z (Qfloor y))%Q by ring. lra. }
  destruct (r >=? M)%Z eqn:GE; rewrite Z.geb_leb in GE.
  - apply Z.leb_le in GE. assert (r = M) by lia. subst r.
    replace (n / M)%Z with (Qfloor y + 1)%Z by (apply Z.div_unique with 0%Z; lia).
    replace (n mod M)%Z with 0%Z by (apply Z.mod_unique with (Qfloor y + 1)%Z; lia).
    destruct estyle; cbn [andb]; auto. destruct (Z.eqb_spec (Qfloor y + 1) 10) as [C|C].
    + assert (Qfloor y = 9%Z) by lia. rewrite H in *. rewrite (proj2 (Z.eqb_eq n _)) by lia. rewrite (proj2 (Z.ltb_lt _ n)) by lia. reflexivity.
    + rewrite (proj2 (Z.eqb_neq n _)) by nia. reflexivity.
  - apply Z.leb_gt in GE.
    replace (n / M)%Z with (Qfloor y) by (apply Z.div_unique with r; lia).
    replace (n mod M)%Z with r by (apply Z.mod_unique with (Qfloor y); lia).
    destruct estyle; cbn [andb]; auto.
    destruct (Z.eqb_spec n (10 * M)) as [C|C]; cbn [andb]; auto. destruct (Z.ltb_spec (M * Qfloor y) n) as [D|D]; cbn [andb]; auto.
    destruct (Z.ltb_spec (Qfloor y) 10) as [G|G]; auto. exfalso. nia.
Qed.

Lemma parts_fixed q p e n : p <= 19 -> (Qabs q < inject_Z (2 ^ 64 - 1))%Q -> rounds (Qabs q * 10 ^ Z.of_nat p)%Q n ->
  float_parts q false (Z.of_nat p) e = Some (Z.of_nat p, (n / 10 ^ Z.of_nat p)%Z, (n mod 10 ^ Z.of_nat p)%Z, e).
Proof.
  intros P L R. rewrite (@parts_spec q false p e n); auto; cbn [scaled].
  - rewrite absq_eq. exact L.
  - eapply rounds_eq; [|exact R]. rewrite absq_eq. reflexivity.
Qed.
Lemma scientific_parts q p X n : scientific (Qabs q) p X n -> p <= 19 ->
  ((Qabs q == 0)%Q \/ (10 ^ (-99) <= Qabs q)%Q) -> (X <= 99)%Z ->
  exists E, getexponent q = Ok E /\ float_parts q true (Z.of_nat p) E = Some (Z.of_nat p, (n / 10 ^ Z.of_nat p)%Z, (n mod 10 ^ Z.of_nat p)%Z, X) /\ (-99 <= X)%Z /\ (0 <= n < 10 ^ Z.of_nat (p + 1))%Z.
Proof.
  intros S P LO HI.
  assert (MP : (1 <= 10 ^ Z.of_nat p)%Z) by (pose proof (Z.pow_pos_nonneg 10 (Z.of_nat p)); lia).
  assert (MS : (10 ^ Z.of_nat (p + 1) = 10 * 10 ^ Z.of_nat p)%Z) by (rewrite Nat.add_1_r, Nat2Z.inj_succ; apply Z.pow_succ_r; lia).
  assert (GEN : forall E m, (10 ^ E <= Qabs q < 10 ^ (E + 1))%Q -> (E <= 99)%Z -> rounds (Qabs q / 10 ^ E * 10 ^ Z.of_nat p)%Q m ->
    getexponent q = Ok E /\ (-99 <= E)%Z /\ (0 <= m)%Z /\
    float_parts q true (Z.of_nat p) E = if (m =? 10 * 10 ^ Z.of_nat p)%Z then Some (Z.of_nat p, 1%Z, 0%Z, (E + 1)%Z) else Some (Z.of_nat p, (m / 10 ^ Z.of_nat p)%Z, (m mod 10 ^ Z.of_nat p)%Z, E)).
  { intros E m R HE RM.
    assert (LE : (-99 <= E)%Z).
    { destruct LO as [LO|LO].
      - exfalso. destruct R as [R _]. rewrite LO in R. pose proof (pow_pos E). apply (Qlt_not_le _ _ H R).
      - destruct R as [_ R]. assert (X1 : (10 ^ (-99) < 10 ^ (E + 1))%Q) by (eapply Qle_lt_trans; eauto). apply Qpower_lt_compat_l_inv in X1; [lia|lra]. }
    split; [apply getexponent_spec; [exact R|lia]|]. split; [exact LE|].
    assert (YE : (scaled q true E == Qabs q / 10 ^ E)%Q) by (unfold scaled; rewrite absq_eq, mypow10_spec; reflexivity).
    pose proof (pow_pos E) as PE. rewrite pow_S in R.
    assert (Y1 : (1 <= scaled q true E)%Q) by (rewrite YE; apply Qle_shift_div_l; [exact PE|lra]).
    assert (Y2 : (scaled q true E < 10)%Q) by (rewrite YE; apply Qlt_shift_div_r; [exact PE|lra]).
    assert (M0 : (0 <= m)%Z).
    { destruct RM as [A B]. rewrite <- YE in B. assert (V : (0 <= scaled q true E * 10 ^ Z.of_nat p)%Q) by (apply Qmult_le_0_compat; [lra|apply Qlt_le_weak, pow_pos]).
      assert (X1 : (inject_Z (-1) < inject_Z m)%Q) by (change (inject_Z (-1)) with (-1)%Q; lra). rewrite <- Zlt_Qlt in X1. lia. }
    split; [exact M0|].
    rewrite (@parts_spec q true p E m P).
    - cbn [andb]. assert (FB : (1 <= Qfloor (scaled q true E) < 10)%Z).
      { split; [change 1%Z with (Qfloor 1); now apply Qfloor_resp_le|]. rewrite Zlt_Qlt. eapply Qle_lt_trans; [apply Qfloor_le|exact Y2]. }
      destruct (Z.eqb_spec m (10 * 10 ^ Z.of_nat p)) as [C|C]; cbn [andb]; auto.
      rewrite (proj2 (Z.ltb_lt (Qfloor _) 10)) by lia. rewrite (proj2 (Z.ltb_lt _ m)) by nia. reflexivity.
    - eapply Qlt_trans; [exact Y2|]. reflexivity.
    - eapply rounds_eq; [|exact RM]. rewrite YE. reflexivity. }
  destruct S as [Z0|X n R RM LT|X n R RM EQ].
  - exists 0%Z. split; [now apply getexponent_zero|].
    assert (YE : (scaled q true 0 == 0)%Q) by (unfold scaled; rewrite absq_eq, mypow10_spec, Z0; reflexivity).
    split; [|lia]. rewrite (@parts_spec q true p 0 0 P).
    + rewrite (proj2 (Z.eqb_neq 0 (10 * 10 ^ Z.of_nat p))) by lia. reflexivity.
    + rewrite YE. reflexivity.
    + apply (@rounds_eq 0%Q); [rewrite YE, Qmult_0_l; reflexivity|]. split; [discriminate|reflexivity].
  - destruct (GEN X n R HI RM) as (GE & LX & N0 & FP). exists X. split; [exact GE|]. rewrite FP. rewrite (proj2 (Z.eqb_neq _ _)) by lia. split; [reflexivity|lia].
  - destruct (GEN X n R ltac:(lia) RM) as (GE & LX & N0 & FP). exists X. split; [exact GE|]. rewrite FP. rewrite (proj2 (Z.eqb_eq _ _)) by lia. rewrite Z.div_same, Z.mod_same by lia. split; [reflexivity|lia].
Qed.
(** Every number has one form with [p + 1] digits *)
Lemma magnitude_unique x E E' : (10 ^ E <= x < 10 ^ (E + 1))%Q -> (10 ^ E' <= x < 10 ^ (E' + 1))%Q -> E = E'.
Proof.
  intros [A B] [C D]. assert (H1 : (10 ^ E < 10 ^ (E' + 1))%Q) by (eapply Qle_lt_trans; eauto). assert (H2 : (10 ^ E' < 10 ^ (E + 1))%Q) by (eapply Qle_lt_trans; eauto).
  apply Qpower_lt_compat_l_inv in H1; [|lra]. apply Qpower_lt_compat_l_inv in H2; [|lra]. lia.
Qed.
Lemma scientific_fun x p X n X' n' : scientific x p X n -> scientific x p X' n' -> X = X' /\ n = n'.
Proof.
  assert (NZ : forall E, (x == 0)%Q -> (10 ^ E <= x < 10 ^ (E + 1))%Q -> False).
  { intros E Z0 [R _]. rewrite Z0 in R. pose proof (pow_pos E) as P. apply (Qlt_not_le _ _ P R). }
  intros [Z0|X1 n1 R RM LT|X1 n1 R RM EQ] [Z0'|X2 n2 R' RM' LT'|X2 n2 R' RM' EQ']; try (exfalso; eapply NZ; eauto; fail); auto;
    (assert (X1 = X2) by (eapply magnitude_unique; eauto); subst X2; assert (n1 = n2) by (eapply rounds_unique; eauto); subst n2; split; lia).
Qed.
