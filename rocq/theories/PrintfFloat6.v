(** The texts of floating point numbers: there is always one, and only one. *)
From Coq Require Import QArith Qabs Qround Qpower Lqa.
From Verif Require Import Prelude PreludeFacts Str StrFacts Libc LibcFacts MemSpec PrintfModel PrintfSpec PrintfProofs PrintfFloat PrintfFloat2 PrintfFloat3.
Local Close Scope Q_scope.
Set Implicit Arguments.

(** digits with a first one that is not 0 are the notation of their number *)
Lemma notation_digits ds : all_digits ds -> ds <> [] -> hd NUL ds <> "0"%char -> notation lower_digits 10 (number ds) ds.
Proof.
  intros A NE HD. destruct (digits_form A) as [F0 F1]. pose proof (digit_nonneg A) as NN.
  destruct (Z.eq_dec (number ds) 0) as [E|E].
  - exfalso. specialize (F0 E). destruct ds; [congruence|]. cbn in F0. injection F0 as -> _. now apply HD.
  - destruct F1 as (j & ds' & E' & NT); [lia|]. destruct j as [|j]; [cbn in E'; subst ds'; exact NT|]. exfalso. apply HD. rewrite E'. reflexivity.
Qed.
Lemma notation_10 n : (0 <= n)%Z -> exists ds, notation lower_digits 10 n ds.
Proof.
  induction n as [n IH] using (well_founded_induction (Z.lt_wf 0)). intros P.
  assert (D : forall i, (0 <= i < 10)%Z -> exists c, nth_error lower_digits (Z.to_nat i) = Some c).
  { intros i R. destruct (nth_error lower_digits (Z.to_nat i)) eqn:E; [eauto|]. apply nth_error_None in E. assert (length lower_digits = 16) by reflexivity. lia. }
  destruct (Z.lt_ge_cases n 10) as [L|G].
  - destruct (D n ltac:(lia)) as [c C]. exists [c]. pose proof (@notation_digit lower_digits 10 (Z.to_nat n) c ltac:(lia) C) as H. rewrite Z2Nat.id in H by lia. exact H.
  - pose proof (Z.div_mod n 10 ltac:(lia)) as DM. pose proof (Z.mod_pos_bound n 10 ltac:(lia)) as MB. assert (DP : (0 < n / 10)%Z) by (apply Z.div_str_pos; lia).
    destruct (IH (n / 10)%Z ltac:(lia) ltac:(lia)) as [ds H]. destruct (D (n mod 10)%Z MB) as [c C]. exists (ds ++ [c]).
    replace n with (10 * (n / 10) + Z.of_nat (Z.to_nat (n mod 10)))%Z by lia. apply notation_more; auto; lia.
Qed.
Lemma notation_digits_only n ds : notation lower_digits 10 n ds -> all_digits ds /\ ds <> [] /\ (hd NUL ds = "0"%char -> n = 0%Z).
Proof.
  assert (D : forall i c, (Z.of_nat i < 10)%Z -> nth_error lower_digits i = Some c -> isdigit c = true /\ (c = "0"%char -> i = 0)).
  { intros i c L N. do 10 (destruct i as [|i]; [cbn in N; injection N as <-; split; [reflexivity|intros; congruence]|]). lia. }
  intros NT. induction NT as [i c LT N|n ds i c NT (A & NE & H) POS LT N].
  - destruct (D i c LT N) as [D1 D2]. split; [constructor; auto; constructor|]. split; [discriminate|]. intros E. rewrite (D2 E). reflexivity.
  - destruct (D i c LT N) as [D1 D2]. split; [apply Forall_app; split; auto; constructor; auto; constructor|]. split; [destruct ds; discriminate|].
    intros E. destruct ds as [|x ds]; [congruence|]. cbn in *. specialize (H E). lia.
Qed.
Lemma notation_fun n ds ds' : notation lower_digits 10 n ds -> notation lower_digits 10 n ds' -> ds = ds'.
Proof.
  assert (G : forall b n ds, notation lower_digits b n ds -> (0 < b)%Z -> forall ds', notation lower_digits b n ds' -> ds = ds').
  { clear. intros b n ds N B. induction N as [i c LT NN|n ds i c N IH POS LT NN]; intros ds' N'.
    - inversion N' as [i' c' LT' NN' E|n' ds1 i' c' N1 POS' LT' NN' E]; [assert (i' = i) by lia; congruence|nia].
    - inversion N' as [i' c' LT' NN' E|n' ds1 i' c' N1 POS' LT' NN' E]; [nia|]. assert (EN : n' = n) by nia. subst n'. assert (EI : i' = i) by lia. rewrite (IH _ N1). congruence. }
  intros N N'. apply (G 10%Z n ds N ltac:(lia) ds' N').
Qed.
Lemma same_digits fs fs' : all_digits fs -> all_digits fs' -> length fs = length fs' -> number fs = number fs' -> fs = fs'.
Proof.
  revert fs'. induction fs as [|c fs IH] using rev_ind; intros fs' A A' L E.
  - destruct fs'; [reflexivity|discriminate].
  - destruct fs' as [|c' fs' _] using rev_ind; [rewrite app_length in L; cbn in L; lia|]. rewrite !app_length in L. cbn in L.
    apply Forall_app in A as [A D], A' as [A' D']. inversion D as [|? ? D1 _]; inversion D' as [|? ? D1' _]; subst. rewrite !number_snoc in E.
    destruct (digit_table _ D1) as (i & L1 & N1 & V1), (digit_table _ D1') as (i' & L1' & N1' & V1'). rewrite V1, V1' in E. assert (EI : i = i') by lia. subst i'.
    rewrite (IH fs'); auto; [|lia|lia]. congruence.
Qed.

Lemma rounds_total x : (0 <= x)%Q -> exists n, rounds x n /\ (0 <= n)%Z.
Proof.
  intros P. exists (Qfloor (x + (1 # 2))). pose proof (Qfloor_le (x + (1 # 2))) as A. pose proof (Qlt_floor (x + (1 # 2))) as B.
  rewrite inject_Z_plus in B. change (inject_Z 1) with 1%Q in B. split; [unfold rounds; lra|].
  change 0%Z with (Qfloor 0). apply Qfloor_resp_le. lra.
Qed.
Lemma decimal_total p alt (strip : bool) n : (0 <= n)%Z -> exists t, decimal p alt strip n t.
Proof.
  intros P. assert (M : (0 < 10 ^ Z.of_nat p)%Z) by (apply Z.pow_pos_nonneg; lia). set (m := (10 ^ Z.of_nat p)%Z) in *.
  pose proof (Z.mod_pos_bound n m M) as MB. assert (DP : (0 <= n / m)%Z) by (apply Z.div_pos; lia).
  destruct (notation_10 DP) as [ds D]. 
  assert (FS : exists fs, all_digits fs /\ length fs = p /\ number fs = (n mod m)%Z).
  { clear ds D DP. subst m. generalize dependent (n mod 10 ^ Z.of_nat p)%Z. clear. intros r [R0 R1]. revert r R0 R1. induction p as [|p IH]; intros r R0 R1.
    - exists []. cbn in R1. split; [constructor|]. split; [reflexivity|]. unfold number. cbn. lia.
    - rewrite Nat2Z.inj_succ, Z.pow_succ_r in R1 by lia.
      destruct (IH (r / 10)%Z) as (fs & A & L & N); [apply Z.div_pos; lia|apply Z.div_lt_upper_bound; lia|].
      pose proof (Z.mod_pos_bound r 10 ltac:(lia)) as MB. pose proof (Z.div_mod r 10 ltac:(lia)) as DM.
      assert (C : exists c, code c = Z.to_N (48 + r mod 10)) by (exists (ascii_of_N (Z.to_N (48 + r mod 10))); unfold code; rewrite N_ascii_embedding; auto; lia).
      destruct C as [c C]. exists (fs ++ [c]).
      split; [|split; [rewrite app_length; cbn; lia|rewrite number_snoc, N; unfold digit_value; rewrite C; lia]].
      apply Forall_app. split; auto. constructor; [|constructor]. unfold isdigit, in_range. rewrite C. apply andb_true_iff. rewrite !N.leb_le. lia. }
  destruct FS as (fs & A & L & N).
  assert (ST : forall l : list byte, exists l' k, l = l' ++ repeat "0"%char k /\ last l' "1"%char <> "0"%char).
  { clear. induction l as [|c l IH] using rev_ind; [exists [], 0; split; [reflexivity|discriminate]|].
    destruct (Ascii.ascii_dec c "0"%char) as [->|NE].
    - destruct IH as (l' & k & E & LA). exists l', (k + 1). split; auto. rewrite E, repeat_app, app_assoc. reflexivity.
    - exists (l ++ [c]), 0. cbn. rewrite app_nil_r. split; auto. rewrite last_last. exact NE. }
  destruct (ST fs) as (fs1 & k & E1 & E2).
  eexists. apply (@decimal_intro p alt strip n ds fs (if strip then fs1 else fs) k); auto. destruct strip; auto.
Qed.
Lemma strip_unique : forall (a b : list byte) j k, a ++ repeat "0"%char j = b ++ repeat "0"%char k -> last a "1"%char <> "0"%char -> last b "1"%char <> "0"%char -> a = b.
Proof.
  intros a b. assert (W : forall (a b : list byte) j k, length a <= length b -> a ++ repeat "0"%char j = b ++ repeat "0"%char k -> last b "1"%char <> "0"%char -> a = b).
  { clear. intros a b j k L E H. destruct (Nat.eq_dec (length a) (length b)) as [EL|NL].
    - apply (f_equal (firstn (length a))) in E. rewrite firstn_app, Nat.sub_diag, firstn_O, app_nil_r, firstn_all in E. rewrite EL, firstn_app, Nat.sub_diag, firstn_O, app_nil_r, firstn_all in E. exact E.
    - exfalso. assert (B : b = a ++ repeat "0"%char (length b - length a)).
      { apply (f_equal (firstn (length b))) in E. rewrite (firstn_app (length b) b), Nat.sub_diag, firstn_O, app_nil_r, firstn_all in E. transitivity (firstn (length b) (a ++ repeat "0"%char j)); [symmetry; exact E|]. rewrite firstn_app, firstn_all2 by lia. f_equal.
        assert (J : length b - length a <= j). { apply (f_equal (@length _)) in E. rewrite firstn_length, app_length, repeat_length in E. lia. }
        replace j with ((length b - length a) + (j - (length b - length a))) by lia. rewrite repeat_app, firstn_app, repeat_length, Nat.sub_diag, firstn_O, app_nil_r. rewrite firstn_all2 by (rewrite repeat_length; lia). reflexivity. }
      apply H. rewrite B. rewrite last_app_ne by (destruct (length b - length a) eqn:Z0; [lia|discriminate]). apply (@last_zeros [] 0 (Nat.le_refl 0)). lia. }
  intros j k E HA HB. destruct (Nat.le_ge_cases (length a) (length b)); [eapply W; eauto|symmetry; eapply W; eauto].
Qed.
Lemma decimal_fun p alt (strip : bool) n t t' : decimal p alt strip n t -> decimal p alt strip n t' -> t = t'.
Proof.
  intros [ds fs gs k D A L N S] [ds' fs' gs' k' D' A' L' N' S']. rewrite (notation_fun D D'). assert (fs = fs') by (apply same_digits; auto; congruence). subst fs'.
  assert (gs = gs').
  { destruct strip; [|congruence]. destruct S as [E1 E2], S' as [E1' E2']. eapply strip_unique; eauto. rewrite <- E1. exact E1'. }
  subst gs'. reflexivity.
Qed.
Lemma magnitude_total x : (0 < x)%Q -> exists X, (10 ^ X <= x < 10 ^ (X + 1))%Q.
Proof.
  assert (B : forall k x, (1 <= x)%Q -> (x < 10 ^ Z.of_nat k)%Q -> exists X, (10 ^ X <= x < 10 ^ (X + 1))%Q).
  { clear. induction k as [|k IH]; intros x P L; [change (10 ^ Z.of_nat 0)%Q with 1%Q in L; lra|].
    destruct (Qlt_le_dec x (10 ^ Z.of_nat k)) as [A|A]; [apply IH; auto|]. exists (Z.of_nat k). split; auto. replace (Z.of_nat k + 1)%Z with (Z.of_nat (S k)) by lia. exact L. }
  assert (E : forall x, (0 <= x)%Q -> exists k, (x < 10 ^ Z.of_nat k)%Q).
  { clear. intros x P. exists (Z.to_nat (Qfloor x + 1)). assert (F : (0 <= Qfloor x)%Z) by (change 0%Z with (Qfloor 0); apply Qfloor_resp_le; exact P).
    pose proof (Qlt_floor x) as A. eapply Qlt_le_trans; [exact A|]. rewrite pow_Z, <- Zle_Qle. rewrite Z2Nat.id by lia. apply Z.lt_le_incl. apply Z.pow_gt_lin_r; lia. }
  intros P. destruct (Qlt_le_dec x 1) as [L|G].
  - destruct (E (/ x)%Q) as [k K]; [apply Qlt_le_weak, Qinv_lt_0_compat; exact P|].
    assert (IX : (1 <= / x)%Q). { apply Qle_shift_inv_l; auto. lra. }
    destruct (B k _ IX K) as (X & A & C).
    assert (A' : (x <= 10 ^ (- X))%Q). { rewrite Qpower_opp. apply Qle_shift_inv_l; [apply pow_pos|]. rewrite Qmult_comm. apply (Qmult_le_l _ _ x P) in A. rewrite Qmult_inv_r in A by lra. rewrite Qmult_comm. exact A. }
    assert (C' : (10 ^ (- X - 1) < x)%Q). { replace (- X - 1)%Z with (- (X + 1))%Z by lia. rewrite Qpower_opp. apply Qlt_shift_inv_r; [apply pow_pos|]. apply (Qmult_lt_l _ _ x P) in C. rewrite Qmult_inv_r in C by lra. exact C. }
    destruct (Qlt_le_dec x (10 ^ (- X))) as [Y|Y].
    + exists (- X - 1)%Z. replace (- X - 1 + 1)%Z with (- X)%Z by lia. lra.
    + exists (- X)%Z. split; auto. pose proof (pow_S (- X)) as S1. pose proof (pow_pos (- X)). lra.
  - destruct (E x ltac:(lra)) as [k K]. eapply B; eauto.
Qed.
Lemma scientific_total x p : (0 <= x)%Q -> exists X n, scientific x p X n /\ (0 <= n)%Z.
Proof.
  intros P. destruct (Qeq_dec x 0) as [E|E]; [exists 0%Z, 0%Z; split; [now constructor|lia]|].
  destruct (@magnitude_total x) as (X & A & B); [lra|].
  assert (V : (0 <= x / 10 ^ X * 10 ^ Z.of_nat p)%Q). { pose proof (pow_pos X). pose proof (pow_pos (Z.of_nat p)). apply Qmult_le_0_compat; [|lra]. apply Qle_shift_div_l; lra. }
  destruct (rounds_total V) as (n & RN & NN).
  assert (LE : (n <= 10 ^ Z.of_nat (p + 1))%Z).
  { assert (U : (x / 10 ^ X < 10)%Q). { apply Qlt_shift_div_r; [apply pow_pos|]. rewrite pow_S in B. exact B. }
    assert (U2 : (x / 10 ^ X * 10 ^ Z.of_nat p < inject_Z (10 ^ Z.of_nat (p + 1)))%Q).
    { rewrite <- pow_Z. replace (Z.of_nat (p + 1)) with (Z.of_nat p + 1)%Z by lia. rewrite pow_S. apply Qmult_lt_r; [apply pow_pos|exact U]. }
    destruct RN as [RN _]. assert (L : (inject_Z n < inject_Z (10 ^ Z.of_nat (p + 1) + 1))%Q) by (rewrite inject_Z_plus; change (inject_Z 1) with 1%Q; lra). rewrite <- Zlt_Qlt in L. lia. }
  destruct (Z.eq_dec n (10 ^ Z.of_nat (p + 1))) as [EN|NE].
  - exists (X + 1)%Z, (10 ^ Z.of_nat p)%Z. split; [now apply scientific_carry with n|]. apply Z.pow_nonneg. lia.
  - exists X, n. split; [apply scientific_digits; auto; lia|auto].
Qed.
Lemma exponent_total up X : exists t, exponent_text up X t.
Proof. destruct (@notation_10 (Z.abs X)) as [ds D]; [lia|]. eexists. constructor. exact D. Qed.
Lemma exponent_fun up X t t' : exponent_text up X t -> exponent_text up X t' -> t = t'.
Proof. intros [ds D] [ds' D']. now rewrite (notation_fun D D'). Qed.
Lemma fixed_total x p alt (strip : bool) : (0 <= x)%Q -> exists t, fixed_text x p alt strip t.
Proof.
  intros P. destruct (@rounds_total (x * 10 ^ Z.of_nat p)%Q) as (n & RN & NN); [pose proof (pow_pos (Z.of_nat p)); apply Qmult_le_0_compat; lra|].
  destruct (@decimal_total p alt strip n NN) as [t D]. exists t. econstructor; eauto.
Qed.
Lemma fixed_fun x p alt (strip : bool) t t' : fixed_text x p alt strip t -> fixed_text x p alt strip t' -> t = t'.
Proof. intros [n t1 RN D] [n' t1' RN' D']. rewrite (rounds_unique RN RN') in D. eapply decimal_fun; eauto. Qed.
Lemma scientific_text_total x p alt (strip up : bool) : (0 <= x)%Q -> exists t, scientific_text x p alt strip up t.
Proof.
  intros P. destruct (@scientific_total x p P) as (X & n & S & NN). destruct (@decimal_total p alt strip n NN) as [t D]. destruct (exponent_total up X) as [e E].
  exists (t ++ e). econstructor; eauto.
Qed.
Lemma scientific_text_fun x p alt (strip up : bool) t t' : scientific_text x p alt strip up t -> scientific_text x p alt strip up t' -> t = t'.
Proof. intros [X n t1 e S D E] [X' n' t1' e' S' D' E']. destruct (scientific_fun S S') as [-> ->]. rewrite (decimal_fun D D'), (exponent_fun E E'). reflexivity. Qed.
Lemma float_text_total c f x : is_float c = true -> (0 <= x)%Q -> exists t, float_text c f x t /\ forall t', float_text c f x t' -> t' = t.
Proof.
  assert (U : forall P : list byte -> Prop, (exists t, P t) -> (forall t t', P t -> P t' -> t = t') -> exists t, P t /\ forall t', P t' -> t' = t).
  { intros P [t H] F. exists t. split; auto. }
  assert (G : forall P alt up, (0 <= x)%Q -> exists t, general_text x P alt up t /\ forall t', general_text x P alt up t' -> t' = t).
  { intros P alt up X0. apply U.
    - destruct (@scientific_total x (P - 1) X0) as (X & n & S & NN). destruct (Z_le_dec (-4) X) as [A|A]; [destruct (Z_lt_dec X (Z.of_nat P)) as [B|B]|].
      + destruct (@fixed_total x (Z.to_nat (Z.of_nat P - (X + 1))) alt (negb alt) X0) as [t T]. exists t. eapply general_fixed; eauto.
      + destruct (@scientific_text_total x (P - 1) alt (negb alt) up X0) as [t T]. exists t. eapply general_scientific; eauto. lia.
      + destruct (@scientific_text_total x (P - 1) alt (negb alt) up X0) as [t T]. exists t. eapply general_scientific; eauto. lia.
    - intros t t' [X n t1 S R T|X n t1 S R T] [X' n' t1' S' R' T'|X' n' t1' S' R' T']; destruct (scientific_fun S S') as [<- <-]; try contradiction; [eapply fixed_fun; eauto|eapply scientific_text_fun; eauto]. }
  intros IF X0. destruct c; try discriminate IF; cbn [float_text]; auto; (apply U; [auto using fixed_total, scientific_text_total|intros; eauto using fixed_fun, scientific_text_fun]).
Qed.
