(** Lock-protected flow graphs refine an atomic object *)
From Verif Require Import Prelude PreludeFacts ConcModel.
Set Implicit Arguments.

Section Sim.
Variables S L C Op R A : Type.
Variable ceqb : C -> C -> bool.
Notation cmd := (cmd S L C R).
Notation tstat := (tstat L C Op).
Variable code : L -> cmd.
Variable entry : Op -> L.
Variable spec : A -> Op -> A -> R -> Prop.
Variable wf : S -> A -> Prop.
(** [rs op l]: a thread executing op may be scheduled at l right after it got the lock *)
Variable rs : Op -> L -> Prop.

(** one uninterrupted run from l to the release of the lock *)
Inductive cs_run : S -> L -> S -> L -> Prop :=
| cr_unlock s l l1 : code l = CUnlock l1 -> cs_run s l s l
| cr_wait s l c tm lo lt : code l = CWait c tm lo lt -> cs_run s l s l
| cr_act s l f k s1 s' l' : code l = CAct f k -> f s = Ok s1 -> cs_run s1 (k s) s' l' -> cs_run s l s' l'
| cr_signal s l c l1 s' l' : code l = CSignal c l1 -> cs_run s l1 s' l' -> cs_run s l s' l'
| cr_bcast s l c l1 s' l' : code l = CBroadcast c l1 -> cs_run s l1 s' l' -> cs_run s l s' l'.

Definition post (op : Op) (a : A) (s' : S) (l' : L) : Prop :=
  match code l' with
  | CUnlock l1 => exists a' r, spec a op a' r /\ wf s' a' /\ code l1 = CRet r
  | CWait _ tm lo lt => wf s' a /\ rs op lo /\ (tm = true -> rs op lt)
  | _ => False
  end.

Hypothesis entry_ok : forall op, exists l0, code (entry op) = CLock l0 /\ rs op l0.
Hypothesis cs_ok : forall op l s a, rs op l -> wf s a -> exists s' l', cs_run s l s' l' /\ post op a s' l'.

Definition incs (s : S) (a : A) (op : Op) (l : L) : Prop := exists s' l', cs_run s l s' l' /\ post op a s' l'.

(** relation between a concrete and an abstract thread *)
Definition trel (s : S) (a : A) (holder : bool) (x : tstat) (y : astat Op R) : Prop :=
  match x with
  | Idle => y = AIdle /\ holder = false
  | Run op l =>
      (holder = true /\ y = APend op /\ incs s a op l) \/
      (holder = false /\ y = APend op /\ exists l0, code l = CLock l0 /\ rs op l0) \/
      (holder = false /\ exists r, code l = CRet r /\ y = ADone r)
  | Sleep op c tm lo lt => holder = false /\ y = APend op /\ rs op lo /\ (tm = true -> rs op lt)
  | Waking op c b l => holder = false /\ y = APend op /\ rs op l
  end.
Definition holds (lk : option nat) (t : nat) : bool := match lk with Some u => t =? u | None => false end.

Record sim (m : mstate S L C Op) (am : amach A Op R) : Prop := {
  sim_len : length (th m) = length (ath am);
  sim_th : forall t x y, nth_error (th m) t = Some x -> nth_error (ath am) t = Some y ->
           trel (sh m) (ab am) (holds (lk m) t) x y;
  sim_lk : match lk m with
           | None => wf (sh m) (ab am)
           | Some u => u < length (th m) end }.

Lemma nth_error_some_lt X (l : list X) t x : nth_error l t = Some x -> t < length l.
Proof. intros H. apply nth_error_Some. congruence. Qed.
Lemma sim_get m am t x : sim m am -> nth_error (th m) t = Some x ->
  exists y, nth_error (ath am) t = Some y /\ trel (sh m) (ab am) (holds (lk m) t) x y.
Proof.
  intros H E. assert (t < length (ath am)) as Lt by (rewrite <- (sim_len H); eapply nth_error_some_lt; eauto).
  apply nth_error_Some in Lt. destruct (nth_error (ath am) t) as [y|] eqn:Ey; [|congruence].
  exists y. split; auto. eapply sim_th; eauto.
Qed.
(** threads other than the holder do not depend on the shared state *)
Lemma trel_other s a s' a' x y : trel s a false x y -> trel s' a' false x y.
Proof.
  destruct x; simpl; auto. intros [(H & _)|[H|H]]; [discriminate|right; left|right; right]; auto.
Qed.
Lemma sim_upd m am t x y s' a' lk' :
  sim m am -> t < length (th m) ->
  trel s' a' (holds lk' t) x y ->
  (forall u, u <> t -> holds (lk m) u = holds lk' u /\ (holds (lk m) u = true -> s' = sh m /\ a' = ab am)) ->
  match lk' with None => wf s' a' | Some u => u < length (th m) end ->
  sim (mkM s' lk' (upd (th m) t x)) (mkA a' (upd (ath am) t y)).
Proof.
  intros H Lt Tr Oth Lk. constructor; cbn [th ath sh ab lk].
  - rewrite !length_upd. apply (sim_len H).
  - intros u x0 y0. rewrite !upd_nth_error. pose proof (sim_len H) as Ln.
    destruct (Nat.ltb_spec t (length (th m))); destruct (Nat.ltb_spec t (length (ath am))); try lia. rewrite !andb_true_r.
    destruct (Nat.eqb_spec t u) as [<-|Nu].
    + intros E1 E2. inversion E1; inversion E2; subst. auto.
    + intros E1 E2. pose proof (sim_th H _ E1 E2) as T. destruct (Oth u (not_eq_sym Nu)) as [Eh Es].
      destruct (holds (lk m) u) eqn:Hh; rewrite <- Eh.
      * destruct (Es eq_refl) as [-> ->]. auto.
      * eapply trel_other; eauto.
  - rewrite ?length_upd. auto.
Qed.
Lemma upd_self X (l : list X) t x : nth_error l t = Some x -> upd l t x = l.
Proof. revert t. induction l as [|y l IH]; intros [|t] E; simpl in *; try congruence. f_equal. auto. Qed.
Lemma mkA_self (am : amach A Op R) : mkA (ab am) (ath am) = am.
Proof. destruct am; auto. Qed.

Lemma cs_run_act s l s' l' f k : cs_run s l s' l' -> code l = CAct f k -> exists s1, f s = Ok s1 /\ cs_run s1 (k s) s' l'.
Proof. intros H E. inversion H; subst; try congruence; eauto. rewrite E in H0; inversion H0; subst; eauto. Qed.
Lemma cs_run_sig s l s' l' c l1 : cs_run s l s' l' -> code l = CSignal c l1 -> cs_run s l1 s' l'.
Proof. intros H E. inversion H; subst; try congruence; auto; rewrite E in H0; inversion H0; subst; auto. Qed.
Lemma cs_run_bc s l s' l' c l1 : cs_run s l s' l' -> code l = CBroadcast c l1 -> cs_run s l1 s' l'.
Proof. intros H E. inversion H; subst; try congruence; auto; rewrite E in H0; inversion H0; subst; auto. Qed.
Lemma cs_run_stop s l s' l' : cs_run s l s' l' -> (exists l1, code l = CUnlock l1) \/ (exists c tm lo lt, code l = CWait c tm lo lt) -> s' = s /\ l' = l.
Proof. intros H [[l1 E]|(c & tm & lo & lt & E)]; inversion H; subst; try congruence; auto. Qed.

(** a running thread whose next statement is in a critical section is the holder *)
Lemma run_cs m am t op l : sim m am -> nth_error (th m) t = Some (Run op l) -> in_cs code (Run op l : tstat) = true ->
  lk m = Some t /\ exists y, nth_error (ath am) t = Some y /\ y = APend op /\ incs (sh m) (ab am) op l.
Proof.
  intros H E Hc. destruct (sim_get _ H E) as (y & Ey & T). simpl in T, Hc.
  destruct T as [(Hh & Hy & Hi)|[(Hh & Hy & l0 & Hl & _)|(Hh & r & Hr & Hy)]].
  - split.
    + unfold holds in Hh. destruct (lk m); [|discriminate]. apply Nat.eqb_eq in Hh. congruence.
    + exists y. auto.
  - rewrite Hl in Hc. discriminate.
  - rewrite Hr in Hc. discriminate.
Qed.
Lemma holds_refl t : holds (Some t) t = true.
Proof. simpl. apply Nat.eqb_refl. Qed.
Lemma holds_neq t u : u <> t -> holds (Some t) u = false.
Proof. simpl. apply Nat.eqb_neq. Qed.
Lemma trel_wake s a c x y : trel s a false x y -> trel s a false (wake ceqb c x) y.
Proof. destruct x; simpl; auto. destruct (ceqb c c0); simpl; intuition. Qed.
Lemma trel_wake_h s a c h x y : trel s a h x y -> trel s a h (wake ceqb c x) y.
Proof. destruct x; simpl; auto. destruct (ceqb c c0); simpl; intuition. Qed.

Lemma sim_step m am e m' : sim m am -> step ceqb code entry m e m' ->
  exists am', asteps spec am e am' /\ sim m' am'.
Proof.
  intros H St. inversion St; subst.
  - (* call *)
    destruct (sim_get _ H H0) as (y & Ey & T). simpl in T. destruct T as [-> Hh].
    exists (mkA (ab am) (upd (ath am) t (APend op))). split.
    + apply (asteps_app (h := []) (asteps_refl spec am)). constructor; auto.
    + apply sim_upd; auto.
      * eapply nth_error_some_lt; eauto.
      * simpl. right. left. repeat split; auto.
      * apply (sim_lk H).
  - (* ret *)
    destruct (sim_get _ H H0) as (y & Ey & T). simpl in T.
    destruct T as [(Hh & Hy & (s' & l' & Hr & _))|[(Hh & Hy & l0 & Hl & _)|(Hh & r' & Hr & Hy)]].
    + inversion Hr; subst; congruence.
    + congruence.
    + assert (r' = r) by congruence. subst.
      exists (mkA (ab am) (upd (ath am) t AIdle)). split.
      * apply (asteps_app (h := []) (asteps_refl spec am)). constructor; auto.
      * apply sim_upd; auto.
        -- eapply nth_error_some_lt; eauto.
        -- simpl. auto.
        -- apply (sim_lk H).
  - (* lock *)
    destruct (sim_get _ H H0) as (y & Ey & T). simpl in T. pose proof (sim_lk H) as Lk. rewrite H2 in T, Lk. simpl in T.
    destruct T as [(Hh & _)|[(Hh & Hy & l0 & Hl & Hrs)|(Hh & r' & Hr & Hy)]]; [discriminate| |congruence].
    assert (l0 = l') by congruence. subst l0.
    exists am. split; [constructor|]. rewrite <- (mkA_self am). rewrite <- (upd_self _ _ Ey).
    apply sim_upd; rewrite ?(upd_self _ _ Ey); auto.
    + eapply nth_error_some_lt; eauto.
    + rewrite holds_refl. simpl. left. split; [auto|split; [auto|apply cs_ok; auto]].
    + intros u Nu. rewrite H2. rewrite holds_neq by auto. simpl. split; [auto|try discriminate; auto].
    + eapply nth_error_some_lt; eauto.
  - (* unlock *)
    assert (in_cs code (Run op l : tstat) = true) as Hc by (simpl; rewrite H1; auto).
    destruct (run_cs _ H H0 Hc) as (Hl & y & Ey & -> & (s' & l1 & Hr & Hp)).
    destruct (cs_run_stop Hr) as [-> ->]; [eauto|]. unfold post in Hp. rewrite H1 in Hp.
    destruct Hp as (a' & r & Sp & Wf & Ret).
    exists (mkA a' (upd (ath am) t (ADone r))). split.
    + apply (asteps_app (h := []) (asteps_refl spec am)). econstructor; eauto.
    + apply sim_upd; auto.
      * eapply nth_error_some_lt; eauto.
      * simpl. right. right. eauto.
      * intros u Nu. rewrite Hl, holds_neq by auto. simpl. split; [auto|try discriminate; auto].
  - (* act *)
    assert (in_cs code (Run op l : tstat) = true) as Hc by (simpl; rewrite H1; auto).
    destruct (run_cs _ H H0 Hc) as (Hl & y & Ey & -> & (s2 & l1 & Hr & Hp)).
    destruct (cs_run_act Hr H1) as (s1 & Ef & Hr1). assert (s1 = s') by congruence. subst s1.
    exists am. split; [constructor|]. rewrite <- (mkA_self am). rewrite <- (upd_self _ _ Ey).
    apply sim_upd; rewrite ?(upd_self _ _ Ey); auto.
    + eapply nth_error_some_lt; eauto.
    + rewrite Hl, holds_refl. simpl. left. repeat split; auto. exists s2, l1. auto.
    + intros u Nu. split; auto. rewrite Hl, holds_neq by auto. discriminate.
    + rewrite Hl. eapply nth_error_some_lt; eauto.
  - (* signal one *)
    assert (in_cs code (Run op l : tstat) = true) as Hc by (simpl; rewrite H1; auto).
    destruct (run_cs _ H H0 Hc) as (Hl & y & Ey & -> & (s2 & l1 & Hr & Hp)).
    pose proof (cs_run_sig Hr H1) as Hr1.
    exists am. split; [constructor|].
    assert (sim (mkM (sh m) (lk m) (upd (th m) t (Run op l'))) am) as H'.
    { rewrite <- (mkA_self am). rewrite <- (upd_self _ _ Ey).
      apply sim_upd; rewrite ?(upd_self _ _ Ey); auto.
      + eapply nth_error_some_lt; eauto.
      + rewrite Hl, holds_refl. simpl. left. repeat split; auto. exists s2, l1. auto.
      + rewrite Hl. eapply nth_error_some_lt; eauto. }
    assert (t2 <> t) as N2 by (intros ->; rewrite H0 in H2; inversion H2; subst; discriminate).
    destruct (sim_get _ H H2) as (y2 & Ey2 & T2).
    assert (nth_error (th (mkM (sh m) (lk m) (upd (th m) t (Run op l')))) t2 = Some x) as E2.
    { cbn [th]. rewrite upd_nth_error. destruct (Nat.eqb_spec t t2); [congruence|auto]. }
    rewrite <- (mkA_self am). rewrite <- (upd_self _ _ Ey2).
    apply (@sim_upd (mkM (sh m) (lk m) (upd (th m) t (Run op l'))) am t2 (wake ceqb c x) y2 (sh m) (ab am) (lk m)); cbn [th sh lk]; auto.
    + eapply nth_error_some_lt; eauto.
    + apply trel_wake_h. auto.
    + apply (sim_lk H').
  - (* signal none *)
    assert (in_cs code (Run op l : tstat) = true) as Hc by (simpl; rewrite H1; auto).
    destruct (run_cs _ H H0 Hc) as (Hl & y & Ey & -> & (s2 & l1 & Hr & Hp)).
    pose proof (cs_run_sig Hr H1) as Hr1.
    exists am. split; [constructor|]. rewrite <- (mkA_self am). rewrite <- (upd_self _ _ Ey).
    apply sim_upd; rewrite ?(upd_self _ _ Ey); auto.
    + eapply nth_error_some_lt; eauto.
    + rewrite Hl, holds_refl. simpl. left. repeat split; auto. exists s2, l1. auto.
    + rewrite Hl. eapply nth_error_some_lt; eauto.
  - (* broadcast *)
    assert (in_cs code (Run op l : tstat) = true) as Hc by (simpl; rewrite H1; auto).
    destruct (run_cs _ H H0 Hc) as (Hl & y & Ey & -> & (s2 & l1 & Hr & Hp)).
    pose proof (cs_run_bc Hr H1) as Hr1.
    exists am. split; [constructor|].
    assert (sim (mkM (sh m) (lk m) (upd (th m) t (Run op l'))) am) as H'.
    { rewrite <- (mkA_self am). rewrite <- (upd_self _ _ Ey).
      apply sim_upd; rewrite ?(upd_self _ _ Ey); auto.
      + eapply nth_error_some_lt; eauto.
      + rewrite Hl, holds_refl. simpl. left. repeat split; auto. exists s2, l1. auto.
      + rewrite Hl. eapply nth_error_some_lt; eauto. }
    constructor; cbn [th sh lk].
    + rewrite map_length. apply (sim_len H').
    + intros u x0 y0 E1 E2. rewrite nth_error_map in E1. destruct (nth_error _ u) as [x1|] eqn:E3; [|discriminate].
      simpl in E1. inversion E1; subst. apply trel_wake_h. apply (sim_th H' _ E3 E2).
    + rewrite map_length. apply (sim_lk H').
  - (* wait *)
    assert (in_cs code (Run op l : tstat) = true) as Hc by (simpl; rewrite H1; auto).
    destruct (run_cs _ H H0 Hc) as (Hl & y & Ey & -> & (s2 & l1 & Hr & Hp)).
    destruct (cs_run_stop Hr) as [-> ->]; [right; eauto|]. unfold post in Hp. rewrite H1 in Hp. destruct Hp as (Wf & R1 & R2).
    exists am. split; [constructor|]. rewrite <- (mkA_self am). rewrite <- (upd_self _ _ Ey).
    apply sim_upd; rewrite ?(upd_self _ _ Ey); auto.
    + eapply nth_error_some_lt; eauto.
    + simpl. auto.
    + intros u Nu. rewrite Hl, holds_neq by auto. simpl. split; [auto|try discriminate; auto].
  - (* spurious *)
    destruct (sim_get _ H H0) as (y & Ey & T). simpl in T. destruct T as (Hh & -> & R1 & R2).
    exists am. split; [constructor|]. rewrite <- (mkA_self am). rewrite <- (upd_self _ _ Ey).
    apply sim_upd; rewrite ?(upd_self _ _ Ey); auto.
    + eapply nth_error_some_lt; eauto.
    + simpl. auto.
    + apply (sim_lk H).
  - (* timeout *)
    destruct (sim_get _ H H0) as (y & Ey & T). simpl in T. destruct T as (Hh & -> & R1 & R2).
    exists am. split; [constructor|]. rewrite <- (mkA_self am). rewrite <- (upd_self _ _ Ey).
    apply sim_upd; rewrite ?(upd_self _ _ Ey); auto.
    + eapply nth_error_some_lt; eauto.
    + simpl. auto.
    + apply (sim_lk H).
  - (* relock *)
    destruct (sim_get _ H H0) as (y & Ey & T). simpl in T. pose proof (sim_lk H) as Lk. rewrite H1 in T, Lk.
    destruct T as (Hh & -> & R1).
    exists am. split; [constructor|]. rewrite <- (mkA_self am). rewrite <- (upd_self _ _ Ey).
    apply sim_upd; rewrite ?(upd_self _ _ Ey); auto.
    + eapply nth_error_some_lt; eauto.
    + rewrite holds_refl. simpl. left. split; [auto|split; [auto|apply cs_ok; auto]].
    + intros u Nu. rewrite H1. rewrite holds_neq by auto. simpl. split; [auto|try discriminate; auto].
    + eapply nth_error_some_lt; eauto.
Qed.

Lemma asteps_trans s h1 s1 h2 s2 : asteps spec s h1 s1 -> asteps spec s1 h2 s2 -> asteps spec s (h1 ++ h2) s2.
Proof.
  intros H1 H2. revert h1 H1. induction H2; intros h1 H1; [rewrite app_nil_r; auto|].
  rewrite app_assoc. eapply asteps_app; eauto.
Qed.
Lemma sim_init s a n : wf s a -> sim (minit L C Op s n) (ainit Op R a n).
Proof.
  intros W. constructor; simpl; auto.
  - rewrite !repeat_length. auto.
  - intros t x y E1 E2. apply nth_error_In in E1, E2. apply repeat_spec in E1, E2. subst. simpl. auto.
Qed.
Theorem simulation s0 a0 n h m : wf s0 a0 -> steps ceqb code entry (minit L C Op s0 n) h m ->
  exists am, asteps spec (ainit Op R a0 n) h am /\ sim m am.
Proof.
  intros W H. remember (minit L C Op s0 n) as m0. induction H; subst.
  - exists (ainit Op R a0 n). split; [constructor|apply sim_init; auto].
  - destruct (IHsteps eq_refl) as (am & As & Sm). destruct (sim_step Sm H0) as (am' & As' & Sm').
    exists am'. split; auto. eapply asteps_trans; eauto.
Qed.
(** at every moment at most one thread is in a critical section, and no statement
    there is undefined behaviour *)
Lemma sim_exclusion m am t1 t2 x1 x2 : sim m am -> nth_error (th m) t1 = Some x1 -> nth_error (th m) t2 = Some x2 ->
  in_cs code x1 = true -> in_cs code x2 = true -> t1 = t2.
Proof.
  intros H E1 E2 I1 I2. destruct x1; simpl in I1; try discriminate. destruct x2; simpl in I2; try discriminate.
  destruct (run_cs _ H E1 I1) as (L1 & _). destruct (run_cs _ H E2 I2) as (L2 & _). congruence.
Qed.
Lemma sim_safe m am t x : sim m am -> nth_error (th m) t = Some x -> ~ goes_wrong code (sh m) x.
Proof.
  intros H E W. destruct x; simpl in W; try contradiction. destruct (code l) eqn:Ec; try contradiction.
  assert (in_cs code (Run op l : tstat) = true) as Hc by (simpl; rewrite Ec; auto).
  destruct (run_cs _ H E Hc) as (Hl & y & Ey & _ & (s2 & l1 & Hr & Hp)).
  destruct (cs_run_act Hr Ec) as (s1 & Ef & _). apply (W s1). auto.
Qed.
End Sim.
