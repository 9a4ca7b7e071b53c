(** Doubly linked lists in memory. *)
From Verif Require Import Prelude PreludeFacts DllModel.
Set Implicit Arguments.

Section D.
Variable A : Type.
Notation heap := (dheap A).

(** from [start] to [stop] the memory holds the nodes [l]; the first one points back to [prev] *)
Fixpoint seg (h : heap) (prev start : option nat) (l : list (nat * A)) (stop : option nat) : Prop :=
  match l with
  | [] => start = stop
  | (a, v) :: l => start = Some a /\ exists q, dmem h a = Some (mkD v q prev) /\ seg h (Some a) q l stop
  end.
Fixpoint lasta (prev : option nat) (l : list (nat * A)) : option nat :=
  match l with [] => prev | (a, _) :: l => lasta (Some a) l end.
Definition addrs (l : list (nat * A)) : list nat := map fst l.

Lemma lasta_app p l1 l2 : lasta p (l1 ++ l2) = lasta (lasta p l1) l2.
Proof. revert p. induction l1 as [|[a v] l1 IH]; intros p; cbn; auto. Qed.
Lemma seg_app h l1 : forall prev start l2 stop, seg h prev start (l1 ++ l2) stop <->
  exists mid, seg h prev start l1 mid /\ seg h (lasta prev l1) mid l2 stop.
Proof.
  induction l1 as [|[a v] l1 IH]; intros prev start l2 stop; cbn [app seg lasta].
  - split; [intros H; exists start; auto|intros [m [-> H]]; exact H].
  - split.
    + intros [-> [q [Ha H]]]. apply IH in H as [m [H1 H2]]. exists m. split; [|exact H2]. split; [reflexivity|]. exists q. auto.
    + intros [m [[-> [q [Ha H1]]] H2]]. split; [reflexivity|]. exists q. split; [exact Ha|]. apply IH. exists m. auto.
Qed.
Lemma seg_frame h h' l : forall prev start stop, (forall a, In a (addrs l) -> dmem h' a = dmem h a) -> seg h prev start l stop -> seg h' prev start l stop.
Proof.
  induction l as [|[a v] l IH]; intros prev start stop E H; [exact H|]. destruct H as [-> [q [Ha H]]].
  split; [reflexivity|]. exists q. split; [rewrite E by (left; reflexivity); exact Ha|]. apply IH; [|exact H].
  intros b Hb. apply E. right. exact Hb.
Qed.
Lemma seg_dom h l : forall prev start stop a, seg h prev start l stop -> In a (addrs l) -> dmem h a <> None.
Proof.
  induction l as [|[b v] l IH]; intros prev start stop a H K; [destruct K|]. destruct H as [-> [q [Hb H]]].
  destruct K as [K|K]; [cbn in K; subst a; congruence|]. eapply IH; eauto.
Qed.
Arguments seg_dom [h l prev start stop a].
Lemma dput_same (h : heap) a n : dmem (dput h a n) a = n.
Proof. cbn. rewrite Nat.eqb_refl. reflexivity. Qed.
Lemma dput_other (h : heap) a n b : b <> a -> dmem (dput h a n) b = dmem h b.
Proof. intros N. cbn. apply Nat.eqb_neq in N. rewrite N. reflexivity. Qed.
Lemma dload_ok (h : heap) a n : dmem h a = Some n -> dload h a = Ok n.
Proof. intros E. unfold dload. rewrite E. reflexivity. Qed.
Lemma seg_put h l prev start stop a n : ~ In a (addrs l) -> seg h prev start l stop -> seg (dput h a n) prev start l stop.
Proof. intros N. apply seg_frame. intros b Hb. apply dput_other. intros ->. contradiction. Qed.

(** exactly the nodes [l] are allocated, all below the next unused address *)
Definition exactly (h : heap) (l : list (nat * A)) : Prop :=
  NoDup (addrs l) /\ (forall a, dmem h a <> None -> In a (addrs l)) /\ (forall a, dfresh h <= a -> dmem h a = None).

Lemma addrs_app l1 l2 : addrs (l1 ++ l2) = addrs l1 ++ addrs l2.
Proof. apply map_app. Qed.
Lemma addrs_in a v l : In (a, v) l -> In a (addrs l).
Proof. intros H. apply (in_map fst) in H. exact H. Qed.

Definition heada (l : list (nat * A)) (stop : option nat) : option nat := match l with [] => stop | (a, _) :: _ => Some a end.
Lemma seg_head h prev start l stop : seg h prev start l stop -> start = heada l stop.
Proof. destruct l as [|[a v] l]; cbn; [auto|]. intros [-> _]. reflexivity. Qed.

Definition keeps (h h' : heap) (b : nat) : Prop :=
  dfresh h' = dfresh h /\ (forall a, a <> b -> dmem h' a = dmem h a) /\ (forall a, dmem h' a <> None <-> dmem h a <> None).
Lemma set_next_ok h b n q : dmem h b = Some n -> exists h', set_next h b q = Ok h' /\ dmem h' b = Some (mkD (dval n) q (dprev n)) /\ keeps h h' b.
Proof.
  intros E. unfold set_next. rewrite (dload_ok _ _ E). cbn [bind]. eexists. split; [reflexivity|]. split; [apply dput_same|].
  split; [reflexivity|]. split; [intros a N; apply dput_other, N|]. intros a. destruct (Nat.eq_dec a b) as [->|N].
  - rewrite dput_same, E. split; discriminate.
  - rewrite dput_other by exact N. tauto.
Qed.
Lemma set_prev_ok h b n q : dmem h b = Some n -> exists h', set_prev h b q = Ok h' /\ dmem h' b = Some (mkD (dval n) (dnext n) q) /\ keeps h h' b.
Proof.
  intros E. unfold set_prev. rewrite (dload_ok _ _ E). cbn [bind]. eexists. split; [reflexivity|]. split; [apply dput_same|].
  split; [reflexivity|]. split; [intros a N; apply dput_other, N|]. intros a. destruct (Nat.eq_dec a b) as [->|N].
  - rewrite dput_same, E. split; discriminate.
  - rewrite dput_other by exact N. tauto.
Qed.
Lemma seg_keeps h h' b l prev start stop : keeps h h' b -> ~ In b (addrs l) -> seg h prev start l stop -> seg h' prev start l stop.
Proof. intros [_ [K _]] N. apply seg_frame. intros a Ha. apply K. intros ->. contradiction. Qed.

(** redirecting the end of a segment *)
Lemma seg_set_next h prev start l b v stop q : ~ In b (addrs l) -> seg h prev start (l ++ [(b, v)]) stop ->
  exists h', set_next h b q = Ok h' /\ seg h' prev start (l ++ [(b, v)]) q /\ keeps h h' b.
Proof.
  intros N H. apply seg_app in H as [mid [H1 H2]]. cbn in H2. destruct H2 as [-> [x [E ->]]].
  destruct (set_next_ok h b q E) as [h' [E1 [E2 K]]]. exists h'. split; [exact E1|]. split; [|exact K].
  apply seg_app. exists (Some b). split; [eapply seg_keeps; eauto|]. cbn. split; [reflexivity|]. exists q. cbn in E2. auto.
Qed.
Lemma seg_set_prev h prev start l c v stop q : ~ In c (addrs l) -> seg h prev start ((c, v) :: l) stop ->
  exists h', set_prev h c q = Ok h' /\ seg h' q start ((c, v) :: l) stop /\ keeps h h' c.
Proof.
  intros N [-> [x [E H]]]. destruct (set_prev_ok h c q E) as [h' [E1 [E2 K]]]. exists h'. split; [exact E1|]. split; [|exact K].
  split; [reflexivity|]. exists x. cbn in E2. split; [exact E2|]. eapply seg_keeps; eauto.
Qed.

(** taking a node out of the list *)
Lemma lasta_case (l : list (nat * A)) : (l = [] /\ lasta None l = None) \/ exists l' b v, l = l' ++ [(b, v)] /\ lasta None l = Some b.
Proof.
  destruct l as [|x l] using rev_ind; [left; auto|right]. destruct x as [b v]. exists l, b, v. split; [reflexivity|]. rewrite lasta_app. reflexivity.
Qed.
Lemma unlink h first l1 a v l2 : seg h None first (l1 ++ (a, v) :: l2) None -> exactly h (l1 ++ (a, v) :: l2) ->
  dmem h a = Some (mkD v (heada l2 None) (lasta None l1)) /\
  exists h1 h2 h3,
    match lasta None l1 with Some b => set_next h b (heada l2 None) | None => Ok h end = Ok h1 /\
    match heada l2 None with Some c => set_prev h1 c (lasta None l1) | None => Ok h1 end = Ok h2 /\
    dfree h2 a = Ok h3 /\ seg h3 None (heada (l1 ++ l2) None) (l1 ++ l2) None /\ exactly h3 (l1 ++ l2) /\ dfresh h3 = dfresh h.
Proof.
  intros H [ND [DOM FR]]. rewrite addrs_app in ND. cbn [addrs map fst] in ND. fold (addrs l2) in ND.
  pose proof (NoDup_remove_2 _ _ _ ND) as NI. apply NoDup_remove_1 in ND. rewrite in_app_iff in NI.
  apply seg_app in H as [mid [H1 H2]]. destruct H2 as [-> [q [Ea H2]]].
  pose proof (seg_head _ _ _ _ _ H2) as Eq. subst q. split; [exact Ea|].
  assert (DIS : forall b, In b (addrs l1) -> ~ In b (addrs l2)).
  { intros b B1 B2. clear -ND B1 B2. induction l1 as [|[x w] l1 IH]; [destruct B1|]. cbn in ND. inversion ND as [|? ? NX ND']; subst.
    destruct B1 as [B1|B1]; [|auto]. cbn in B1. subst x. apply NX, in_app_iff. right. exact B2. }
  assert (S1 : exists h1, match lasta None l1 with Some b => set_next h b (heada l2 None) | None => Ok h end = Ok h1 /\
     seg h1 None (heada (l1 ++ l2) None) l1 (heada l2 None) /\ seg h1 (Some a) (heada l2 None) l2 None /\ dfresh h1 = dfresh h /\
     dmem h1 a = dmem h a /\ (forall x, dmem h1 x <> None <-> dmem h x <> None)).
  { destruct (lasta_case l1) as [[-> ->]|[l' [b [w [-> ->]]]]].
    - exists h. cbn. repeat split; auto; cbn in *; auto.
    - assert (NB : ~ In b (addrs l')).
      { intros K. rewrite addrs_app, <- app_assoc in ND. cbn in ND. apply NoDup_remove_2 in ND. apply ND, in_app_iff. left. exact K. }
      destruct (@seg_set_next h None first l' b w (Some a) (heada l2 None) NB H1) as [h1 [E1 [G1 K1]]].
      exists h1. split; [exact E1|]. assert (BI : In b (addrs (l' ++ [(b, w)]))) by (rewrite addrs_app; apply in_app_iff; right; left; reflexivity). split; [|split; [|split; [apply K1|split]]].
      + rewrite (seg_head _ _ _ _ _ G1) in G1. destruct l' as [|[x y] l']; exact G1.
      + eapply seg_keeps; [exact K1| |exact H2]. apply DIS, BI.
      + apply K1. intros ->. apply NI. left. exact BI.
      + apply K1. }
  destruct S1 as [h1 [E1 [G1 [G2 [F1 [M1 D1]]]]]].
  assert (S2 : exists h2, match heada l2 None with Some c => set_prev h1 c (lasta None l1) | None => Ok h1 end = Ok h2 /\
     seg h2 None (heada (l1 ++ l2) None) l1 (heada l2 None) /\ seg h2 (lasta None l1) (heada l2 None) l2 None /\ dfresh h2 = dfresh h /\
     dmem h2 a = dmem h a /\ (forall x, dmem h2 x <> None <-> dmem h x <> None)).
  { destruct l2 as [|[c w] l2].
    - exists h1. cbn [heada] in *. cbn [seg] in *. auto 10.
    - cbn [heada] in *. assert (NC : ~ In c (addrs l2)).
      { intros K. apply NoDup_remove_2 in ND. apply ND, in_app_iff. right. exact K. }
      destruct (@seg_set_prev h1 (Some a) (Some c) l2 c w None (lasta None l1) NC G2) as [h2 [E2 [G3 K2]]].
      exists h2. split; [exact E2|]. split; [|split; [exact G3|split; [rewrite <- F1; apply K2|split]]].
      + eapply seg_keeps; [exact K2| |exact G1]. intros K. apply (DIS c K). left. reflexivity.
      + rewrite <- M1. apply K2. intros ->. apply NI. right. left. reflexivity.
      + intros x. rewrite <- D1. apply K2. }
  destruct S2 as [h2 [E2 [G3 [G4 [F2 [M2 D2]]]]]].
  exists h1, h2, (dput h2 a None). split; [exact E1|]. split; [exact E2|]. split.
  { unfold dfree. rewrite (@dload_ok h2 a (mkD v (heada l2 None) (lasta None l1))) by (rewrite M2; exact Ea). reflexivity. }
  split; [|split; [|exact F2]].
  - apply seg_app. exists (heada l2 None). split; apply seg_put; auto.
  - split; [rewrite addrs_app; exact ND|]. split.
    + intros x Hx. destruct (Nat.eq_dec x a) as [->|N]; [rewrite dput_same in Hx; congruence|].
      rewrite dput_other in Hx by exact N. apply D2, DOM in Hx. rewrite addrs_app in *. apply in_app_iff in Hx as [Hx|[Hx|Hx]]; apply in_app_iff; auto.
      cbn in Hx. congruence.
    + intros x Hx. destruct (Nat.eq_dec x a) as [->|N]; [apply dput_same|]. rewrite dput_other by exact N.
      destruct (dmem h2 x) eqn:K; [|reflexivity]. exfalso. assert (dmem h x <> None) by (apply D2; congruence). apply H, FR.
      cbn in Hx. rewrite F2 in Hx. exact Hx.
Qed.

Arguments unlink [h first l1 a v l2].
(** there are no more nodes than addresses used *)
Lemma exactly_length h l prev start stop : seg h prev start l stop -> exactly h l -> length l <= dfresh h.
Proof.
  intros H [ND [_ FR]]. rewrite <- (map_length fst). rewrite <- (seq_length (dfresh h) 0). apply NoDup_incl_length; [exact ND|].
  intros a Ha. apply in_seq. split; [lia|]. cbn. destruct (Nat.lt_ge_cases a (dfresh h)) as [L|L]; [exact L|]. exfalso.
  apply (seg_dom H Ha). apply FR, L.
Qed.
Lemma fresh_notin h l prev start stop : seg h prev start l stop -> exactly h l -> ~ In (dfresh h) (addrs l).
Proof. intros H [_ [_ FR]] K. apply (seg_dom H K). apply FR. lia. Qed.
Arguments fresh_notin [h l prev start stop].
Arguments exactly_length [h l prev start stop].
Lemma dalloc_spec (h : heap) n : exists h', dalloc h n = (dfresh h, h') /\ dmem h' (dfresh h) = Some n /\ dfresh h' = S (dfresh h) /\
  (forall a, a <> dfresh h -> dmem h' a = dmem h a).
Proof.
  eexists. split; [reflexivity|]. split; [apply dput_same|]. split; [reflexivity|]. intros a N. exact (dput_other h (Some n) N).
Qed.
Lemma exactly_alloc h h' l l' n prev start stop : seg h prev start l stop -> exactly h l -> dalloc h n = (dfresh h, h') ->
  Permutation (addrs l') (dfresh h :: addrs l) -> forall h2, (forall a, dmem h2 a <> None <-> dmem h' a <> None) -> dfresh h2 = dfresh h' -> exactly h2 l'.
Proof.
  intros H [ND [DOM FR]] E P h2 D F. pose proof (fresh_notin H (conj ND (conj DOM FR))) as NI.
  destruct (dalloc_spec h n) as [h'' [E' [M [F' O]]]]. rewrite E in E'. injection E' as <-. split; [|split].
  - apply Permutation_sym in P. eapply Permutation_NoDup; [exact P|]. constructor; assumption.
  - intros a Ha. apply (Permutation_in a (Permutation_sym P)). apply D in Ha. destruct (Nat.eq_dec a (dfresh h)) as [->|N]; [left; reflexivity|right].
    rewrite O in Ha by exact N. apply DOM, Ha.
  - intros a Ha. rewrite F, F' in Ha. destruct (dmem h2 a) eqn:K; [|reflexivity]. exfalso. assert (X : dmem h' a <> None) by (apply D; congruence).
    rewrite O in X by lia. apply X, FR. lia.
Qed.
End D.
Arguments seg_dom [A h l prev start stop a]. Arguments fresh_notin [A h l prev start stop]. Arguments exactly_length [A h l prev start stop]. Arguments unlink [A h first l1 a v l2].
Arguments exactly_alloc [A h h' l l' n prev start stop].
