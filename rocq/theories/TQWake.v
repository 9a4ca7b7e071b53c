(** No lost wake-ups (C18): an invariant over every schedule. *)
From Verif Require Import Prelude PreludeFacts ContModel ConcModel ConcProofs TQModel TQSpec TQProofs TQSeqProofs TQConc.
Set Implicit Arguments.

Section P.
Variable A : Type.
Notation ptr := (option A).
Notation tq := (tq A).
Notation tpc := (tpc A).

(** calls that add at most one item and take at least one when they can *)
Definition single (op : top A) : bool :=
  match op with
  | OPushN (_ :: _ :: _) => false
  | OPopN 0 _ | OPopRightN 0 _ => false
  | _ => true
  end.

Section M.
Variable ok : top A -> bool.
Notation Op := {op : top A | ok op = true}.
Notation tst := (tstat tpc cnd Op).
Notation mst := (mstate tq tpc cnd Op).
Notation step := (ConcModel.step cnd_eqb (@tcode A) (fun o : Op => tentry (proj1_sig o))).
Notation in_cs := (ConcModel.in_cs (@tcode A)).

(** *** waiting for an item *)
Definition kok (k : popk) : Prop := k <> Many 0.
Fixpoint wfpc (l : tpc) : Prop :=
  match l with
  | PcLock l => wfpc l /\ match l with PcWait _ _ _ => False | _ => True end
  | PcExpand _ _ more | PcStore _ _ more | PcInc _ more => more = []
  | PcCheckWait _ k _ | PcWait _ k _ | PcRecheck _ k _ | PcTake _ k => kok k
  | PcTakeLoop _ k n _ _ _ | PcSetPos _ k n _ _ => 0 < n
  | PcSub _ n _ => 0 < n
  | _ => True
  end.
Definition credit (x : tst) : nat :=
  match x with
  | Run _ (PcCount | PcSignal _ | PcRecheck _ _ _ | PcTake _ _ | PcTakeLoop _ _ _ _ _ _ | PcSetPos _ _ _ _ _ | PcSub _ _ _) => 1
  | Waking _ NonEmpty false _ => 1
  | _ => 0
  end.
Definition wfth (q : tq) (x : tst) : Prop :=
  match x with
  | Idle => True
  | Run _ l => wfpc l /\ match l with PcWait _ _ _ => tsize q = 0 | _ => True end
  | Sleep _ NonEmpty _ lo lt => (exists sd k t, lo = PcRecheck sd k t /\ kok k) /\ exists r, lt = PcUnlock r
  | Sleep _ Empty _ lo lt => (exists t, lo = PcWERecheck t) /\ exists r, lt = PcUnlock r
  | Waking _ _ true l => exists r, l = PcUnlock r
  | Waking _ NonEmpty false l => exists sd k t, l = PcRecheck sd k t /\ kok k
  | Waking _ Empty false l => exists t, l = PcWERecheck t
  end.
Notation total th := (list_sum (map credit th)).
Record winv (m : mst) : Prop := {
  w_th : forall t x, nth_error (th m) t = Some x -> wfth (sh m) x;
  w_cr : existsb (sleeps_on cnd_eqb NonEmpty) (th m) = true -> tsize (sh m) <= total (th m) }.

Lemma sum_upd X (f : X -> nat) : forall (l : list X) t x y, nth_error l t = Some x -> list_sum (map f (upd l t y)) + f x = list_sum (map f l) + f y.
Proof. induction l as [|z l IH]; intros [|t] x y E; simpl in *; try discriminate; [inversion E; subst; lia|]. specialize (IH t x y E). lia. Qed.
Lemma existsb_upd X (f : X -> bool) : forall (l : list X) t y, f y = false -> existsb f (upd l t y) = true -> existsb f l = true.
Proof.
  induction l as [|z l IH]; intros [|t] y Hy H; simpl in *; try discriminate.
  - rewrite Hy in H. simpl in H. rewrite H. apply orb_true_r.
  - destruct (f z); auto. simpl in *. eauto.
Qed.
Lemma size_expand (k : option side) (q q' : tq) : (match k with None => @q_expand A | Some _ => @d_expand A end) q = Ok q' -> tsize q' = tsize q.
Proof.
  assert (forall q', d_expand q = Ok q' -> tsize q' = tsize q) as H.
  { intros q0. unfold d_expand. destruct (tsize q <=? tcap q); cbn [massert]; try discriminate.
    destruct (tsize q =? tcap q); [destruct (ttail q <=? thead q); [destruct (amove _ _ _ _); cbn [bind]; try discriminate|]|]; intros E; inversion E; subst; auto. }
  destruct k; auto. rewrite q_expand_eq. destruct (d_expand q); cbn [bind]; try discriminate. intros E. inversion E; subst. simpl. auto.
Qed.
Lemma size_store (k : option side) x (q q' : tq) : match k with None => q_store q x | Some SLeft => d_store_left q x | Some SRight => d_store_right q x end = Ok q' -> tsize q' = tsize q.
Proof.
  destruct k as [[|]|]; unfold q_store, d_store_left, d_store_right; destruct (aset _ _ _); cbn [bind]; try discriminate; intros E; inversion E; auto.
Qed.
Lemma size_take (q : tq) p q' : (let* ' (q, _) := @q_take A q p in Ok q) = Ok q' -> tsize q' = tsize q.
Proof.
  unfold q_take. destruct (aget _ _); cbn [bind]; try discriminate. destruct (aset _ _ _); cbn [bind]; try discriminate. intros E; inversion E; auto.
Qed.

Lemma entry_wfpc op : single op = true -> wfpc (tentry op).
Proof.
  destruct op as [x|[|x [|y xs]]|t|[|n] t| |x| | | |t|x|x|t|[|n] t|]; simpl; unfold kok; intros H; try discriminate H; repeat split; try congruence; try discriminate; auto.
Qed.
(** the wake of a signal or broadcast *)
Lemma wfth_wake c q x : wfth q x -> wfth q (wake cnd_eqb c x).
Proof. destruct x as [|op l|op c' tm lo lt|op c' b l]; simpl; auto. destruct c, c'; simpl; auto; tauto. Qed.
Lemma wfth_other (q q' : tq) x : in_cs x = false -> wfth q x -> wfth q' x.
Proof. destruct x as [|op l|op c' tm lo lt|op c' b l]; simpl; auto. destruct l; simpl; auto; discriminate. Qed.

Lemma winv_upd (m : mst) t x q' lk' y :
  winv m -> nth_error (th m) t = Some x ->
  wfth q' y ->
  (forall t' x', nth_error (th m) t' = Some x' -> t' <> t -> tsize q' = tsize (sh m) \/ in_cs x' = false) ->
  ((sleeps_on cnd_eqb NonEmpty y = true /\ tsize q' = 0) \/
   (sleeps_on cnd_eqb NonEmpty y = false /\ tsize q' + credit x <= tsize (sh m) + credit y) \/
   (sleeps_on cnd_eqb NonEmpty y = false /\ (existsb (sleeps_on cnd_eqb NonEmpty) (th m) = false \/ tsize q' = 0))) ->
  winv (mkM q' lk' (upd (th m) t y)).
Proof.
  intros H E Wy Ho Hc. constructor; cbn [th sh].
  - intros t' x'. rewrite upd_nth_error. destruct (Nat.eqb_spec t t') as [<-|N]; cbn [andb].
    + destruct (t <? length (th m)) eqn:El; [intros E'; inversion E'; subst; auto|]. intros E'. exfalso.
      apply Nat.ltb_ge in El. apply nth_error_None in El. congruence.
    + intros E'. pose proof (w_th H _ E') as W. destruct (Ho t' x' E' (not_eq_sym N)) as [Es|Es].
      * destruct x' as [|op l|op c' tm lo lt|op c' b l]; simpl in *; auto. rewrite Es. auto.
      * eapply wfth_other; eauto.
  - intros Hx. pose proof (sum_upd credit (th m) t y E) as Hs. destruct Hc as [[H1 H2]|[[H1 H2]|[H1 [H2|H2]]]].
    + lia.
    + apply existsb_upd in Hx; auto. pose proof (w_cr H Hx). lia.
    + apply existsb_upd in Hx; auto. congruence.
    + lia.
Qed.
Lemma wake_credit : forall (l : list tst) c, c = Empty -> map credit (map (wake cnd_eqb c) l) = map credit l.
Proof. intros l c ->. rewrite map_map. apply map_ext. intros [|op l0|op [|] tm lo lt|op c' b l0]; reflexivity. Qed.


Lemma winv_step m e m' : winv m ->
  (forall t1 t2 x1 x2, nth_error (th m) t1 = Some x1 -> nth_error (th m) t2 = Some x2 -> in_cs x1 = true -> in_cs x2 = true -> t1 = t2) ->
  (forall t op, In (ECall t op) e -> single (proj1_sig op) = true) ->
  step m e m' -> winv m'.
Proof.
  Ltac up := eapply winv_upd; [eassumption|eassumption| |first [assumption|intros; left; reflexivity]|].
  intros I Ex Hsg Hs. inversion Hs; subst; clear Hs.
  - (* call *) up.
    + specialize (Hsg t op (or_introl eq_refl)). simpl. split; [apply entry_wfpc; auto|]. exact Logic.I.
    + right. left. split; [reflexivity|]. cbn. lia.
  - (* ret *) up. { simpl. auto. } right. left. split; [reflexivity|]. destruct l; try (destruct todo); try discriminate H0. simpl. lia.
  - (* lock *) destruct l; try (destruct todo); try discriminate H0. injection H0 as ->. pose proof (w_th I _ H) as W. simpl in W.
    up.
    + simpl. split; [tauto|]. destruct l'; tauto.
    + right. left. split; [reflexivity|]. cbn. lia.
  - (* unlock *) destruct l; try (destruct todo); try discriminate H0. injection H0 as <-. up.
    + simpl. auto.
    + right. left. split; [reflexivity|]. cbn. lia.
  - (* act *)
    pose proof (w_th I _ H) as W. simpl in W. destruct W as [W D].
    assert (forall t' x', nth_error (th m) t' = Some x' -> t' <> t -> tsize s' = tsize (sh m) \/ in_cs x' = false) as Ho.
    { intros t' x' E' N. right. destruct (in_cs x') eqn:Ec; auto. exfalso. apply N. eapply Ex; eauto. simpl. rewrite H0. auto. }
    destruct l; try (destruct todo); try discriminate H0; injection H0 as <- <-; cbn [wfpc] in W; try (injection H1 as <-).
    + (* expand *) apply size_expand in H1. up. { simpl. auto. } right. left. split; [reflexivity|]. cbn. lia.
    + (* store *) apply size_store in H1. up. { simpl. auto. } right. left. split; [reflexivity|]. cbn. lia.
    + (* inc *) subst more. up. { simpl. auto. } right. left. split; [reflexivity|]. cbn. lia.
    + (* count *) up. { simpl. auto. } right. left. split; [reflexivity|]. cbn. lia.
    + (* checkwait *) destruct (tsize (sh m) =? 0) eqn:E0; [|up; [simpl; auto|right; left; split; [reflexivity|]; cbn; lia]].
      apply Nat.eqb_eq in E0. destruct t0; cbn [andb]; (up; [simpl; auto|right; left; split; [reflexivity|]; cbn; lia]).
    + (* recheck *) destruct (tsize (sh m) =? 0) eqn:E0; [|up; [simpl; auto|right; left; split; [reflexivity|]; cbn; lia]].
      apply Nat.eqb_eq in E0. up; [simpl; auto|right; right; split; [reflexivity|auto]].
    + (* take *) cbv zeta. destruct (0 <? _) eqn:E0.
      * apply Nat.ltb_lt in E0. up. { simpl. split; auto. } right. left. split; [reflexivity|]. cbn. lia.
      * apply Nat.ltb_ge in E0. assert (tsize (sh m) = 0) as Ez.
        { match goal with Wk : kok ?kk |- _ => destruct kk as [|[|n]] end; [destruct (Nat.ltb_spec 0 (tsize (sh m))); lia|exfalso; apply W; auto|destruct (Nat.ltb_spec (S n) (tsize (sh m))); lia]. }
        up. { simpl. auto. } right. right. split; [reflexivity|auto].
    + (* takeloop end *) up. { simpl. auto. } right. left. split; [reflexivity|]. cbn. lia.
    + (* takeloop *) apply size_take in H1. up. { simpl. auto. } right. left. split; [reflexivity|]. cbn. lia.
    + (* setpos *) up. { simpl. auto. } right. left. split; [reflexivity|]. destruct s; cbn; lia.
    + (* sub *) up. { simpl. auto. } destruct (Nat.eq_dec (tsize (sh m)) 0).
      * right. right. split; [reflexivity|]. right. cbn. lia.
      * right. left. split; [reflexivity|]. cbn. lia.
    + (* check empty *) destruct (tsize (sh m) =? 0); (up; [simpl; auto|right; left; split; [reflexivity|]; cbn; lia]).
    + (* destroy *) destruct (q_destroy_range _ _ _) as [q1| | |]; cbn [bind] in H1; try discriminate. destruct (tsize q1 =? 0) eqn:E0; cbn [massert] in H1; try discriminate. injection H1 as <-.
      apply Nat.eqb_eq in E0. up. { simpl. auto. } right. right. split; [reflexivity|auto].
    + (* reset *) destruct x; (up; [simpl; auto|right; left; split; [reflexivity|]; cbn; lia]).
    + up. { simpl. auto. } right. left. split; [reflexivity|]. cbn. lia.
    + up. { simpl. auto. } right. left. split; [reflexivity|]. cbn. lia.
    + up. { simpl. auto. } right. left. split; [reflexivity|]. cbn. lia.
    + destruct (tsize (sh m) =? 0); [|destruct t0]; (up; [simpl; auto|right; left; split; [reflexivity|]; cbn; lia]).
    + destruct (tsize (sh m) =? 0); (up; [simpl; auto|right; left; split; [reflexivity|]; cbn; lia]).
    + (* copy *) destruct (TQCopy (sh m)) as [c| | |]; cbn [bind] in H1; try discriminate; injection H1 as <-. up. { simpl. auto. } right. left. split; [reflexivity|]. cbn. lia.
  - (* signal one *) destruct l; try (destruct todo); try discriminate H0. injection H0 as <- <-.
    set (m1 := mkM (sh m) (lk m) (upd (th m) t (Run op (PcUnlock (TRCount n)) : tst))) in *.
    (* the two updates together *)
    assert (t2 <> t) as N. { intros ->. rewrite H in H1. injection H1 as <-. simpl in H2. discriminate. }
    constructor; cbn [th sh].
    + intros t' x'. rewrite !upd_nth_error, length_upd. destruct (Nat.eqb_spec t2 t') as [<-|N2]; cbn [andb].
      * destruct (t2 <? length (th m)) eqn:El; [intros E'; inversion E'; subst; apply wfth_wake; eapply w_th; eauto|].
        apply Nat.ltb_ge in El. apply nth_error_None in El. congruence.
      * destruct (Nat.eqb_spec t t') as [<-|N3]; cbn [andb]; [|apply (w_th I)].
        destruct (t <? length (th m)) eqn:El; [intros E'; inversion E'; subst; simpl; auto|]. apply Nat.ltb_ge in El. apply nth_error_None in El. congruence.
    + intros _. assert (existsb (sleeps_on cnd_eqb NonEmpty) (th m) = true) as Hx. { apply existsb_exists. exists x. split; auto. eapply nth_error_In; eauto. }
      pose proof (w_cr I Hx) as Hc. pose proof (sum_upd credit (th m) t (Run op (PcUnlock (TRCount n)) : tst) H) as S1.
      assert (nth_error (upd (th m) t (Run op (PcUnlock (TRCount n)) : tst)) t2 = Some x) as H1'.
      { rewrite upd_nth_error. destruct (Nat.eqb_spec t t2); [lia|]. auto. }
      pose proof (sum_upd credit _ t2 (wake cnd_eqb NonEmpty x) H1') as S2. cbn [credit] in S1.
      destruct x as [|op2 l2|op2 c2 tm lo lt|op2 c2 b l2]; simpl in H2; try discriminate. destruct c2; try discriminate. cbn [credit wake cnd_eqb] in S2. cbn [wake cnd_eqb] in *. lia.
  - (* signal none *) destruct l; try (destruct todo); try discriminate H0. injection H0 as <- <-. up. { simpl. auto. } right. right. split; [reflexivity|auto].
  - (* broadcast *) destruct l; try (destruct todo); try discriminate H0. injection H0 as <- <-.
    assert (winv (mkM (sh m) (lk m) (upd (th m) t (Run op (PcUnlock r) : tst)))) as I1.
    { up. { simpl. auto. } right. left. split; [reflexivity|]. cbn. lia. }
    constructor; cbn [th sh].
    + intros t' x' E'. rewrite nth_error_map in E'. destruct (nth_error _ t') as [x1|] eqn:E1; [|discriminate]. simpl in E'. injection E' as <-.
      apply wfth_wake. apply (w_th I1 _ E1).
    + rewrite wake_credit by auto. intros Hx. apply (w_cr I1). cbn [th]. apply existsb_exists in Hx. destruct Hx as (x & Hin & Hx). apply in_map_iff in Hin.
      destruct Hin as (x1 & <- & Hin). apply existsb_exists. exists x1. split; auto. destruct x1 as [|op1 l1|op1 [|] tm lo lt|op1 c1 b l1]; simpl in *; auto; discriminate.
  - (* wait *) pose proof (w_th I _ H) as W. simpl in W. destruct W as [W D]. destruct l; try (destruct todo); try discriminate H0; injection H0 as <- <- <- <-.
    + up.
      * simpl. split; [exists s, k, t0; auto|eauto].
      * left. split; [reflexivity|auto].
    + up.
      * simpl. split; eauto.
      * right. left. split; [reflexivity|]. cbn. lia.
  - (* spurious *) pose proof (w_th I _ H) as W. destruct c; simpl in W; (up; [simpl; tauto|right; left; split; [reflexivity|]; cbn; lia]).
  - (* timeout *) pose proof (w_th I _ H) as W. destruct c; simpl in W; (up; [simpl; tauto|right; left; split; [reflexivity|]; cbn; lia]).
  - (* relock *) pose proof (w_th I _ H) as W. destruct c, b; simpl in W.
    + destruct W as (r & ->). up; [simpl; auto|right; left; split; [reflexivity|]; cbn; lia].
    + destruct W as (sd & k & t0 & -> & Hk). up; [simpl; auto|right; left; split; [reflexivity|]; cbn; lia].
    + destruct W as (r & ->). up; [simpl; auto|right; left; split; [reflexivity|]; cbn; lia].
    + destruct W as (t0 & ->). up; [simpl; auto|right; left; split; [reflexivity|]; cbn; lia].
Qed.
Lemma winv_init s n : winv (minit tpc cnd Op s n).
Proof.
  constructor; cbn [th minit].
  - intros t x E. apply nth_error_In, repeat_spec in E. subst. simpl. auto.
  - intros H. apply existsb_exists in H. destruct H as (x & Hin & Hx). apply repeat_spec in Hin. subst. discriminate.
Qed.
End M.

(** *** waiting for emptiness *)
Section E.
Variable ok : top A -> bool.
Notation Op := {op : top A | ok op = true}.
Notation tst := (tstat tpc cnd Op).
Notation mst := (mstate tq tpc cnd Op).
Notation step := (ConcModel.step cnd_eqb (@tcode A) (fun o : Op => tentry (proj1_sig o))).
Notation in_cs := (ConcModel.in_cs (@tcode A)).
(** the holder of the mutex is about to push an item or to check for emptiness *)
Definition debt (x : tst) : bool :=
  match x with
  | Run _ (PcExpand _ _ _ | PcStore _ _ _ | PcInc _ _ | PcReset _ | PcCheckEmpty _ | PcBroadcast _) => true
  | _ => false
  end.
Definition noWE (l : tpc) : Prop := match l with PcWEWait _ | PcLock _ => False | _ => True end.
Definition wfe (q : tq) (x : tst) : Prop :=
  match x with
  | Idle => True
  | Run _ l => match l with PcWEWait _ => tsize q <> 0 | PcLock l => noWE l | _ => True end
  | Sleep _ _ _ lo lt => noWE lo /\ noWE lt
  | Waking _ _ _ l => noWE l
  end.
Record einv (m : mst) : Prop := {
  e_th : forall t x, nth_error (th m) t = Some x -> wfe (sh m) x;
  e_cr : existsb (sleeps_on cnd_eqb Empty) (th m) = true -> tsize (sh m) = 0 -> existsb debt (th m) = true }.
Lemma existsb_keep X (f : X -> bool) : forall (l : list X) t x y, nth_error l t = Some x -> f x = false -> existsb f l = true -> existsb f (upd l t y) = true.
Proof.
  induction l as [|z l IH]; intros [|t] x y E Hx H; simpl in *; try discriminate.
  - inversion E; subst. rewrite Hx in H. simpl in H. rewrite H. apply orb_true_r.
  - destruct (f z); auto. simpl in *. eauto.
Qed.
Lemma existsb_new X (f : X -> bool) : forall (l : list X) t x y, nth_error l t = Some x -> f y = true -> existsb f (upd l t y) = true.
Proof.
  induction l as [|z l IH]; intros [|t] x y E Hx; simpl in *; try discriminate.
  - rewrite Hx. auto.
  - rewrite (IH _ _ _ E Hx). apply orb_true_r.
Qed.
Lemma wfe_other (q q' : tq) x : in_cs x = false -> wfe q x -> wfe q' x.
Proof. destruct x as [|op l|op c' tm lo lt|op c' b l]; simpl; auto. destruct l; simpl; auto; discriminate. Qed.
Lemma wfe_wake c q x : wfe q x -> wfe q (wake cnd_eqb c x).
Proof. destruct x as [|op l|op c' tm lo lt|op c' b l]; simpl; auto. destruct c, c'; simpl; tauto. Qed.
Lemma einv_upd (m : mst) t x q' lk' y :
  einv m -> nth_error (th m) t = Some x -> wfe q' y ->
  (forall t' x', nth_error (th m) t' = Some x' -> t' <> t -> tsize q' = tsize (sh m) \/ in_cs x' = false) ->
  (tsize q' <> 0 \/ debt y = true \/
   (sleeps_on cnd_eqb Empty y = false /\ tsize q' = tsize (sh m) /\ debt x = false)) ->
  einv (mkM q' lk' (upd (th m) t y)).
Proof.
  intros H E Wy Ho Hc. constructor; cbn [th sh].
  - intros t' x'. rewrite upd_nth_error. destruct (Nat.eqb_spec t t') as [<-|N]; cbn [andb].
    + destruct (t <? length (th m)) eqn:El; [intros E'; inversion E'; subst; auto|]. intros E'. exfalso.
      apply Nat.ltb_ge in El. apply nth_error_None in El. congruence.
    + intros E'. pose proof (e_th H _ E') as W. destruct (Ho t' x' E' (not_eq_sym N)) as [Es|Es].
      * destruct x' as [|op l|op c' tm lo lt|op c' b l]; simpl in *; auto. rewrite Es. auto.
      * eapply wfe_other; eauto.
  - intros Hx Hz. destruct Hc as [H1|[H1|(H1 & H2 & H3)]]; [lia| |].
    + eapply existsb_new; eauto.
    + eapply existsb_keep; eauto. apply (e_cr H); [|lia]. eapply existsb_upd; eauto.
Qed.
Lemma entry_noWE op : exists l, @tentry A op = PcLock l /\ noWE l.
Proof. unfold tentry. eexists. split; [reflexivity|]. destruct op as [x|[|x xs]|t|n t| |x| | | |t|x|x|t|n t|]; simpl; auto. Qed.
Lemma einv_step m e m' : einv m ->
  (forall t1 t2 x1 x2, nth_error (th m) t1 = Some x1 -> nth_error (th m) t2 = Some x2 -> in_cs x1 = true -> in_cs x2 = true -> t1 = t2) ->
  step m e m' -> einv m'.
Proof.
  Ltac eup := eapply einv_upd; [eassumption|eassumption| |first [assumption|intros; left; reflexivity]|].
  Ltac keep := right; right; split; [reflexivity|split; [first [reflexivity|lia]|reflexivity]].
  intros I Ex Hs. inversion Hs; subst; clear Hs.
  - (* call *) destruct (entry_noWE (proj1_sig op)) as (l & El & Nl). eup; [|keep]. cbv beta. rewrite El. simpl. auto.
  - (* ret *) destruct l; try (destruct todo); try discriminate H0. eup; [simpl; auto|keep].
  - (* lock *) destruct l; try (destruct todo); try discriminate H0. injection H0 as ->. pose proof (e_th I _ H) as W. simpl in W.
    eup; [|keep]. simpl. destruct l'; auto; contradiction.
  - (* unlock *) destruct l; try (destruct todo); try discriminate H0. injection H0 as <-. eup; [simpl; auto|keep].
  - (* act *)
    assert (forall t' x', nth_error (th m) t' = Some x' -> t' <> t -> tsize s' = tsize (sh m) \/ in_cs x' = false) as Ho.
    { intros t' x' E' N. right. destruct (in_cs x') eqn:Ec; auto. exfalso. apply N. eapply Ex; eauto. simpl. rewrite H0. auto. }
    destruct l; try (destruct todo); try discriminate H0; injection H0 as <- <-; try (injection H1 as <-).
    + eup; [simpl; auto|right; left; reflexivity].
    + eup; [simpl; auto|right; left; reflexivity].
    + eup; [destruct more; simpl; auto|left; simpl; lia].
    + eup; [simpl; auto|keep].
    + match goal with |- context [if ?c then _ else _] => destruct c end; (eup; [simpl; auto|keep]).
    + match goal with |- context [if ?c then _ else _] => destruct c end; (eup; [simpl; auto|keep]).
    + cbv zeta. match goal with |- context [if 0 <? ?c then PcTakeLoop _ _ _ _ _ _ else _] => destruct (0 <? c) end; (eup; [simpl; auto|]).
      * keep.
      * right. left. reflexivity.
    + eup; [simpl; auto|keep].
    + apply size_take in H1. eup; [simpl; auto|keep].
    + destruct s; (eup; [simpl; auto|keep]).
    + eup; [simpl; auto|right; left; reflexivity].
    + destruct (tsize (sh m) =? 0) eqn:E0; (eup; [simpl; auto|]).
      * right. left. reflexivity.
      * left. apply Nat.eqb_neq in E0. auto.
    + eup; [simpl; auto|right; left; reflexivity].
    + destruct x; (eup; [simpl; auto|right; left; reflexivity]).
    + eup; [simpl; auto|keep].
    + eup; [simpl; auto|keep].
    + eup; [simpl; auto|keep].
    + destruct (tsize (sh m) =? 0) eqn:E0; [eup; [simpl; auto|keep]|]. apply Nat.eqb_neq in E0. destruct t0; (eup; [simpl; auto|left; auto]).
    + destruct (tsize (sh m) =? 0) eqn:E0; [eup; [simpl; auto|keep]|]. apply Nat.eqb_neq in E0. eup; [simpl; auto|left; auto].
    + destruct (TQCopy (sh m)) as [c| | |]; cbn [bind] in H1; try discriminate; injection H1 as <-. eup; [simpl; auto|keep].
  - (* signal one *) destruct l; try (destruct todo); try discriminate H0. injection H0 as <- <-.
    assert (einv (mkM (sh m) (lk m) (upd (th m) t (Run op (PcUnlock (TRCount n)) : tst)))) as I1 by (eup; [simpl; auto|keep]).
    assert (t2 <> t) as N. { intros ->. rewrite H in H1. injection H1 as <-. simpl in H2. discriminate. }
    assert (nth_error (upd (th m) t (Run op (PcUnlock (TRCount n)) : tst)) t2 = Some x) as H1'.
    { rewrite upd_nth_error. destruct (Nat.eqb_spec t t2); [lia|]. auto. }
    eapply (@einv_upd _ t2 x (sh m) (lk m) _ I1); auto.
    + apply wfe_wake. eapply e_th; eauto.
    + destruct x as [|op2 l2|op2 c2 tm lo lt|op2 c2 b l2]; simpl in H2; try discriminate. destruct c2; try discriminate. keep.
  - (* signal none *) destruct l; try (destruct todo); try discriminate H0. injection H0 as <- <-. eup; [simpl; auto|keep].
  - (* broadcast *) destruct l; try (destruct todo); try discriminate H0. injection H0 as <- <-. constructor; cbn [th sh].
    + intros t' x' E'. rewrite nth_error_map in E'. destruct (nth_error _ t') as [x1|] eqn:E1; [|discriminate]. simpl in E'. injection E' as <-.
      apply wfe_wake. rewrite upd_nth_error in E1. destruct ((t =? t') && _); [injection E1 as <-; simpl; auto|]. apply (e_th I _ E1).
    + intros Hx. exfalso. apply existsb_exists in Hx. destruct Hx as (x & Hin & Hx). apply in_map_iff in Hin.
      destruct Hin as (x1 & <- & Hin). destruct x1 as [|op1 l1|op1 [|] tm lo lt|op1 c1 b l1]; simpl in *; discriminate.
  - (* wait *) pose proof (e_th I _ H) as W. simpl in W. destruct l; try (destruct todo); try discriminate H0; injection H0 as <- <- <- <-.
    + eup; [simpl; auto|keep].
    + eup; [simpl; auto|left; auto].
  - (* spurious *) pose proof (e_th I _ H) as W. simpl in W. eup; [simpl; tauto|keep].
  - (* timeout *) pose proof (e_th I _ H) as W. simpl in W. eup; [simpl; tauto|keep].
  - (* relock *) pose proof (e_th I _ H) as W. simpl in W. eup; [|keep]. simpl. destruct l; simpl in *; tauto.
Qed.
Lemma einv_init s n : einv (minit tpc cnd Op s n).
Proof.
  constructor; cbn [th minit].
  - intros t x E. apply nth_error_In, repeat_spec in E. subst. simpl. auto.
  - intros H. apply existsb_exists in H. destruct H as (x & Hin & Hx). apply repeat_spec in Hin. subst. discriminate.
Qed.
End E.
End P.
