(** RBTreeRemove refines the sorted map. *)
From Verif Require Import Prelude PreludeFacts RBModel RBSpec RBHeap RBInv RBPut RBSearch RBIter RBRemFix.
Set Implicit Arguments.

Section R.
Variables K V : Type.
Variable cmp : K -> K -> Z.
Hypothesis CO : cmp_ok cmp.
Notation heap := (heap K V).
Notation atree := (atree K V).
Notation ctx := (ctx K V).
Notation rbtree := (rbtree K V).
Notation L := (@L K V).

Lemma RemoveFix_spec fuel (h : heap) rt c t n mb :
  rep h rt (plug c t) -> (t = L -> nilok h (pa rt c)) -> rbt t (color t) n -> rbc c mb (S n) -> length c + 1 < fuel ->
  exists h' t', RemoveFix fuel h rt (ad t) = Ok h' /\ evo rt h (plug c t) h' t' /\ exists N, rbt t' false N.
Proof.
  intros R Nl Ht Hc Hf. unfold RemoveFix. rewrite (rep_rednil R). cbn [bind negb massert].
  unfold left_of. rewrite (rep_root R). cbn [bind nleft rootn].
  assert (rfpost rt h (plug c t) (RemoveFix_loop fuel h (ad (plug c t)) (ad t))) as (h' & x' & h2 & t' & E & E2 & W & N).
  { destruct t as [|a [|] k v l r]; cbn [color] in Ht.
    - eapply RemoveFix_loop_spec; eauto.
    - inversion Ht; subst. eapply rf_red; eauto; [econstructor; eauto|lia].
    - eapply RemoveFix_loop_spec; eauto. }
  rewrite E. cbn [bind]. rewrite E2. cbn [bind]. rewrite (rep_rednil (evo_rep W)). cbn [bind negb massert].
  exists h2, t'. auto.
Qed.

Lemma reparent_any h p q t pn : treeh h p t -> (forall a, cnt a t <= 1) -> cnt nil t = 0 -> nilok h pn ->
  exists h', set_par h (ad t) q = Ok h' /\ treeh h' q t /\ (forall a : addr, a <> ad t -> h' a = h a) /\
    (t = L -> nilok h' q) /\ (t <> L -> nilok h' pn).
Proof.
  destruct t as [|a c k v l r]; intros H D N Np.
  - cbn [ad]. unfold set_par, getn. unfold nilok in Np. rewrite Np. cbn [bind nkey nval nred nleft nright].
    eexists. split; [reflexivity|]. split; [simpl; auto|]. split; [intros; apply hupd_other; auto|].
    split; [|congruence]. intros _. unfold nilok. apply hupd_same.
  - destruct (@reparent K V h p q (T a c k v l r) H D N) as (h' & E & T' & A). cbn [ad] in *.
    assert (a <> nil) as Na. { simpl in N. apply not_eq_sym, eqn_0. lia. }
    pose proof Na as Nb. apply Nat.eqb_neq in Nb. rewrite Nb in E. cbn [negb] in E.
    exists h'. split; auto. split; auto. split; auto. split; [discriminate|]. intros _. unfold nilok. rewrite A; auto.
Qed.

Lemma link_any h rt c x y : ctxh h rt x c -> x <> nil ->
  (forall a, cntc a c <= 1) -> cntc x c = 0 -> cntc rt c = 0 ->
  exists h', (if rt =? pa rt c then set_left h rt y else relink h (pa rt c) x y) = Ok h' /\ ctxh (K:=K) (V:=V) h' rt y c /\
    forall a, a <> pa rt c -> h' a = h a.
Proof.
  intros H Hx D Dx Dr. destruct c as [|f c].
  - cbn [pa]. rewrite Nat.eqb_refl. simpl in H. unfold set_left, getn. rewrite H. cbn [bind].
    eexists. split; [reflexivity|]. split; [simpl; apply hupd_same|]. intros; apply hupd_other; auto.
  - assert (rt =? pa rt (f :: c) = false) as ->. { apply Nat.eqb_neq. simpl in *. apply eqn_0. lia. }
    apply relink_spec; auto.
Qed.

Definition otherc (l r : atree) : atree := match l with RBHeap.L => r | _ => l end.

Lemma unlink_spec h rt c y cy ky vy l r : rep h rt (plug c (T y cy ky vy l r)) -> (l = L \/ r = L) ->
  let t := otherc l r in
  exists h1 h2, set_par h (ad t) (pa rt c) = Ok h1 /\
    (if rt =? pa rt c then set_left h1 rt (ad t) else relink h1 (pa rt c) y (ad t)) = Ok h2 /\
    rep h2 rt (plug c t) /\ (t = L -> nilok h2 (pa rt c)) /\ h2 y = h y /\
    forall a, a <> nil -> a <> rt -> cnt a (plug c (T y cy ky vy l r)) = 0 -> h2 a = h a.
Proof.
  intros R LR t. pose proof R as [W [pn Hpn] D N Rr RT]. apply whole_plug in W.
  destruct W as [(H1 & H2 & H3) H4].
  destruct (rep_neq_nil _ _ _ _ _ _ _ R) as [Ny Ry].
  assert (forall a, cntc a c + (eqn a y + cnt a l + cnt a r) <= 1) as D'.
  { intros a. specialize (D a). rewrite cnt_plug in D. exact D. }
  rewrite cnt_plug in N, Rr. cbn [cnt] in N, Rr.
  assert (forall a, cnt a l + cnt a r = cnt a t) as Ct.
  { intros a. unfold t, otherc. destruct l; simpl; auto. destruct LR as [X|X]; [discriminate|]. subst r. simpl. lia. }
  assert (treeh h y t) as Ht. { unfold t, otherc. destruct l; auto. }
  destruct (@reparent_any h y (pa rt c) t pn) as (h1 & E1 & T1 & A1 & B1 & B2); auto.
  { intros a. specialize (D' a). rewrite <- Ct. lia. }
  { rewrite <- Ct. lia. }
  exists h1.
  pose proof (D' y) as Dy. rewrite eqn_refl in Dy.
  assert (y <> ad t) as Nyt.
  { intros E. destruct t as [|b ? ? ? ? ?] eqn:Et; simpl in E; [congruence|]. subst b. specialize (Ct y). simpl in Ct. rewrite eqn_refl in Ct. lia. }
  assert (forall a, cnt a t = 0 -> a <> nil -> a <> ad t) as Nat_.
  { intros a Ha Hn E. destruct t as [|b ? ? ? ? ?]; simpl in E; [congruence|]. subst b. simpl in Ha. rewrite eqn_refl in Ha. lia. }
  destruct (@link_any h1 rt c y (ad t)) as (h2 & E2 & C2 & A2); auto; try lia.
  { eapply ctxh_agree; [| |exact H4].
    - intros b Hb. pose proof (D' b). apply A1. apply Nat_; [rewrite <- Ct; lia|]. intros ->. lia.
    - apply A1. apply Nat_; auto. rewrite <- Ct. lia. }
  { intros a. specialize (D' a). lia. }
  exists h2. split; auto. split; auto.
  assert (forall a, 0 < cnt a t -> a <> pa rt c) as Nap.
  { intros a Ha. pose proof (D' a). rewrite <- Ct in Ha. apply pa_neq; [lia|]. intros ->. lia. }
  assert (nil <> pa rt c) as Np. { apply pa_neq; auto. lia. }
  assert (forall a, a <> nil -> a <> rt -> cnt a (plug c (T y cy ky vy l r)) = 0 -> h2 a = h a) as F.
  { intros a Hn Hr Ha. rewrite cnt_plug in Ha. simpl in Ha. pose proof (Ct a). rewrite A2, A1; auto.
    - apply Nat_; auto. lia.
    - apply pa_neq; auto. lia. }
  split; [|split; [|split]]; auto.
  - constructor; auto.
    + apply whole_plug. split; [|exact C2]. eapply treeh_agree; [|exact T1]. intros b Hb. apply A2. auto.
    + destruct t as [|b ? ? ? ? ?] eqn:Et.
      * exists (pa rt c). unfold nilok in *. rewrite A2; auto.
      * exists pn. unfold nilok in *. rewrite A2; auto. apply B2. discriminate.
    + intros a. rewrite cnt_plug, <- Ct. specialize (D' a). lia.
    + rewrite cnt_plug, <- Ct. lia.
    + rewrite cnt_plug, <- Ct. lia.
  - intros Z. unfold nilok in *. rewrite A2; auto.
  - rewrite A2, A1; auto. apply pa_neq; auto. lia.
Qed.

(** unlinking y and rebalancing *)
Definition unlink_fix (fuel : nat) (h : heap) (rt y x yp : addr) (black : bool) : res heap :=
  let* h := set_par h x yp in
  let* h := (if rt =? yp then set_left h rt x else relink h yp y x) in
  if black then RemoveFix fuel h rt x else Ok h.

Lemma unlink_fix_spec fuel h rt c y cy ky vy l r N : rep h rt (plug c (T y cy ky vy l r)) -> (l = L \/ r = L) ->
  rbt (plug c (T y cy ky vy l r)) false N -> length c + 1 < fuel ->
  let t := otherc l r in
  exists h1 h2 h3 t3, set_par h (ad t) (pa rt c) = Ok h1 /\
    (if rt =? pa rt c then set_left h1 rt (ad t) else relink h1 (pa rt c) y (ad t)) = Ok h2 /\
    (if negb cy then RemoveFix fuel h2 rt (ad t) else Ok h2) = Ok h3 /\
    h2 y = h y /\ red_of h2 nil = Ok false /\
    rep h3 rt t3 /\ (exists N', rbt t3 false N') /\ flata t3 = before c ++ flata t ++ after c /\
    h3 y = h y /\
    forall a, a <> nil -> a <> rt -> cnt a (plug c (T y cy ky vy l r)) = 0 -> h3 a = h a.
Proof.
  intros R LR HB Hf t. destruct (@unlink_spec h rt c y cy ky vy l r R LR) as (h1 & h2 & E1 & E2 & R2 & Nl & Hy & F).
  fold t in E1, E2, R2, Nl. exists h1, h2.
  destruct (rep_neq_nil _ _ _ _ _ _ _ R) as [Ny Ry].
  pose proof (rep_cnt R y) as Dy. rewrite cnt_plug in Dy. simpl in Dy. rewrite eqn_refl in Dy.
  assert (forall a, cnt a l + cnt a r = cnt a t) as Ct.
  { intros a. unfold t, otherc. destruct l; simpl; auto. destruct LR as [X|X]; [discriminate|]. subst r. simpl. lia. }
  apply rbt_unplug in HB. destruct HB as (mb & n & C & B & M). cbn [color] in *.
  destruct cy; cbn [negb].
  - exists h2, (plug c t). repeat (split; auto).
    + apply (rep_rednil R2).
    + inversion B; subst. destruct mb; [discriminate M; auto|].
      eapply rbt_plug with (ct := false); [exact C| |auto]. unfold t, otherc. destruct l; auto.
    + apply flata_plug.
  - inversion B as [| |? ? ? ? ? cl cr n0 Bl Br]; subst.
    assert (rbt t (color t) n0) as Bt.
    { unfold t, otherc. destruct l; [rewrite (rbt_color Br)|rewrite (rbt_color Bl)]; auto. }
    destruct (@RemoveFix_spec fuel h2 rt c t n0 mb R2 Nl Bt C Hf) as (h3 & t3 & E3 & (R3 & P3 & F3) & HN).
    exists h3, t3. repeat (split; auto).
    + apply (rep_rednil R2).
    + rewrite F3. apply flata_plug.
    + rewrite P3; auto. rewrite cnt_plug, <- Ct. lia.
    + intros a Ha Hr Hc. rewrite P3; auto. rewrite cnt_plug in *. simpl in Hc. rewrite <- Ct. lia.
Qed.

(** putting node y in the place of node z *)
Lemma replace_spec (h : heap) rt c z cz kz vz l r y yn ky vy : rep h rt (plug c (T z cz kz vz l r)) ->
  cnt y (plug c (T z cz kz vz l r)) = 0 -> y <> nil -> y <> rt ->
  h y = Some yn -> nkey yn = Some ky -> nval yn = Some vy ->
  exists h1 h2 h3 h4 h5 h6 h7,
    set_left h y (ad l) = Ok h1 /\ set_right h1 y (ad r) = Ok h2 /\ set_par h2 y (pa rt c) = Ok h3 /\
    set_red h3 y cz = Ok h4 /\ set_par h4 (ad l) y = Ok h5 /\ set_par h5 (ad r) y = Ok h6 /\
    relink h6 (pa rt c) z y = Ok h7 /\
    rep (hupd h7 z None) rt (plug c (T y cz ky vy l r)) /\
    forall a, a <> nil -> a <> rt -> a <> y -> a <> z -> cnt a (plug c (T z cz kz vz l r)) = 0 -> h7 a = h a.
Proof.
  intros R Cy Yn Yr Hy Ek Ev. pose proof R as [W [pn Hpn] D N Rr RT]. apply whole_plug in W.
  destruct W as [(H1 & H2 & H3) H4].
  destruct (rep_neq_nil _ _ _ _ _ _ _ R) as [Nz Rz].
  assert (forall a, cntc a c + (eqn a z + cnt a l + cnt a r) <= 1) as D'.
  { intros a. specialize (D a). rewrite cnt_plug in D. exact D. }
  rewrite cnt_plug in N, Rr, Cy. cbn [cnt] in N, Rr, Cy.
  assert (z <> y) as Nzy by (apply not_eq_sym, eqn_0; lia).
  destruct yn as [k0 v0 c0 p0 l0 r0]. simpl in Ek, Ev. subst k0 v0.
  set (h1 := hupd h y (Some (mkN (Some ky) (Some vy) c0 p0 (ad l) r0))).
  assert (set_left h y (ad l) = Ok h1) as E1 by (unfold set_left, getn; rewrite Hy; auto).
  set (h2 := hupd h1 y (Some (mkN (Some ky) (Some vy) c0 p0 (ad l) (ad r)))).
  assert (set_right h1 y (ad r) = Ok h2) as E2 by (unfold set_right, getn; unfold h1 at 1; rewrite hupd_same; auto).
  set (h3 := hupd h2 y (Some (mkN (Some ky) (Some vy) c0 (pa rt c) (ad l) (ad r)))).
  assert (set_par h2 y (pa rt c) = Ok h3) as E3 by (unfold set_par, getn; unfold h2 at 1; rewrite hupd_same; auto).
  set (h4 := hupd h3 y (Some (mkN (Some ky) (Some vy) cz (pa rt c) (ad l) (ad r)))).
  assert (set_red h3 y cz = Ok h4) as E4 by (unfold set_red, getn; unfold h3 at 1; rewrite hupd_same; auto).
  assert (forall a, a <> y -> h4 a = h a) as A4.
  { intros a Ha. unfold h4, h3, h2, h1. rewrite !hupd_other; auto. }
  assert (h4 y = Some (mkN (Some ky) (Some vy) cz (pa rt c) (ad l) (ad r))) as Y4 by apply hupd_same.
  destruct (@reparent_any h4 z y l pn) as (h5 & E5 & T5 & A5 & B5 & C5).
  { eapply treeh_agree; [|exact H2]. intros b Hb. apply A4. intros ->. lia. }
  { intros a. specialize (D' a). lia. } { lia. } { unfold nilok. rewrite A4; auto. }
  assert (exists pn5, nilok h5 pn5) as [pn5 Hpn5]. { destruct l; [exists y; apply B5; auto|exists pn; apply C5; discriminate]. }
  assert (forall a, cnt a l = 0 -> a <> nil -> a <> ad l) as Nl_.
  { intros a Ha Hn E. destruct l as [|b ? ? ? ? ?]; simpl in E; [congruence|]. subst b. simpl in Ha. rewrite eqn_refl in Ha. lia. }
  assert (forall a, cnt a r = 0 -> a <> nil -> a <> ad r) as Nr_.
  { intros a Ha Hn E. destruct r as [|b ? ? ? ? ?]; simpl in E; [congruence|]. subst b. simpl in Ha. rewrite eqn_refl in Ha. lia. }
  destruct (@reparent_any h5 z y r pn5) as (h6 & E6 & T6 & A6 & B6 & C6).
  { eapply treeh_agree; [|exact H3]. intros b Hb. pose proof (D' b). rewrite A5; [apply A4|]. - intros ->. lia.
    - apply Nl_; [lia|]. intros ->. lia. }
  { intros a. specialize (D' a). lia. } { lia. } { auto. }
  assert (exists pn6, nilok h6 pn6) as [pn6 Hpn6]. { destruct r; [exists y; apply B6; auto|exists pn5; apply C6; discriminate]. }
  assert (forall a, a <> y -> a <> nil -> cnt a l = 0 -> cnt a r = 0 -> h6 a = h a) as A06.
  { intros a Ha Hn Hl Hr. rewrite A6, A5, A4; auto. }
  destruct (@relink_spec K V h6 rt c z y) as (h7 & E7 & C7 & A7); auto; try (pose proof (D' z) as X; rewrite eqn_refl in X; lia); try lia.
  { eapply ctxh_agree; [| |exact H4].
    - intros b Hb. pose proof (D' b). apply A06; try lia; intros ->; lia.
    - apply A06; auto; lia. }
  { intros a. specialize (D' a). lia. }
  exists h1, h2, h3, h4, h5, h6, h7. repeat (split; [assumption|]).
  assert (nil <> pa rt c) as Np by (apply pa_neq; auto; lia).
  assert (y <> pa rt c) as Nyp by (apply pa_neq; auto; lia).
  assert (z <> pa rt c) as Nzp by (apply pa_neq; auto; pose proof (D' z) as X; rewrite eqn_refl in X; lia).
  split.
  - set (h8 := hupd h7 z None).
    assert (forall a, a <> z -> h8 a = h7 a) as A8 by (intros; apply hupd_other; auto).
    assert (forall b, 0 < cnt b l + cnt b r -> b <> z /\ b <> pa rt c /\ b <> y /\ b <> nil) as NB.
    { intros b Hb. pose proof (D' b). split; [apply eqn_0; lia|]. split; [apply pa_neq; [lia|intros ->; lia]|].
      split; [intros ->; lia|intros ->; lia]. }
    constructor; auto.
    + apply whole_plug. split.
      * simpl. split; [|split].
        -- rewrite A8, A7 by auto. rewrite A6, A5; auto; [apply Nl_|apply Nr_]; auto; lia.
        -- eapply treeh_agree; [|exact T5]. intros b Hb. destruct (NB b) as (? & ? & ? & ?); [lia|]. pose proof (D' b).
           rewrite A8, A7, A6; auto. apply Nr_; auto. lia.
        -- eapply treeh_agree; [|exact T6]. intros b Hb. destruct (NB b) as (? & ? & ? & ?); [lia|].
           rewrite A8, A7; auto.
      * simpl. eapply ctxh_agree; [| |exact C7].
        -- intros b Hb. apply A8. pose proof (D' b). apply eqn_0. lia.
        -- apply A8. auto.
    + exists pn6. unfold nilok in *. rewrite A8, A7; auto.
    + intros a. rewrite cnt_plug. simpl. specialize (D' a). unfold eqn in *. destruct (Nat.eqb_spec a y); subst; lia.
    + rewrite cnt_plug. simpl. assert (eqn nil y = 0) by (apply eqn_0; auto). lia.
    + rewrite cnt_plug. simpl. assert (eqn rt y = 0) by (apply eqn_0; auto). lia.
  - intros a Hn Hr Ha Hz Hc. rewrite cnt_plug in Hc. simpl in Hc. rewrite A7; [apply A06; auto; lia|]. apply pa_neq; auto; lia.
Qed.

Lemma xchild h rt c y cy ky vy l r : rep h rt (plug c (T y cy ky vy l r)) ->
  (if ad l =? nil then right_of h y else Ok (ad l)) = Ok (ad (otherc l r)).
Proof.
  intros R. destruct l as [|b cb kb vb bl br].
  - cbn [ad otherc]. rewrite Nat.eqb_refl. apply (rep_right _ _ _ _ _ _ _ R).
  - destruct (@rep_neq_nil K V h rt (FL y cy ky vy r :: c) b cb kb vb bl br R) as [Nb _].
    cbn [ad otherc]. apply Nat.eqb_neq in Nb. rewrite Nb. auto.
Qed.

Lemma nil_child h rt c y cy ky vy l r : rep h rt (plug c (T y cy ky vy l r)) ->
  (ad l =? nil) || (ad r =? nil) = true <-> (l = L \/ r = L).
Proof.
  intros R. split.
  - intros H. apply orb_true_iff in H. destruct H as [H|H]; apply Nat.eqb_eq in H.
    + left. destruct l as [|b cb kb vb bl br]; auto. exfalso.
      destruct (@rep_neq_nil K V h rt (FL y cy ky vy r :: c) b cb kb vb bl br R) as [Nb _]. auto.
    + right. destruct r as [|b cb kb vb bl br]; auto. exfalso.
      destruct (@rep_neq_nil K V h rt (FR y cy ky vy l :: c) b cb kb vb bl br R) as [Nb _]. auto.
  - intros [->| ->]; simpl; auto. apply orb_true_r.
Qed.

Lemma inv_out (t : rbtree) a x : inv cmp t a -> rnext t <= x -> cnt x a = 0 /\ x <> rroot t /\ x <> nil.
Proof.
  intros I Hx. pose proof (i_fresh I Hx) as F. pose proof (i_rep I) as R.
  destruct (rep_whole R) as [W1 W2]. destruct (rep_nil R) as [p Hp]. split; [|split].
  - destruct (cnt x a) eqn:E; auto. exfalso. eapply treeh_some; eauto. lia.
  - congruence.
  - unfold nilok in Hp. congruence.
Qed.

Lemma RBTreeRemove_spec (t : rbtree) a key : inv cmp t a -> exists t' a',
  RBTreeRemove cmp t key = Ok (t', shas cmp (kvs (flata a)) key) /\ inv cmp t' a' /\
  kvs (flata a') = sremove cmp (kvs (flata a)) key /\
  rlog t' = rlog t ++ evs_of (shits cmp (kvs (flata a)) key).
Proof.
  intros I. unfold RBTreeRemove.
  destruct (Get_spec key I) as [(z & c & cz & kz & vz & l & r & E & Ea & C & F)|(c & E & Ea & F)]; rewrite E; cbn [bind]; clear E.
  2:{ rewrite Nat.eqb_refl. subst a. destruct (asorted_path CO F (i_sorted I)) as [HB HA].
      assert (kvs (flata (plug c L)) = kvs (before c) ++ kvs (after c)) as EF by (rewrite flata_plug; simpl; apply kvs_app).
      exists t, (plug c L). rewrite EF, shas_miss, sremove_miss, shits_miss; auto. simpl. rewrite app_nil_r. auto. }
  subst a. pose proof (i_rep I) as R. destruct (rep_neq_nil _ _ _ _ _ _ _ R) as [Nz Rz].
  pose proof Nz as Nzb. apply Nat.eqb_neq in Nzb. rewrite Nzb.
  rewrite (rep_left _ _ _ _ _ _ _ R), (rep_right _ _ _ _ _ _ _ R). cbn [bind].
  destruct (i_rb I) as [N HN].
  set (BB := before c ++ flata l). set (AA := flata r ++ after c).
  assert (flata (plug c (T z cz kz vz l r)) = BB ++ (z, kz, vz) :: AA) as EFA.
  { rewrite flata_plug. simpl. unfold BB, AA. rewrite <- !app_assoc. simpl. auto. }
  assert (kvs (flata (plug c (T z cz kz vz l r))) = kvs BB ++ (kz, vz) :: kvs AA) as EF.
  { rewrite EFA, kvs_app. auto. }
  pose proof (i_sorted I) as So. unfold asorted in So. rewrite EF in So.
  destruct (sorted_mid CO _ _ _ _ _ C So) as (HB & HA & S' & _).
  rewrite EF, (@shas_hit K V cmp _ _ _ kz vz C), (@sremove_hit K V cmp _ _ _ HB HA kz vz C), (@shits_hit K V cmp _ _ _ HB HA kz vz C).
  assert (rsize t = length BB + S (length AA)) as Hsz. { rewrite (i_size I), EFA, app_length. auto. }
  destruct ((ad l =? nil) || (ad r =? nil)) eqn:EN.
  - (* at most one child: unlink z itself *)
    pose proof (proj1 (nil_child _ _ _ _ _ _ _ R) EN) as LR. cbn [bind].
    rewrite (rep_left _ _ _ _ _ _ _ R). cbn [bind]. rewrite (xchild _ _ _ _ _ _ _ R). cbn [bind].
    rewrite (rep_par _ _ _ _ _ _ _ R). cbn [bind].
    destruct (@unlink_fix_spec (Datatypes.S (Datatypes.S (rsize t))) (rheap t) (rroot t) c z cz kz vz l r N R LR HN) as (h1 & h2 & h3 & t3 & E1 & E2 & E3 & Y2 & NR2 & R3 & HN3 & F3 & Y3 & A3).
    { rewrite (i_size I). pose proof (plug_length c (T z cz kz vz l r)). simpl in H. rewrite app_length in H. simpl in H. lia. }
    rewrite E1. cbn [bind]. rewrite E2. cbn [bind].
    pose proof (rep_read _ _ _ _ _ _ _ R) as RZ. unfold getn in RZ. destruct (rheap t z) as [zn|] eqn:Ez; [|discriminate]. inversion RZ; subst zn.
    unfold getn at 1. rewrite Y2. cbn [bind nred]. rewrite NR2. cbn [bind]. rewrite Nat.eqb_refl. cbn [negb].
    rewrite E3. cbn [bind]. unfold getn at 1. rewrite Y3. cbn [bind nkey nval].
    assert (flata t3 = BB ++ AA) as F3'.
    { rewrite F3. unfold BB, AA, otherc. destruct LR as [-> | ->]; simpl; rewrite <- ?app_assoc; auto.
      destruct l; simpl; rewrite <- ?app_assoc; auto. }
    assert (forall x, cnt x (plug c (T z cz kz vz l r)) = cnt x t3 + eqn x z) as EC.
    { intros x. rewrite !cnt_flata, EFA, F3', !map_app, !list_sum_app. simpl. change (eaddr (z, kz, vz)) with z. lia. }
    assert (cnt z t3 = 0) as Cz. { pose proof (rep_cnt R z) as X. rewrite EC, eqn_refl in X. lia. }
    assert (forall x, x <> z -> hupd h3 z None x = h3 x) as A4 by (intros; apply hupd_other; auto).
    assert (rep (hupd h3 z None) (rroot t) t3) as R4.
    { destruct R3 as [[W1 W2] [pn Hp] D0 N0 R0 RT0]. constructor; auto.
      - split; [|rewrite A4; auto]. eapply treeh_agree; [|exact W1]. intros b Hb. apply A4. intros ->. lia.
      - exists pn. unfold nilok in *. rewrite A4; auto. }
    rewrite (rep_rednil R4). cbn [bind negb massert].
    eexists. exists t3. split; [reflexivity|]. split; [|split].
    + constructor; cbn [rheap rroot rsize rnext]; auto.
      * rewrite F3', app_length. lia.
      * unfold asorted. rewrite F3', kvs_app. auto.
      * intros x Hx. destruct (inv_out I Hx) as (X1 & X2 & X3). rewrite A4.
        -- rewrite A3; auto. apply (i_fresh I); auto.
        -- apply eqn_0. rewrite EC in X1. lia.
      * intros x Hx. unfold hupd in Hx. destruct (Nat.eqb_spec x z) as [Exz|Nx]; [congruence|].
        destruct (Nat.eq_dec x nil); auto. destruct (Nat.eq_dec x (rroot t)); auto. right. right.
        destruct (cnt x t3) eqn:Ex; [|lia]. exfalso.
        rewrite A3 in Hx; auto; [|rewrite EC, Ex; apply eqn_0 in Nx; lia].
        destruct (i_live I x Hx) as [?|[?|X]]; auto. rewrite EC, Ex in X. apply eqn_0 in Nx. lia.
    + rewrite F3', kvs_app. auto.
    + reflexivity.
  - (* two children: unlink the successor y and put it in z's place *)
    assert (r <> L) as Nr. { intros ->. simpl in EN. rewrite orb_true_r in EN. discriminate. }
    assert (l <> L) as Nl. { intros ->. simpl in EN. discriminate. }
    destruct r as [|b cb kb vb bl br]; [congruence|].
    rewrite (@Next_spec K V t (plug c (T z cz kz vz l (T b cb kb vb bl br))) c z cz kz vz l (T b cb kb vb bl br) R eq_refl) by (rewrite (i_size I); auto).
    destruct (@leftmost_spec K V (Datatypes.S (rsize t)) (rheap t) (rroot t) (FR z cz kz vz l :: c) b cb kb vb bl br R) as (c2 & y & cy & ky & vy & ry & _ & P1 & P2 & P3).
    { rewrite Hsz. unfold AA. rewrite app_length. lia. }
    assert (flata (T b cb kb vb bl br) = (y, ky, vy) :: flata ry ++ after c2) as Fr by (rewrite <- P2, flata_plug, P3; auto).
    rewrite Fr. cbn [bind app hda]. change (eaddr (y, ky, vy)) with y.
    pose proof R as R'. cbn [plug plug1] in P1. 
    assert (plug c (T z cz kz vz l (T b cb kb vb bl br)) = plug (c2 ++ FR z cz kz vz l :: c) (T y cy ky vy L ry)) as PW by exact P1.
    rewrite PW in R', HN. set (cc := c2 ++ FR z cz kz vz l :: c) in *.
    destruct (rep_neq_nil _ _ _ _ _ _ _ R') as [Ny Ry].
    rewrite (rep_left _ _ _ _ _ _ _ R'). cbn [bind]. rewrite (xchild _ _ _ _ _ _ _ R'). cbn [bind].
    rewrite (rep_par _ _ _ _ _ _ _ R'). cbn [bind].
    destruct (@unlink_fix_spec (Datatypes.S (Datatypes.S (rsize t))) (rheap t) (rroot t) cc y cy ky vy L ry N R' (or_introl eq_refl) HN) as (h1 & h2 & h3 & t3 & E1 & E2 & E3 & Y2 & NR2 & R3 & HN3 & F3 & Y3 & A3).
    { rewrite (i_size I), PW. pose proof (plug_length cc (T y cy ky vy L ry)). simpl in H. lia. }
    rewrite E1. cbn [bind]. rewrite E2. cbn [bind].
    pose proof (rep_read _ _ _ _ _ _ _ R') as RY. unfold getn in RY. destruct (rheap t y) as [yn|] eqn:Ey; [|discriminate]. inversion RY; subst yn.
    unfold getn at 1. rewrite Y2. cbn [bind nred]. rewrite NR2. cbn [bind].
    assert (AA = (y, ky, vy) :: flata ry ++ after c2 ++ after c) as EAA. { unfold AA. rewrite Fr. simpl. rewrite <- app_assoc. auto. }
    set (B2 := flata ry ++ after c2 ++ after c) in *.
    assert (flata t3 = BB ++ (z, kz, vz) :: B2) as F3'.
    { rewrite F3. unfold cc. rewrite before_app, after_app, P3. simpl. unfold BB, B2. rewrite <- !app_assoc. simpl. auto. }
    assert (forall x, cnt x (plug c (T z cz kz vz l (T b cb kb vb bl br))) = cnt x t3 + eqn x y) as EC.
    { intros x. rewrite !cnt_flata, EFA, F3', !map_app, !list_sum_app, EAA. simpl. change (eaddr (z, kz, vz)) with z. change (eaddr (y, ky, vy)) with y. lia. }
    assert (cnt y t3 = 0) as Cy. { pose proof (rep_cnt R y) as X. rewrite EC, eqn_refl in X. lia. }
    assert (z <> y) as Nzy.
    { intros ->. rewrite cnt_flata, F3', map_app, list_sum_app in Cy. simpl in Cy. change (eaddr (y, kz, vz)) with y in Cy. rewrite eqn_refl in Cy. lia. }
    pose proof Nzy as Nzy'. apply Nat.eqb_neq in Nzy'. rewrite Nzy'. cbn [negb].
    pose proof Ny as Ny'. apply Nat.eqb_neq in Ny'. rewrite Ny'. cbn [negb massert].
    change (ad (otherc L ry)) with (ad ry) in *. rewrite E3. cbn [bind].
    destruct (@flata_focus K V t3 BB (z, kz, vz) B2 F3' (rep_cnt R3)) as (c3 & c0 & l3 & r3 & ET & G1 & G2).
    change (eaddr (z, kz, vz)) with z in ET. cbn [fst snd] in ET. subst t3.
    rewrite (rep_read _ _ _ _ _ _ _ R3). cbn [bind nkey nval nred npar nleft nright].
    edestruct (@replace_spec h3 (rroot t) c3 z c0 kz vz l3 r3 y _ ky vy R3 Cy Ny Ry Y3) as (g1 & g2 & g3 & g4 & g5 & g6 & g7 & X1 & X2 & X3 & X4 & X5 & X6 & X7 & R4 & A4); [reflexivity|reflexivity|].
    rewrite X1. cbn [bind]. rewrite X2. cbn [bind]. rewrite X3. cbn [bind]. rewrite X4. cbn [bind].
    rewrite X5. cbn [bind]. rewrite X6. cbn [bind]. rewrite X7. cbn [bind].
    rewrite (rep_rednil R4). cbn [bind negb massert].
    assert (flata (plug c3 (T y c0 ky vy l3 r3)) = BB ++ AA) as F4.
    { rewrite flata_plug. simpl. rewrite <- !app_assoc. simpl. rewrite app_assoc, G1, G2, EAA. auto. }
    assert (forall x, cnt x (plug c (T z cz kz vz l (T b cb kb vb bl br))) = cnt x (plug c3 (T y c0 ky vy l3 r3)) + eqn x z) as EC4.
    { intros x. rewrite !cnt_flata, EFA, F4, !map_app, !list_sum_app. simpl. change (eaddr (z, kz, vz)) with z. lia. }
    eexists. exists (plug c3 (T y c0 ky vy l3 r3)). split; [reflexivity|]. split; [|split].
    + constructor; cbn [rheap rroot rsize rnext]; auto.
      * destruct HN3 as [N3 HN3]. apply rbt_unplug in HN3. destruct HN3 as (mb & n & Z1 & Z2 & Z3).
        eapply rbt_plug; eauto. simpl in *. inversion Z2; subst; constructor || econstructor; eauto.
      * rewrite F4, app_length. lia.
      * unfold asorted. rewrite F4, kvs_app. auto.
      * intros x Hx. destruct (inv_out I Hx) as (O1 & O2 & O3).
        assert (x <> z) by (apply eqn_0; rewrite EC4 in O1; lia). assert (x <> y) by (apply eqn_0; rewrite EC in O1; lia).
        rewrite hupd_other by auto. rewrite A4; auto; [|rewrite EC in O1; lia].
        rewrite A3; auto; [|rewrite <- PW; auto]. apply (i_fresh I); auto.
      * intros x Hx. unfold hupd in Hx. destruct (Nat.eqb_spec x z) as [Exz|Nx]; [congruence|].
        destruct (Nat.eq_dec x nil); auto. destruct (Nat.eq_dec x (rroot t)); auto. right. right.
        destruct (cnt x (plug c3 (T y c0 ky vy l3 r3))) eqn:Ex; [|lia]. exfalso.
        pose proof (EC4 x) as EX4. rewrite Ex in EX4. pose proof (proj2 (eqn_0 _ _) Nx) as Nx0. rewrite Nx0 in EX4. simpl in EX4.
        assert (x <> y) by (apply eqn_0; rewrite EC in EX4; lia).
        rewrite A4 in Hx; auto; [|rewrite EC in EX4; lia]. rewrite A3 in Hx; auto; [|rewrite <- PW; auto].
        destruct (i_live I x Hx) as [?|[?|X]]; auto. lia.
    + rewrite F4, kvs_app. auto.
    + reflexivity.
Qed.
End R.
