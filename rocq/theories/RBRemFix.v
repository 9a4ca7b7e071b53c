(** RemoveFix_ and RBTreeRemove.  (The left and right cases are mirror images.) *)
From Verif Require Import Prelude PreludeFacts RBModel RBSpec RBHeap RBInv RBPut RBSearch RBIter.
Set Implicit Arguments.

Section R.
Variables K V : Type.
Variable cmp : K -> K -> Z.
Notation heap := (heap K V).
Notation atree := (atree K V).
Notation ctx := (ctx K V).
Notation rbtree := (rbtree K V).
Notation L := (@L K V).

Ltac nx := cbn [bind ad negb color fst snd].
Ltac rdp R C := rewrite (@rd_par K V _ _ C _ _ _ _ _ _ _ R eq_refl); nx; cbn [pa fa].
Ltac rdl R C := rewrite (@rd_left K V _ _ C _ _ _ _ _ _ _ R eq_refl); nx.
Ltac rdr R C := rewrite (@rd_right K V _ _ C _ _ _ _ _ _ _ R eq_refl); nx.
Ltac sred R C h' W :=
  match goal with
  | |- context [set_red ?h ?a ?c1] =>
      let E := fresh "E" in
      edestruct (@red_evo K V h _ C a _ _ _ _ _ c1 R) as (h' & E & W);
      rewrite E; nx; clear E
  end.

Definition rfpost rt (h : heap) (t : atree) (r : res (heap * addr)) : Prop :=
  exists h' x' h2 t', r = Ok (h', x') /\ set_red h' x' false = Ok h2 /\ evo rt h t h2 t' /\
    exists N, rbt t' false N.
Lemma rfpost_evo rt (h : heap) t h1 t1 r : evo rt h t h1 t1 -> rfpost rt h1 t1 r -> rfpost rt h t r.
Proof.
  intros E (h' & x' & h2 & t' & R & S & E' & N). exists h', x', h2, t'. split; auto. split; auto. split; auto.
  eapply evo_trans; eauto.
Qed.

Lemma evo_nil rt (h : heap) t h' t' p : rep h rt t -> evo rt h t h' t' -> nilok h p -> nilok h' p.
Proof. intros R (R' & P & _) N. exact (rep_pres_nil R P N). Qed.

Lemma rd_focus (h : heap) rt c t T0 : rep h rt T0 -> T0 = plug c t -> (t = L -> nilok h (pa rt c)) -> par_of h (ad t) = Ok (pa rt c).
Proof.
  intros R -> N. destruct t as [|a c0 k v l r].
  - simpl. unfold par_of, getn. rewrite (N eq_refl). auto.
  - apply (rep_par _ _ _ _ _ _ _ R).
Qed.

(** exits of the loop *)
Lemma rf_red rt (h : heap) c x k v l r n mb r0 fuel T0 :
  rep h rt T0 -> T0 = plug c (T x true k v l r) -> rbt (T x false k v l r) false n -> rbc c mb n -> 0 < fuel ->
  rfpost rt h T0 (RemoveFix_loop fuel h r0 x).
Proof.
  intros R -> B C Hf. destruct fuel; [lia|]. cbn [RemoveFix_loop].
  rewrite (@rep_red K V h rt c (T x true k v l r) R : red_of h x = _). nx. rewrite orb_true_r.
  destruct (@red_evo K V h rt c x true k v l r false R) as (h2 & E & W).
  exists h, x, h2, (plug c (T x false k v l r)). split; auto. split; auto. split; auto.
  eapply rbt_plug; eauto.
Qed.
Lemma rf_root rt (h : heap) c r0 k v l r N fuel T0 :
  rep h rt T0 -> T0 = plug c (T r0 false k v l r) -> rbt T0 false N -> 0 < fuel ->
  rfpost rt h T0 (RemoveFix_loop fuel h r0 r0).
Proof.
  intros R -> B Hf. destruct fuel; [lia|]. cbn [RemoveFix_loop].
  rewrite (@rep_red K V h rt c (T r0 false k v l r) R : red_of h r0 = _). nx. rewrite Nat.eqb_refl.
  destruct (@red_evo K V h rt c r0 false k v l r false R) as (h2 & E & W).
  exists h, r0, h2, (plug c (T r0 false k v l r)). eauto 7.
Qed.
(** the position of the remembered root after the final rotation *)
Definition rootpos (r0 p : addr) (c : ctx) : Prop :=
  r0 = p \/ (c <> [] /\ forall X, ad (plug c X) = r0).
Lemma plug_ad c (f : frame K V) : forall X Y, ad (plug (f :: c) X) = ad (plug (f :: c) Y).
Proof.
  revert f. induction c as [|g c IH]; intros f X Y; [destruct f; auto|].
  change (ad (plug (g :: c) (plug1 f X)) = ad (plug (g :: c) (plug1 f Y))). apply IH.
Qed.
Lemma plug_nl c : forall X : atree, X <> L -> plug c X <> L.
Proof. induction c as [|f c IH]; intros X H; simpl; auto. apply IH. destruct f; discriminate. Qed.
(** every final tree has the remembered root as a black node *)
Lemma rf_final rt (h : heap) c p X cx kx vx lx rx r0 N fuel T0 : rep h rt T0 -> T0 = plug c X -> rbt T0 false N ->
  rootpos r0 p c -> (exists c1, X = plug c1 (T p false kx vx lx rx)) -> cx = true -> 0 < fuel ->
  rfpost rt h T0 (RemoveFix_loop fuel h r0 r0).
Proof.
  intros R -> B [->|[Nc Hp]] (c1 & HX) _ Hf.
  - eapply rf_root with (c := c1 ++ c); eauto. rewrite plug_app, <- HX. auto.
  - pose proof (Hp X) as Ha. remember (plug c X) as T1 eqn:ET. destruct T1 as [|a c0 k v l r].
    + exfalso. symmetry in ET. revert ET. apply plug_nl. rewrite HX. apply plug_nl. discriminate.
    + simpl in Ha. subst a. pose proof (rbt_color B) as Ec. simpl in Ec. subst c0.
      eapply rf_root with (c := []); eauto. reflexivity.
Qed.

Definition stage2L (f : nat) (h : heap) (root x w : addr) : res (heap * addr) :=
        let* wl := left_of h w in
        let* wlr := red_of h wl in
        let* wr_ := right_of h w in
        let* wrr := red_of h wr_ in
        if negb wlr && negb wrr then
          let* h := set_red h w true in
          let* xp := par_of h x in
          RemoveFix_loop f h root xp
        else
          let* ' (h, w) := (if negb wrr then
                              let* h := set_red h wl false in
                              let* h := set_red h w true in
                              let* h := RotateRight h w in
                              let* xp := par_of h x in
                              let* w := right_of h xp in Ok (h, w)
                            else Ok (h, w)) in
          let* xp := par_of h x in
          let* xpr := red_of h xp in
          let* h := set_red h w xpr in
          let* h := set_red h xp false in
          let* wr_ := right_of h w in
          let* h := set_red h wr_ false in
          let* h := RotateLeft h xp in
          RemoveFix_loop f h root root.

Definition IHspec (fuel : nat) : Prop := forall (h : heap) rt c t n mb r0,
  length c + 1 < fuel -> rep h rt (plug c t) -> (t = L -> nilok h (pa rt c)) ->
  rbt t false n -> rbc c mb (S n) -> r0 = ad (plug c t) ->
  rfpost rt h (plug c t) (RemoveFix_loop fuel h r0 (ad t)).

Lemma stage2L_spec fuel (h : heap) rt c t n mb r0 p pc pk pv w wk wv wn wf cn cf : 
  IHspec fuel -> 0 < fuel -> (pc = false -> length c + 1 < fuel) ->
  rep h rt (plug (FL p pc pk pv (T w false wk wv wn wf) :: c) t) -> (t = L -> nilok h p) ->
  rbt t false n -> rbt wn cn n -> rbt wf cf n ->
  (pc = true -> rbc c false (S n)) -> (pc = false -> rbc c mb (S (S n)) /\ r0 = ad (plug c (T p pc pk pv t (T w false wk wv wn wf)))) ->
  rootpos r0 p c ->
  rfpost rt h (plug (FL p pc pk pv (T w false wk wv wn wf) :: c) t) (stage2L fuel h r0 (ad t) w).
Proof.
  intros IH Hf0 Hf R Nl Ht Hwn Hwf Pt Pf RP. cbn [plug plug1] in R |- *. unfold stage2L.
  set (T0 := plug c (T p pc pk pv t (T w false wk wv wn wf))) in *.
  assert (wctx : T0 = plug (FR p pc pk pv t :: c) (T w false wk wv wn wf)) by reflexivity.
  rdl R (FR p pc pk pv t :: c). rewrite (@rep_red K V h rt (FL w false wk wv wf :: FR p pc pk pv t :: c) wn R). nx. rewrite (rbt_color Hwn).
  rdr R (FR p pc pk pv t :: c). rewrite (@rep_red K V h rt (FR w false wk wv wn :: FR p pc pk pv t :: c) wf R). nx. rewrite (rbt_color Hwf).
  destruct (negb cn && negb cf) eqn:EB.
  - (* case 2 *)
    assert (cn = false /\ cf = false) as [-> ->] by (destruct cn, cf; auto; discriminate).
    sred R (FR p pc pk pv t :: c) h1 W1.
    rewrite (@rd_focus h1 rt (FL p pc pk pv (T w true wk wv wn wf) :: c) t _ (evo_rep W1) eq_refl); [|intros Z; eapply evo_nil; [exact R|exact W1|apply Nl; exact Z]]. nx. cbn [pa fa].
    eapply rfpost_evo; [exact W1|]. destruct pc.
    + eapply rf_red with (c := c) (n := S n); [exact (evo_rep W1)|reflexivity| |apply Pt; auto|lia].
      econstructor; eauto; econstructor; eauto.
    + destruct Pf as [Pf1 Pf2]; auto.
      apply (IH h1 rt c (T p false pk pv t (T w true wk wv wn wf)) (S n) mb r0); auto.
      * exact (evo_rep W1).
      * discriminate.
      * econstructor; eauto; econstructor; eauto.
      * rewrite Pf2. unfold T0. destruct c as [|g c]; [reflexivity|apply plug_ad].
  - assert (C34 : cn = true /\ cf = false \/ cf = true) by (destruct cn, cf; simpl in EB; auto; discriminate).
    clear EB. destruct C34 as [[-> ->]| ->].
    + (* case 3 then 4 *)
      inversion Hwn as [|b bk bv bl br n0 Hbl Hbr|]; subst. cbn [negb ad].
      sred R (FL w false wk wv wf :: FR p pc pk pv t :: c) h1 W1.
      sred (evo_rep W1) (FR p pc pk pv t :: c) h2 W2.
      destruct (@rotr_evo K V h2 rt (FR p pc pk pv t :: c) b false bk bv bl w true wk wv br wf) as (h3 & E3 & W3); [exact (evo_rep W2)|]. rewrite E3. nx.
      pose proof (evo_trans (evo_trans W1 W2) W3) as W13.
      rewrite (@rd_focus h3 rt (FL p pc pk pv (T b false bk bv bl (T w true wk wv br wf)) :: c) t _ (evo_rep W13) eq_refl); [|intros Z; eapply evo_nil; [exact R|exact W13|apply Nl; exact Z]]. nx. cbn [pa fa].
      rdr (evo_rep W13) c.
      try (rewrite (@rd_focus h3 rt (FL p pc pk pv (T b false bk bv bl (T w true wk wv br wf)) :: c) t _ (evo_rep W13) eq_refl); [|intros Z; eapply evo_nil; [exact R|exact W13|apply Nl; exact Z]]; nx; cbn [pa fa]).
      rewrite (@rep_red K V h3 rt c (T p pc pk pv t (T b false bk bv bl (T w true wk wv br wf))) (evo_rep W13) : red_of h3 p = _). nx.
      sred (evo_rep W13) (FR p pc pk pv t :: c) h4 W4.
      sred (evo_rep W4) c h5 W5.
      rdr (evo_rep W5) (FR p false pk pv t :: c).
      sred (evo_rep W5) (FR b pc bk bv bl :: FR p false pk pv t :: c) h6 W6.
      destruct (@rotl_evo K V h6 rt c p false pk pv t b pc bk bv bl (T w false wk wv br wf)) as (h7 & E7 & W7); [exact (evo_rep W6)|]. rewrite E7. nx.
      eapply rfpost_evo; [exact (evo_trans (evo_trans (evo_trans (evo_trans W13 W4) W5) W6) W7)|].
      assert (exists N, rbt (plug c (T b pc bk bv (T p false pk pv t bl) (T w false wk wv br wf))) false N) as [N HN].
      { destruct pc.
        - eapply rbt_plug with (ct := true) (mb := false); [apply Pt; auto| |discriminate]. constructor; econstructor; eauto.
        - destruct Pf as [Pf1 _]; auto. eapply rbt_plug with (ct := false); [exact Pf1| |auto]. econstructor; econstructor; eauto. }
      eapply rf_final with (c := c) (p := p) (cx := true); [exact (evo_rep W7)|reflexivity|exact HN|exact RP| |reflexivity|lia].
      eexists [FL b pc bk bv (T w false wk wv br wf)]. reflexivity.
    + (* case 4 *)
      inversion Hwf as [|d dk dv dl dr n0 Hdl Hdr|]; subst. cbn [negb ad bind].
      rewrite (@rd_focus h rt (FL p pc pk pv (T w false wk wv wn (T d true dk dv dl dr)) :: c) t _ R eq_refl); [|auto]. nx. cbn [pa fa].
      rewrite (@rep_red K V h rt c (T p pc pk pv t (T w false wk wv wn (T d true dk dv dl dr))) R : red_of h p = _). nx.
      sred R (FR p pc pk pv t :: c) h4 W4.
      sred (evo_rep W4) c h5 W5.
      rdr (evo_rep W5) (FR p false pk pv t :: c).
      sred (evo_rep W5) (FR w pc wk wv wn :: FR p false pk pv t :: c) h6 W6.
      destruct (@rotl_evo K V h6 rt c p false pk pv t w pc wk wv wn (T d false dk dv dl dr)) as (h7 & E7 & W7); [exact (evo_rep W6)|]. rewrite E7. nx.
      eapply rfpost_evo; [exact (evo_trans (evo_trans (evo_trans W4 W5) W6) W7)|].
      assert (exists N, rbt (plug c (T w pc wk wv (T p false pk pv t wn) (T d false dk dv dl dr))) false N) as [N HN].
      { destruct pc.
        - eapply rbt_plug with (ct := true) (mb := false); [apply Pt; auto| |discriminate]. constructor; econstructor; eauto.
        - destruct Pf as [Pf1 _]; auto. eapply rbt_plug with (ct := false); [exact Pf1| |auto]. econstructor; econstructor; eauto. }
      eapply rf_final with (c := c) (p := p) (cx := true); [exact (evo_rep W7)|reflexivity|exact HN|exact RP| |reflexivity|lia].
      eexists [FL w pc wk wv (T d false dk dv dl dr)]. reflexivity.
Qed.

Definition stage2R (f : nat) (h : heap) (root x w : addr) : res (heap * addr) :=
        let* wl := left_of h w in
        let* wlr := red_of h wl in
        let* wr_ := right_of h w in
        let* wrr := red_of h wr_ in
        if negb wlr && negb wrr then
          let* h := set_red h w true in
          let* xp := par_of h x in
          RemoveFix_loop f h root xp
        else
          let* ' (h, w) := (if negb wlr then
                              let* h := set_red h wr_ false in
                              let* h := set_red h w true in
                              let* h := RotateLeft h w in
                              let* xp := par_of h x in
                              let* w := left_of h xp in Ok (h, w)
                            else Ok (h, w)) in
          let* xp := par_of h x in
          let* xpr := red_of h xp in
          let* h := set_red h w xpr in
          let* h := set_red h xp false in
          let* wl := left_of h w in
          let* h := set_red h wl false in
          let* h := RotateRight h xp in
          RemoveFix_loop f h root root.

Lemma stage2R_spec fuel (h : heap) rt c t n mb r0 p pc pk pv w wk wv wn wf cn cf : 
  IHspec fuel -> 0 < fuel -> (pc = false -> length c + 1 < fuel) ->
  rep h rt (plug (FR p pc pk pv (T w false wk wv wf wn) :: c) t) -> (t = L -> nilok h p) ->
  rbt t false n -> rbt wn cn n -> rbt wf cf n ->
  (pc = true -> rbc c false (S n)) -> (pc = false -> rbc c mb (S (S n)) /\ r0 = ad (plug c (T p pc pk pv (T w false wk wv wf wn) t))) ->
  rootpos r0 p c ->
  rfpost rt h (plug (FR p pc pk pv (T w false wk wv wf wn) :: c) t) (stage2R fuel h r0 (ad t) w).
Proof.
  intros IH Hf0 Hf R Nl Ht Hwn Hwf Pt Pf RP. cbn [plug plug1] in R |- *. unfold stage2R.
  set (T0 := plug c (T p pc pk pv (T w false wk wv wf wn) t)) in *.
  assert (wctx : T0 = plug (FL p pc pk pv t :: c) (T w false wk wv wf wn)) by reflexivity.
  rdl R (FL p pc pk pv t :: c). rewrite (@rep_red K V h rt (FL w false wk wv wn :: FL p pc pk pv t :: c) wf R). nx. rewrite (rbt_color Hwf).
  rdr R (FL p pc pk pv t :: c). rewrite (@rep_red K V h rt (FR w false wk wv wf :: FL p pc pk pv t :: c) wn R). nx. rewrite (rbt_color Hwn).
  destruct (negb cf && negb cn) eqn:EB.
  - (* case 2 *)
    assert (cn = false /\ cf = false) as [-> ->] by (destruct cn, cf; auto; discriminate).
    sred R (FL p pc pk pv t :: c) h1 W1.
    rewrite (@rd_focus h1 rt (FR p pc pk pv (T w true wk wv wf wn) :: c) t _ (evo_rep W1) eq_refl); [|intros Z; eapply evo_nil; [exact R|exact W1|apply Nl; exact Z]]. nx. cbn [pa fa].
    eapply rfpost_evo; [exact W1|]. destruct pc.
    + eapply rf_red with (c := c) (n := S n); [exact (evo_rep W1)|reflexivity| |apply Pt; auto|lia].
      econstructor; eauto; econstructor; eauto.
    + destruct Pf as [Pf1 Pf2]; auto.
      apply (IH h1 rt c (T p false pk pv (T w true wk wv wf wn) t) (S n) mb r0); auto.
      * exact (evo_rep W1).
      * discriminate.
      * econstructor; eauto; econstructor; eauto.
      * rewrite Pf2. unfold T0. destruct c as [|g c]; [reflexivity|apply plug_ad].
  - assert (C34 : cn = true /\ cf = false \/ cf = true) by (destruct cn, cf; simpl in EB; auto; discriminate).
    clear EB. destruct C34 as [[-> ->]| ->].
    + (* case 3 then 4 *)
      inversion Hwn as [|b bk bv bl br n0 Hbl Hbr|]; subst. cbn [negb ad].
      sred R (FR w false wk wv wf :: FL p pc pk pv t :: c) h1 W1.
      sred (evo_rep W1) (FL p pc pk pv t :: c) h2 W2.
      destruct (@rotl_evo K V h2 rt (FL p pc pk pv t :: c) w true wk wv wf b false bk bv bl br) as (h3 & E3 & W3); [exact (evo_rep W2)|]. rewrite E3. nx.
      pose proof (evo_trans (evo_trans W1 W2) W3) as W13.
      rewrite (@rd_focus h3 rt (FR p pc pk pv (T b false bk bv (T w true wk wv wf bl) br) :: c) t _ (evo_rep W13) eq_refl); [|intros Z; eapply evo_nil; [exact R|exact W13|apply Nl; exact Z]]. nx. cbn [pa fa].
      rdl (evo_rep W13) c.
      try (rewrite (@rd_focus h3 rt (FR p pc pk pv (T b false bk bv (T w true wk wv wf bl) br) :: c) t _ (evo_rep W13) eq_refl); [|intros Z; eapply evo_nil; [exact R|exact W13|apply Nl; exact Z]]; nx; cbn [pa fa]).
      rewrite (@rep_red K V h3 rt c (T p pc pk pv (T b false bk bv (T w true wk wv wf bl) br) t) (evo_rep W13) : red_of h3 p = _). nx.
      sred (evo_rep W13) (FL p pc pk pv t :: c) h4 W4.
      sred (evo_rep W4) c h5 W5.
      rdl (evo_rep W5) (FL p false pk pv t :: c).
      sred (evo_rep W5) (FL b pc bk bv br :: FL p false pk pv t :: c) h6 W6.
      destruct (@rotr_evo K V h6 rt c b pc bk bv (T w false wk wv wf bl) p false pk pv br t) as (h7 & E7 & W7); [exact (evo_rep W6)|]. rewrite E7. nx.
      eapply rfpost_evo; [exact (evo_trans (evo_trans (evo_trans (evo_trans W13 W4) W5) W6) W7)|].
      assert (exists N, rbt (plug c (T b pc bk bv (T w false wk wv wf bl) (T p false pk pv br t))) false N) as [N HN].
      { destruct pc.
        - eapply rbt_plug with (ct := true) (mb := false); [apply Pt; auto| |discriminate]. constructor; econstructor; eauto.
        - destruct Pf as [Pf1 _]; auto. eapply rbt_plug with (ct := false); [exact Pf1| |auto]. econstructor; econstructor; eauto. }
      eapply rf_final with (c := c) (p := p) (cx := true); [exact (evo_rep W7)|reflexivity|exact HN|exact RP| |reflexivity|lia].
      eexists [FR b pc bk bv (T w false wk wv wf bl)]. reflexivity.
    + (* case 4 *)
      inversion Hwf as [|d dk dv dl dr n0 Hdl Hdr|]; subst. cbn [negb ad bind].
      rewrite (@rd_focus h rt (FR p pc pk pv (T w false wk wv (T d true dk dv dl dr) wn) :: c) t _ R eq_refl); [|auto]. nx. cbn [pa fa].
      rewrite (@rep_red K V h rt c (T p pc pk pv (T w false wk wv (T d true dk dv dl dr) wn) t) R : red_of h p = _). nx.
      sred R (FL p pc pk pv t :: c) h4 W4.
      sred (evo_rep W4) c h5 W5.
      rdl (evo_rep W5) (FL p false pk pv t :: c).
      sred (evo_rep W5) (FL w pc wk wv wn :: FL p false pk pv t :: c) h6 W6.
      destruct (@rotr_evo K V h6 rt c w pc wk wv (T d false dk dv dl dr) p false pk pv wn t) as (h7 & E7 & W7); [exact (evo_rep W6)|]. rewrite E7. nx.
      eapply rfpost_evo; [exact (evo_trans (evo_trans (evo_trans W4 W5) W6) W7)|].
      assert (exists N, rbt (plug c (T w pc wk wv (T d false dk dv dl dr) (T p false pk pv wn t))) false N) as [N HN].
      { destruct pc.
        - eapply rbt_plug with (ct := true) (mb := false); [apply Pt; auto| |discriminate]. constructor; econstructor; eauto.
        - destruct Pf as [Pf1 _]; auto. eapply rbt_plug with (ct := false); [exact Pf1| |auto]. econstructor; econstructor; eauto. }
      eapply rf_final with (c := c) (p := p) (cx := true); [exact (evo_rep W7)|reflexivity|exact HN|exact RP| |reflexivity|lia].
      eexists [FR w pc wk wv (T d false dk dv dl dr)]. reflexivity.
Qed.

Lemma root_in : forall (c : ctx) f X, 1 <= cntc (ad (plug (f :: c) X)) (f :: c).
Proof.
  induction c as [|g c IH]; intros f X.
  - destruct f; simpl; rewrite eqn_refl; lia.
  - change (plug (f :: g :: c) X) with (plug (g :: c) (plug1 f X)). specialize (IH g (plug1 f X)).
    set (x := ad _) in *. change (cntc x (f :: g :: c)) with (eqn x (fa f) + cnt x (fsib f) + cntc x (g :: c)). lia.
Qed.
Lemma root_neq (h : heap) rt c t : rep h rt (plug c t) -> c <> [] -> ad t <> ad (plug c t).
Proof.
  intros R N. destruct c as [|f c]; [congruence|]. intros E.
  assert (plug (f :: c) t <> L) as Nl by (simpl; apply plug_nl; destruct f; discriminate).
  pose proof (@rep_ne K V h rt [] _ R Nl) as Nn. simpl plug at 1 in Nn. cbn [plug] in Nn.
  destruct t as [|a c0 k v l r]; [simpl in E; congruence|].
  assert (1 <= cntc (ad (plug (f :: c) (T a c0 k v l r))) (f :: c)) as H1.
  { apply root_in. }
  rewrite <- E in H1. pose proof (rep_cnt R a) as D. rewrite cnt_plug in D. cbn [ad] in H1. simpl cnt in D.
  rewrite eqn_refl in D. lia.
Qed.

Lemma RemoveFix_loop_spec fuel : IHspec fuel.
Proof.
  induction fuel as [|fuel IH]; intros h rt c t n mb r0 Hf R Nl Ht Hc Hr0; [lia|].
  destruct c as [|f c].
  - (* root reached *)
    cbn [plug] in *. cbn [RemoveFix_loop]. rewrite (@rep_red K V h rt [] t R). nx. rewrite Hr0, Nat.eqb_refl. cbn [orb].
    destruct t as [|a c0 k v l r].
    + destruct (rep_nil R) as [p Hp]. pose proof Hp as Hp'. unfold nilok in Hp'.
      unfold rfpost. exists h, nil. unfold set_red, getn. rewrite Hp'. cbn [bind nkey nval npar nleft nright].
      eexists. exists L. split; [auto|]. split; [reflexivity|].
      set (h2 := hupd _ _ _).
      assert (forall x, h2 x = h x) as EX.
      { intros x. unfold h2, hupd. destruct (Nat.eqb_spec x nil); subst; auto. }
      split.
      * split; [|split; auto]. { constructor.
          - destruct (rep_whole R) as [A B]. split; [exact A|]. rewrite EX; auto.
          - exists p. unfold nilok. rewrite EX. auto.
          - apply (rep_cnt R). - apply (rep_cnt0 R). - apply (rep_cntr R). - apply (rep_rt R). }
        intros x _ _. auto.
      * exists 0. constructor.
    + pose proof (rbt_color Ht) as Ec. simpl in Ec. subst c0.
      destruct (@red_evo K V h rt [] a false k v l r false R) as (h2 & E & W).
      exists h, a, h2, (T a false k v l r). eauto 7.
  - assert (exists mbx, (fc f = true -> rbc c false (S n) /\ color (fsib f) = false) /\ (fc f = false -> rbc c mbx (S (S n)))) as (mbx & Pt0 & Pf0).
    { inversion Hc as [|? ? ? F S C|? ? ? ? ? F S C]; subst.
      - exists true. split; [|congruence]. intros _. split; auto. apply (rbt_color S).
      - eexists. split; [congruence|]. intros _. exact C. }
    assert (exists cs, rbt (fsib f) cs (S n)) as Hs.
    { inversion Hc; subst; eauto. }
    assert (Pf : fc f = false -> exists mb', rbc c mb' (S (S n))) by eauto.
    assert (Pt : fc f = true -> rbc c false (S n) /\ color (fsib f) = false) by auto.
    change (RemoveFix_loop (S fuel) h r0 (ad t)) with
      (let* xr := red_of h (ad t) in
       if (ad t =? r0) || xr then Ok (h, ad t)
       else
         let* xp := par_of h (ad t) in
         let* xpl := left_of h xp in
         if ad t =? xpl then
           let* w := right_of h xp in
           let* wr := red_of h w in
           let* ' (h, w) := (if wr then
                            let* h := set_red h w false in
                            let* h := set_red h xp true in
                            let* h := RotateLeft h xp in
                            let* xp := par_of h (ad t) in
                            let* w := right_of h xp in Ok (h, w)
                          else Ok (h, w)) in
           stage2L fuel h r0 (ad t) w
         else
           let* w := left_of h xp in
           let* wr := red_of h w in
           let* ' (h, w) := (if wr then
                            let* h := set_red h w false in
                            let* h := set_red h xp true in
                            let* h := RotateRight h xp in
                            let* xp := par_of h (ad t) in
                            let* w := left_of h xp in Ok (h, w)
                          else Ok (h, w)) in
           stage2R fuel h r0 (ad t) w).
    destruct f as [p pc pk pv s|p pc pk pv s].
    { cbn [plug plug1] in R |- *. cbn [fc fsib] in *.
      rewrite (@rep_red K V h rt (FL p pc pk pv s :: c) t R). nx. rewrite (rbt_color Ht).
      assert (ad t =? r0 = false) as -> by (apply Nat.eqb_neq; subst r0; apply (@root_neq h rt (FL p pc pk pv s :: c) t R); discriminate).
      cbn [orb].
      rewrite (@rd_focus h rt (FL p pc pk pv s :: c) t _ R eq_refl); [|auto]. nx. cbn [pa fa].
      rdl R c.
      rewrite Nat.eqb_refl. rdr R c.
      rewrite (@rep_red K V h rt (FR p pc pk pv t :: c) s R). nx.
      destruct Hs as (cs & Hs). rewrite (rbt_color Hs).
      destruct cs.
      + (* red sibling *)
        inversion Hs as [|w wk wv wl wr n0 Hwl Hwr|]; subst. 
        destruct pc; [exfalso; destruct Pt as [Pt1 Pt2]; auto; discriminate|]. destruct (Pf eq_refl) as (mb' & Pf1).
        cbn [ad].
        sred R (FR p false pk pv t :: c) h1 W1.
        sred (evo_rep W1) c h2 W2.
        destruct (@rotl_evo K V h2 rt c p true pk pv t w false wk wv wl wr) as (h3 & E3 & W3); [exact (evo_rep W2)|]. rewrite E3. nx.
        pose proof (evo_trans (evo_trans W1 W2) W3) as W13.
        rewrite (@rd_focus h3 rt (FL p true pk pv wl :: FL w false wk wv wr :: c) t _ (evo_rep W13) eq_refl); [|intros Z; eapply evo_nil; [exact R|exact W13|apply Nl; exact Z]]. nx. cbn [pa fa].
        rdr (evo_rep W13) (FL w false wk wv wr :: c).
        eapply rfpost_evo; [exact W13|].
        inversion Hwl as [| |b bk bv bl br cl cr n1 Hbl Hbr]; subst. cbn [ad].
        eapply (@stage2L_spec fuel h3 rt (FL w false wk wv wr :: c) t n mb' _ p true pk pv b bk bv bl br); eauto.
        * simpl in *. lia.
        * simpl in *. intros; try discriminate; lia.
        * exact (evo_rep W13).
        * intros Z. eapply evo_nil; [exact R|exact W13|apply Nl; exact Z].
        * intros _. eapply rbcB; simpl; eauto.
        * discriminate.
        * unfold rootpos. destruct c as [|g c]; [left; reflexivity|right]. split; [discriminate|].
          intros X. change (ad (plug (g :: c) (plug1 (FL w false wk wv wr) X)) = ad (plug (g :: c) (T p false pk pv t (T w true wk wv (T b false bk bv bl br) wr)))). apply plug_ad.
      + (* black sibling *)
        inversion Hs as [| |w wk wv wl wr cl cr n0 Hwl Hwr]; subst. cbn [ad].
        eapply (@stage2L_spec fuel h rt c t n mbx); [exact IH|simpl in *; lia|intros _; simpl in *; lia|exact R|exact Nl|exact Ht|eassumption|eassumption|intros E; apply Pt; auto|intros E; split; [apply Pf0; exact E|reflexivity]|].
        * unfold rootpos. destruct c as [|g c]; [left; reflexivity|right]. split; [discriminate|].
          intros X. exact (@plug_ad c g X _). }
    { cbn [plug plug1] in R |- *. cbn [fc fsib] in *.
      rewrite (@rep_red K V h rt (FR p pc pk pv s :: c) t R). nx. rewrite (rbt_color Ht).
      assert (ad t =? r0 = false) as -> by (apply Nat.eqb_neq; subst r0; apply (@root_neq h rt (FR p pc pk pv s :: c) t R); discriminate).
      cbn [orb].
      rewrite (@rd_focus h rt (FR p pc pk pv s :: c) t _ R eq_refl); [|auto]. nx. cbn [pa fa].
      rdl R c.
      assert (ad t =? ad s = false) as -> by (apply Nat.eqb_neq, not_eq_sym; apply (@rep_lr K V h rt c p pc pk pv s t R); left; intros ->; destruct Hs as (cs & Hs); inversion Hs). try rdl R c.
      rewrite (@rep_red K V h rt (FL p pc pk pv t :: c) s R). nx.
      destruct Hs as (cs & Hs). rewrite (rbt_color Hs).
      destruct cs.
      + (* red sibling *)
        inversion Hs as [|w wk wv wl wr n0 Hwl Hwr|]; subst. 
        destruct pc; [exfalso; destruct Pt as [Pt1 Pt2]; auto; discriminate|]. destruct (Pf eq_refl) as (mb' & Pf1).
        cbn [ad].
        sred R (FL p false pk pv t :: c) h1 W1.
        sred (evo_rep W1) c h2 W2.
        destruct (@rotr_evo K V h2 rt c w false wk wv wl p true pk pv wr t) as (h3 & E3 & W3); [exact (evo_rep W2)|]. rewrite E3. nx.
        pose proof (evo_trans (evo_trans W1 W2) W3) as W13.
        rewrite (@rd_focus h3 rt (FR p true pk pv wr :: FR w false wk wv wl :: c) t _ (evo_rep W13) eq_refl); [|intros Z; eapply evo_nil; [exact R|exact W13|apply Nl; exact Z]]. nx. cbn [pa fa].
        rdl (evo_rep W13) (FR w false wk wv wl :: c).
        eapply rfpost_evo; [exact W13|].
        inversion Hwr as [| |b bk bv bl br cl cr n1 Hbl Hbr]; subst. cbn [ad].
        eapply (@stage2R_spec fuel h3 rt (FR w false wk wv wl :: c) t n mb' _ p true pk pv b bk bv br bl); eauto.
        * simpl in *. lia.
        * simpl in *. intros; try discriminate; lia.
        * exact (evo_rep W13).
        * intros Z. eapply evo_nil; [exact R|exact W13|apply Nl; exact Z].
        * intros _. eapply rbcB; simpl; eauto.
        * discriminate.
        * unfold rootpos. destruct c as [|g c]; [left; reflexivity|right]. split; [discriminate|].
          intros X. change (ad (plug (g :: c) (plug1 (FR w false wk wv wl) X)) = ad (plug (g :: c) (T p false pk pv (T w true wk wv wl (T b false bk bv bl br)) t))). apply plug_ad.
      + (* black sibling *)
        inversion Hs as [| |w wk wv wl wr cl cr n0 Hwl Hwr]; subst. cbn [ad].
        eapply (@stage2R_spec fuel h rt c t n mbx); [exact IH|simpl in *; lia|intros _; simpl in *; lia|exact R|exact Nl|exact Ht|eassumption|eassumption|intros E; apply Pt; auto|intros E; split; [apply Pf0; exact E|reflexivity]|].
        * unfold rootpos. destruct c as [|g c]; [left; reflexivity|right]. split; [discriminate|].
          intros X. exact (@plug_ad c g X _). }
Qed.
End R.
