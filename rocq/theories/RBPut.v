(** RBTreePut restores the red-black invariant and inserts in order. *)
From Verif Require Import Prelude PreludeFacts RBModel RBHeap RBInv.
Set Implicit Arguments.

Section P.
Variables K V : Type.
Notation heap := (heap K V).
Notation atree := (atree K V).
Notation ctx := (ctx K V).
Notation L := (@L K V).

(** reads at a focused node *)
Lemma rd_par (h : heap) rt c a c0 k v l r t : rep h rt t -> t = plug c (T a c0 k v l r) -> par_of h a = Ok (pa rt c).
Proof. intros H ->. eapply rep_par; eauto. Qed.
Lemma rd_left (h : heap) rt c a c0 k v l r t : rep h rt t -> t = plug c (T a c0 k v l r) -> left_of h a = Ok (ad l).
Proof. intros H ->. eapply rep_left; eauto. Qed.
Lemma rd_right (h : heap) rt c a c0 k v l r t : rep h rt t -> t = plug c (T a c0 k v l r) -> right_of h a = Ok (ad r).
Proof. intros H ->. eapply rep_right; eauto. Qed.

Ltac nx := cbn [bind ad negb color fst snd].
(* set_red at context C, node with given subtrees *)
Ltac sred R C :=
  match goal with
  | |- context [set_red ?h ?a ?c1] =>
      let h' := fresh "h" in let E := fresh "E" in let W := fresh "W" in
      edestruct (@red_evo K V h _ C a _ _ _ _ _ c1 R) as (h' & E & W);
      rewrite E; nx
  end.

Definition putfix_post rt (h : heap) (t : atree) (r : res heap) : Prop :=
  exists h' t', r = Ok h' /\ evo rt h t h' t' /\ exists N, rbt (blacken t') false N.

Lemma putfix_post_evo rt h t h1 t1 r : evo rt h t h1 t1 -> putfix_post rt h1 t1 r -> putfix_post rt h t r.
Proof.
  intros E (h' & t' & R & E' & N). exists h', t'. split; auto. split; auto. eapply evo_trans; eauto.
Qed.

Lemma putfix_exit rt (h : heap) c mb n f z k v l r t fuel : fc f = false -> rbt l false n -> rbt r false n ->
  rbt (fsib f) true n -> rbc c mb (S n) -> rep h rt t -> t = plug (f :: c) (T z true k v l r) -> 0 < fuel ->
  putfix_post rt h t (PutFix_loop fuel h z).
Proof.
  intros F Hl Hr Hs Hc R E Hf. destruct fuel as [|fuel]; [lia|]. subst t.
  cbn [PutFix_loop]. rewrite (@rep_par K V h rt (f :: c) z true k v l r R). nx.
  rewrite (@rep_pred K V h rt (f :: c) _ R). nx.
  assert (pcolor (f :: c) = false) as -> by (destruct f; simpl in *; auto). cbn [negb].
  exists h, (plug (f :: c) (T z true k v l r)). split; auto. split; [apply evo_refl; auto|].
  destruct (@rbt_plug K V (f :: c) false n) with (t := T z true k v l r) (ct := true) as [N HN]; [eapply rbcB; eauto|constructor; auto|discriminate|].
  exists N. rewrite blacken_black; auto. apply (rbt_color HN).
Qed.

Lemma PutFix_loop_spec fuel : forall h rt c z k v l r n mb,
  length c < fuel ->
  rep h rt (plug c (T z true k v l r)) ->
  rbt l false n -> rbt r false n -> rbc c mb n ->
  putfix_post rt h (plug c (T z true k v l r)) (PutFix_loop fuel h z).
Proof.
  induction fuel as [|fuel IH]; intros h rt c z k v l r n mb Hf R Hl Hr Hc; [lia|].
  cbn [PutFix_loop]. rewrite (@rep_par K V h rt c z true k v l r R). nx.
  rewrite (@rep_pred K V h rt c _ R). nx.
  inversion Hc as [n0 E1 E2 E3|f c1 n0 F SF C E1 E2 E3|f c1 cs mb1 n0 F SF C E1 E2 E3]; subst.
  - (* root *)
    cbn [pcolor negb]. exists h, (plug [] (T z true k v l r)). split; auto. split; [apply evo_refl; auto|].
    exists (1 + n). simpl. econstructor; eauto.
  - (* red parent *)
    assert (pcolor (f :: c1) = true) as -> by (destruct f; simpl in *; auto). cbn [negb].
    inversion C as [n1 E1 E2 E3|f1 c2 n1 F1 S1 C1 E1 E2 E3|g c2 cs mb1 n1 G SG C1 E1 E2 E3]; subst.
    destruct f as [p pc pk pv s|p pc pk pv s]; destruct g as [g gc gk gv u|g gc gk gv u]; simpl in F, G, SF, SG; subst pc gc;
      cbn [pa fa]; cbn [plug plug1] in R |- *; simpl in Hf.
    + (* L L *)
      rewrite (@rd_par h rt (FL g false gk gv u :: c2) p true pk pv (T z true k v l r) s _ R eq_refl). nx. cbn [pa fa].
      try rewrite (@rd_left h rt c2 g false gk gv (T p true pk pv (T z true k v l r) s) u _ R eq_refl). nx.
      rewrite Nat.eqb_refl.
      try rewrite (@rd_right h rt c2 g false gk gv (T p true pk pv (T z true k v l r) s) u _ R eq_refl). nx.
      rewrite (@rep_red K V h rt (FR g false gk gv (T p true pk pv (T z true k v l r) s) :: c2) u R). nx. rewrite (rbt_color SG).
      destruct cs.
      * inversion SG as [|ua uk uv ul ur n0 Sl Sr|]; subst. nx.
        sred R (FL g false gk gv (T ua true uk uv ul ur) :: c2).
        sred (evo_rep W) (FR g false gk gv (T p false pk pv (T z true k v l r) s) :: c2).
        sred (evo_rep W0) c2.
        eapply putfix_post_evo; [exact (evo_trans (evo_trans W W0) W1)|].
        apply (IH h2 rt c2 g gk gv (T p false pk pv (T z true k v l r) s) (T ua false uk uv ul ur) (S n) mb1); auto; try lia; try exact (evo_rep W1); try (econstructor; eauto); constructor; auto.
      * rewrite (@rd_right h rt (FL g false gk gv u :: c2) p true pk pv (T z true k v l r) s _ R eq_refl). nx.
        assert (z =? ad s = false) as -> by (apply Nat.eqb_neq; apply (@rep_lr K V h rt (FL g false gk gv u :: c2) p true pk pv (T z true k v l r) s R); left; discriminate).
        pose proof (evo_refl R) as W1. set (h1 := h) in *. cbn [bind].
        rewrite (@rd_par h1 rt (FL p true pk pv s :: FL g false gk gv u :: c2) z true k v l r _ (evo_rep W1) eq_refl). nx. cbn [pa fa].
        sred (evo_rep W1) (FL g false gk gv u :: c2). rename h0 into h2, W into W2.
        rewrite (@rd_par h2 rt (FL p false pk pv s :: FL g false gk gv u :: c2) z true k v l r _ (evo_rep W2) eq_refl). nx. cbn [pa fa].
        rewrite (@rd_par h2 rt (FL g false gk gv u :: c2) p false pk pv (T z true k v l r) s _ (evo_rep W2) eq_refl). nx. cbn [pa fa].
        sred (evo_rep W2) c2. rename h0 into h3, W into W3.
        rewrite (@rd_par h3 rt (FL p false pk pv s :: FL g true gk gv u :: c2) z true k v l r _ (evo_rep W3) eq_refl). nx. cbn [pa fa].
        rewrite (@rd_par h3 rt (FL g true gk gv u :: c2) p false pk pv (T z true k v l r) s _ (evo_rep W3) eq_refl). nx. cbn [pa fa].
        edestruct (@rotr_evo K V h3 rt c2) as (h4 & E4 & W4); [exact (evo_rep W3)|]. rewrite E4. nx.
        eapply putfix_post_evo; [exact (evo_trans (evo_trans (evo_trans W1 W2) W3) W4)|].
        pose proof (evo_rep W4) as R4.
        eapply putfix_exit with (f := FL p false pk pv (T g true gk gv s u)) (c := c2) (mb := mb1) (n := n); [reflexivity|..|exact R4|reflexivity|lia]; try assumption; simpl; constructor; assumption.
    + (* L R *)
      rewrite (@rd_par h rt (FR g false gk gv u :: c2) p true pk pv (T z true k v l r) s _ R eq_refl). nx. cbn [pa fa].
      try rewrite (@rd_left h rt c2 g false gk gv u (T p true pk pv (T z true k v l r) s) _ R eq_refl). nx.
      assert (p =? ad u = false) as -> by (apply Nat.eqb_neq, not_eq_sym; apply (@rep_lr K V h rt c2 g false gk gv u (T p true pk pv (T z true k v l r) s) R); right; discriminate).
      try rewrite (@rd_left h rt c2 g false gk gv u (T p true pk pv (T z true k v l r) s) _ R eq_refl). nx.
      rewrite (@rep_red K V h rt (FL g false gk gv (T p true pk pv (T z true k v l r) s) :: c2) u R). nx. rewrite (rbt_color SG).
      destruct cs.
      * inversion SG as [|ua uk uv ul ur n0 Sl Sr|]; subst. nx.
        sred R (FR g false gk gv (T ua true uk uv ul ur) :: c2).
        sred (evo_rep W) (FL g false gk gv (T p false pk pv (T z true k v l r) s) :: c2).
        sred (evo_rep W0) c2.
        eapply putfix_post_evo; [exact (evo_trans (evo_trans W W0) W1)|].
        apply (IH h2 rt c2 g gk gv (T ua false uk uv ul ur) (T p false pk pv (T z true k v l r) s) (S n) mb1); auto; try lia; try exact (evo_rep W1); try (econstructor; eauto); constructor; auto.
      * rewrite (@rd_left h rt (FR g false gk gv u :: c2) p true pk pv (T z true k v l r) s _ R eq_refl). nx.
        rewrite Nat.eqb_refl.
        destruct (@rotr_evo K V h rt (FR g false gk gv u :: c2) z true k v l p true pk pv r s R) as (h1 & E1 & W1). rewrite E1. nx.
        rewrite (@rd_par h1 rt (FR z true k v l :: FR g false gk gv u :: c2) p true pk pv r s _ (evo_rep W1) eq_refl). nx. cbn [pa fa].
        sred (evo_rep W1) (FR g false gk gv u :: c2). rename h0 into h2, W into W2.
        rewrite (@rd_par h2 rt (FR z false k v l :: FR g false gk gv u :: c2) p true pk pv r s _ (evo_rep W2) eq_refl). nx. cbn [pa fa].
        rewrite (@rd_par h2 rt (FR g false gk gv u :: c2) z false k v l (T p true pk pv r s) _ (evo_rep W2) eq_refl). nx. cbn [pa fa].
        sred (evo_rep W2) c2. rename h0 into h3, W into W3.
        rewrite (@rd_par h3 rt (FR z false k v l :: FR g true gk gv u :: c2) p true pk pv r s _ (evo_rep W3) eq_refl). nx. cbn [pa fa].
        rewrite (@rd_par h3 rt (FR g true gk gv u :: c2) z false k v l (T p true pk pv r s) _ (evo_rep W3) eq_refl). nx. cbn [pa fa].
        edestruct (@rotl_evo K V h3 rt c2) as (h4 & E4 & W4); [exact (evo_rep W3)|]. rewrite E4. nx.
        eapply putfix_post_evo; [exact (evo_trans (evo_trans (evo_trans W1 W2) W3) W4)|].
        pose proof (evo_rep W4) as R4.
        eapply putfix_exit with (f := FR z false k v (T g true gk gv u l)) (c := c2) (mb := mb1) (n := n); [reflexivity|..|exact R4|reflexivity|lia]; try assumption; simpl; constructor; assumption.
    + (* R L *)
      rewrite (@rd_par h rt (FL g false gk gv u :: c2) p true pk pv s (T z true k v l r) _ R eq_refl). nx. cbn [pa fa].
      try rewrite (@rd_left h rt c2 g false gk gv (T p true pk pv s (T z true k v l r)) u _ R eq_refl). nx.
      rewrite Nat.eqb_refl.
      try rewrite (@rd_right h rt c2 g false gk gv (T p true pk pv s (T z true k v l r)) u _ R eq_refl). nx.
      rewrite (@rep_red K V h rt (FR g false gk gv (T p true pk pv s (T z true k v l r)) :: c2) u R). nx. rewrite (rbt_color SG).
      destruct cs.
      * inversion SG as [|ua uk uv ul ur n0 Sl Sr|]; subst. nx.
        sred R (FL g false gk gv (T ua true uk uv ul ur) :: c2).
        sred (evo_rep W) (FR g false gk gv (T p false pk pv s (T z true k v l r)) :: c2).
        sred (evo_rep W0) c2.
        eapply putfix_post_evo; [exact (evo_trans (evo_trans W W0) W1)|].
        apply (IH h2 rt c2 g gk gv (T p false pk pv s (T z true k v l r)) (T ua false uk uv ul ur) (S n) mb1); auto; try lia; try exact (evo_rep W1); try (econstructor; eauto); constructor; auto.
      * rewrite (@rd_right h rt (FL g false gk gv u :: c2) p true pk pv s (T z true k v l r) _ R eq_refl). nx.
        rewrite Nat.eqb_refl.
        destruct (@rotl_evo K V h rt (FL g false gk gv u :: c2) p true pk pv s z true k v l r R) as (h1 & E1 & W1). rewrite E1. nx.
        rewrite (@rd_par h1 rt (FL z true k v r :: FL g false gk gv u :: c2) p true pk pv s l _ (evo_rep W1) eq_refl). nx. cbn [pa fa].
        sred (evo_rep W1) (FL g false gk gv u :: c2). rename h0 into h2, W into W2.
        rewrite (@rd_par h2 rt (FL z false k v r :: FL g false gk gv u :: c2) p true pk pv s l _ (evo_rep W2) eq_refl). nx. cbn [pa fa].
        rewrite (@rd_par h2 rt (FL g false gk gv u :: c2) z false k v (T p true pk pv s l) r _ (evo_rep W2) eq_refl). nx. cbn [pa fa].
        sred (evo_rep W2) c2. rename h0 into h3, W into W3.
        rewrite (@rd_par h3 rt (FL z false k v r :: FL g true gk gv u :: c2) p true pk pv s l _ (evo_rep W3) eq_refl). nx. cbn [pa fa].
        rewrite (@rd_par h3 rt (FL g true gk gv u :: c2) z false k v (T p true pk pv s l) r _ (evo_rep W3) eq_refl). nx. cbn [pa fa].
        edestruct (@rotr_evo K V h3 rt c2) as (h4 & E4 & W4); [exact (evo_rep W3)|]. rewrite E4. nx.
        eapply putfix_post_evo; [exact (evo_trans (evo_trans (evo_trans W1 W2) W3) W4)|].
        pose proof (evo_rep W4) as R4.
        eapply putfix_exit with (f := FL z false k v (T g true gk gv r u)) (c := c2) (mb := mb1) (n := n); [reflexivity|..|exact R4|reflexivity|lia]; try assumption; simpl; constructor; assumption.
    + (* R R *)
      rewrite (@rd_par h rt (FR g false gk gv u :: c2) p true pk pv s (T z true k v l r) _ R eq_refl). nx. cbn [pa fa].
      try rewrite (@rd_left h rt c2 g false gk gv u (T p true pk pv s (T z true k v l r)) _ R eq_refl). nx.
      assert (p =? ad u = false) as -> by (apply Nat.eqb_neq, not_eq_sym; apply (@rep_lr K V h rt c2 g false gk gv u (T p true pk pv s (T z true k v l r)) R); right; discriminate).
      try rewrite (@rd_left h rt c2 g false gk gv u (T p true pk pv s (T z true k v l r)) _ R eq_refl). nx.
      rewrite (@rep_red K V h rt (FL g false gk gv (T p true pk pv s (T z true k v l r)) :: c2) u R). nx. rewrite (rbt_color SG).
      destruct cs.
      * inversion SG as [|ua uk uv ul ur n0 Sl Sr|]; subst. nx.
        sred R (FR g false gk gv (T ua true uk uv ul ur) :: c2).
        sred (evo_rep W) (FL g false gk gv (T p false pk pv s (T z true k v l r)) :: c2).
        sred (evo_rep W0) c2.
        eapply putfix_post_evo; [exact (evo_trans (evo_trans W W0) W1)|].
        apply (IH h2 rt c2 g gk gv (T ua false uk uv ul ur) (T p false pk pv s (T z true k v l r)) (S n) mb1); auto; try lia; try exact (evo_rep W1); try (econstructor; eauto); constructor; auto.
      * rewrite (@rd_left h rt (FR g false gk gv u :: c2) p true pk pv s (T z true k v l r) _ R eq_refl). nx.
        assert (z =? ad s = false) as -> by (apply Nat.eqb_neq, not_eq_sym; apply (@rep_lr K V h rt (FR g false gk gv u :: c2) p true pk pv s (T z true k v l r) R); right; discriminate).
        pose proof (evo_refl R) as W1. set (h1 := h) in *. cbn [bind].
        rewrite (@rd_par h1 rt (FR p true pk pv s :: FR g false gk gv u :: c2) z true k v l r _ (evo_rep W1) eq_refl). nx. cbn [pa fa].
        sred (evo_rep W1) (FR g false gk gv u :: c2). rename h0 into h2, W into W2.
        rewrite (@rd_par h2 rt (FR p false pk pv s :: FR g false gk gv u :: c2) z true k v l r _ (evo_rep W2) eq_refl). nx. cbn [pa fa].
        rewrite (@rd_par h2 rt (FR g false gk gv u :: c2) p false pk pv s (T z true k v l r) _ (evo_rep W2) eq_refl). nx. cbn [pa fa].
        sred (evo_rep W2) c2. rename h0 into h3, W into W3.
        rewrite (@rd_par h3 rt (FR p false pk pv s :: FR g true gk gv u :: c2) z true k v l r _ (evo_rep W3) eq_refl). nx. cbn [pa fa].
        rewrite (@rd_par h3 rt (FR g true gk gv u :: c2) p false pk pv s (T z true k v l r) _ (evo_rep W3) eq_refl). nx. cbn [pa fa].
        edestruct (@rotl_evo K V h3 rt c2) as (h4 & E4 & W4); [exact (evo_rep W3)|]. rewrite E4. nx.
        eapply putfix_post_evo; [exact (evo_trans (evo_trans (evo_trans W1 W2) W3) W4)|].
        pose proof (evo_rep W4) as R4.
        eapply putfix_exit with (f := FR p false pk pv (T g true gk gv u s)) (c := c2) (mb := mb1) (n := n); [reflexivity|..|exact R4|reflexivity|lia]; try assumption; simpl; constructor; assumption.
  - assert (pcolor (f :: c1) = false) as -> by (destruct f; simpl in *; auto). cbn [negb].
    exists h, (plug (f :: c1) (T z true k v l r)). split; auto. split; [apply evo_refl; auto|].
    destruct (@rbt_plug K V _ _ _ Hc (T z true k v l r) true) as [N HN]; [constructor; auto|discriminate|].
    exists N. rewrite blacken_black; auto. apply (rbt_color HN).
Qed.

Lemma PutFix_spec fuel h rt c z k v mb :
  length c < fuel ->
  rep h rt (plug c (T z true k v L L)) -> rbc c mb 0 ->
  exists h' t', PutFix fuel h rt z = Ok h' /\ evo rt h (plug c (T z true k v L L)) h' t' /\ exists N, rbt t' false N.
Proof.
  intros Hf R Hc. destruct (@PutFix_loop_spec fuel h rt c z k v L L 0 mb Hf R rbL rbL Hc) as (h' & t' & E & W & N & HN).
  unfold PutFix. rewrite E. nx. unfold left_of. rewrite (rep_root (evo_rep W)). cbn [bind nleft rootn].
  assert (t' <> L) as Ne.
  { intros ->. destruct W as (_ & _ & F). simpl in F. rewrite flata_plug in F. simpl in F. destruct (before c); discriminate. }
  destruct t' as [|a c0 k1 v1 l1 r1]; [congruence|]. cbn [ad].
  destruct (@red_evo K V h' rt [] a c0 k1 v1 l1 r1 false (evo_rep W)) as (h2 & E2 & W2).
  rewrite E2. nx. rewrite (rep_rednil (evo_rep W2)). nx.
  unfold red_of. rewrite (rep_root (evo_rep W2)). cbn [bind nred rootn negb massert].
  exists h2, (T a false k1 v1 l1 r1). split; auto. split; [eapply evo_trans; eauto|]. exists N. exact HN.
Qed.

(** *** linking a fresh leaf *)
Definition link_at (c : ctx) (h : heap) (y z : addr) : res heap :=
  match c with FR _ _ _ _ _ :: _ => set_right h y z | _ => set_left h y z end.
Lemma link_spec h rt c q z : ctxh h rt q c -> (forall a, cntc a c <= 1) -> cntc rt c = 0 ->
  exists h', link_at c h (pa rt c) z = Ok h' /\ ctxh h' rt z c /\ forall a, a <> pa rt c -> h' a = h a.
Proof.
  intros H D Dr. unfold link_at. destruct c as [|[a c0 k v s|a c0 k v s] c]; simpl in *.
  - unfold set_left, getn. rewrite H. cbn [bind].
    eexists. split; [reflexivity|]. split; [apply hupd_same|]. intros; apply hupd_other; auto.
  - destruct H as (H1 & H2 & H3). unfold set_left, getn. rewrite H1. cbn [bind].
    pose proof (D a) as Da. rewrite eqn_refl in Da.
    assert (rt <> a) by (apply eqn_0; lia).
    eexists. split; [reflexivity|]. split; [|intros; apply hupd_other; auto].
    split; [apply hupd_same|]. split.
    + eapply treeh_agree; [|eassumption]. intros b Hb. apply hupd_other. intros ->. lia.
    + eapply ctxh_agree; [| |eassumption].
      * intros b Hb. apply hupd_other. intros ->. lia.
      * apply hupd_other; auto.
  - destruct H as (H1 & H2 & H3). unfold set_right, getn. rewrite H1. cbn [bind].
    pose proof (D a) as Da. rewrite eqn_refl in Da.
    assert (rt <> a) by (apply eqn_0; lia).
    eexists. split; [reflexivity|]. split; [|intros; apply hupd_other; auto].
    split; [apply hupd_same|]. split.
    + eapply treeh_agree; [|eassumption]. intros b Hb. apply hupd_other. intros ->. lia.
    + eapply ctxh_agree; [| |eassumption].
      * intros b Hb. apply hupd_other. intros ->. lia.
      * apply hupd_other; auto.
Qed.

Lemma leaf_rep h rt c z k v : rep h rt (plug c L) -> cntc z c = 0 -> z <> rt -> z <> nil ->
  let h1 := hupd h z (Some (mkN (Some k) (Some v) true (pa rt c) nil nil)) in
  exists h', link_at c h1 (pa rt c) z = Ok h' /\ rep h' rt (plug c (T z true k v L L)) /\
    forall a, a <> z -> cntc a c = 0 -> a <> rt -> h' a = h a.
Proof.
  intros [W [p Hp] D N R RT] Hz Zr Zn h1. apply whole_plug in W. destruct W as [_ W]. simpl in W.
  assert (forall a, cntc a c <= 1) as D' by (intros a; specialize (D a); rewrite cnt_plug in D; lia).
  rewrite cnt_plug in N, R. simpl in N, R.
  assert (forall a, a <> z -> h1 a = h a) as A1 by (intros; apply hupd_other; auto).
  destruct (@link_spec h1 rt c nil z) as (h' & E & C' & A'); auto; try lia.
  { eapply ctxh_agree; [| |exact W]; [|apply A1; auto]. intros b Hb. apply A1. intros ->. lia. }
  exists h'. split; auto.
  assert (forall a, a <> z -> cntc a c = 0 -> a <> rt -> h' a = h a) as A.
  { intros a Ha Hc Hr. rewrite A', A1; auto. apply pa_neq; auto. }
  split; auto. constructor; auto.
  - apply whole_plug. split; [|exact C']. simpl. split; [|auto].
    rewrite A'; [apply hupd_same|]. apply pa_neq; auto.
  - exists p. unfold nilok. rewrite A; auto. lia.
  - intros a. rewrite cnt_plug. simpl. specialize (D' a). unfold eqn. destruct (Nat.eqb_spec a z); subst; lia.
  - rewrite cnt_plug. simpl. assert (eqn nil z = 0) by (apply eqn_0; auto). lia.
  - rewrite cnt_plug. simpl. assert (eqn rt z = 0) by (apply eqn_0; auto). lia.
Qed.
End P.
