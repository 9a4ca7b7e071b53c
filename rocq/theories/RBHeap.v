(** Heap-level lemmas for the red-black tree model: how each pointer operation
    acts on the tree stored in the heap. *)
From Verif Require Import Prelude PreludeFacts RBModel.
Set Implicit Arguments.

Section H.
Variables K V : Type.
Notation heap := (heap K V).
Notation node := (node K V).

(** trees labelled with the addresses of their nodes *)
Inductive atree :=
| L
| T (a : addr) (c : bool) (k : K) (v : V) (l r : atree).
Definition ad (t : atree) : addr := match t with L => nil | T a _ _ _ _ _ => a end.
Definition color (t : atree) : bool := match t with L => false | T _ c _ _ _ _ => c end.

(** eqn a b = 1 if a = b else 0 *)
Definition eqn (a b : addr) : nat := if a =? b then 1 else 0.
Lemma eqn_refl a : eqn a a = 1.
Proof. unfold eqn. rewrite Nat.eqb_refl. auto. Qed.
Lemma eqn_0 a b : eqn a b = 0 <-> a <> b.
Proof. unfold eqn. destruct (Nat.eqb_spec a b); split; intros; congruence. Qed.
Lemma eqn_le a b : eqn a b <= 1.
Proof. unfold eqn. destruct (a =? b); lia. Qed.
Lemma eqn_sym a b : eqn a b = eqn b a.
Proof. unfold eqn. rewrite Nat.eqb_sym. auto. Qed.

(** occurrences of an address *)
Fixpoint cnt (a : addr) (t : atree) : nat :=
  match t with L => 0 | T b _ _ _ l r => eqn a b + cnt a l + cnt a r end.

(** the heap holds tree t, whose root has parent p *)
Fixpoint treeh (h : heap) (p : addr) (t : atree) : Prop :=
  match t with
  | L => True
  | T a c k v l r =>
      h a = Some (mkN (Some k) (Some v) c p (ad l) (ad r)) /\ treeh h a l /\ treeh h a r
  end.

(** contexts: the path from a hole up to the root *)
Inductive frame :=
| FL (a : addr) (c : bool) (k : K) (v : V) (sib : atree)   (* hole is the left child *)
| FR (a : addr) (c : bool) (k : K) (v : V) (sib : atree).  (* hole is the right child *)
Definition ctx := list frame.
Definition plug1 (f : frame) (t : atree) : atree :=
  match f with
  | FL a c k v s => T a c k v t s
  | FR a c k v s => T a c k v s t
  end.
Fixpoint plug (c : ctx) (t : atree) : atree :=
  match c with [] => t | f :: c' => plug c' (plug1 f t) end.
Definition fa (f : frame) : addr := match f with FL a _ _ _ _ | FR a _ _ _ _ => a end.
Definition fsib (f : frame) : atree := match f with FL _ _ _ _ s | FR _ _ _ _ s => s end.
Definition pa (rt : addr) (c : ctx) : addr := match c with [] => rt | f :: _ => fa f end.
Fixpoint cntc (a : addr) (c : ctx) : nat :=
  match c with [] => 0 | f :: c' => eqn a (fa f) + cnt a (fsib f) + cntc a c' end.

Lemma cnt_plug a c : forall t, cnt a (plug c t) = cntc a c + cnt a t.
Proof.
  induction c as [|f c IH]; intros t; simpl; auto. rewrite IH. destruct f; simpl; lia.
Qed.

Definition rootn (q : addr) : node := mkN None None false nil q nil.

Fixpoint ctxh (h : heap) (rt q : addr) (c : ctx) : Prop :=
  match c with
  | [] => h rt = Some (rootn q)
  | FL a c0 k v s :: c' =>
      h a = Some (mkN (Some k) (Some v) c0 (pa rt c') q (ad s)) /\ treeh h a s /\ ctxh h rt a c'
  | FR a c0 k v s :: c' =>
      h a = Some (mkN (Some k) (Some v) c0 (pa rt c') (ad s) q) /\ treeh h a s /\ ctxh h rt a c'
  end.

Definition whole (h : heap) (rt : addr) (t : atree) : Prop :=
  treeh h rt t /\ h rt = Some (rootn (ad t)).

Lemma whole_plug h rt c : forall t,
  whole h rt (plug c t) <-> treeh h (pa rt c) t /\ ctxh h rt (ad t) c.
Proof.
  induction c as [|f c IH]; intros t; simpl plug.
  - unfold whole. simpl. tauto.
  - rewrite IH. destruct f; simpl; tauto.
Qed.

Definition nilok (h : heap) (p : addr) : Prop := h nil = Some (mkN None None false p nil nil).

Record rep (h : heap) (rt : addr) (t : atree) : Prop := {
  rep_whole : whole h rt t;
  rep_nil : exists p, nilok h p;
  rep_cnt : forall a, cnt a t <= 1;
  rep_cnt0 : cnt nil t = 0;
  rep_cntr : cnt rt t = 0;
  rep_rt : rt <> nil
}.

(** addresses outside the tree are untouched *)
Definition pres (h h' : heap) (rt : addr) (t : atree) : Prop :=
  forall a, cnt a t = 0 -> a <> rt -> h' a = h a.

Lemma hupd_same (h : heap) a n : hupd h a n a = n.
Proof. unfold hupd. rewrite Nat.eqb_refl. auto. Qed.
Lemma hupd_other (h : heap) a b n : b <> a -> hupd h a n b = h b.
Proof. intros H. unfold hupd. destruct (Nat.eqb_spec b a); congruence. Qed.

Lemma treeh_agree h h' t : forall p, (forall a, 0 < cnt a t -> h' a = h a) -> treeh h p t -> treeh h' p t.
Proof.
  induction t as [|a c k v l IHl r IHr]; intros p H; simpl; auto.
  intros (H1 & H2 & H3). split; [|split].
  - rewrite H; auto. simpl. rewrite eqn_refl. lia.
  - apply IHl; auto. intros b Hb. apply H. simpl. lia.
  - apply IHr; auto. intros b Hb. apply H. simpl. lia.
Qed.

Lemma ctxh_agree h h' rt c : forall q, (forall a, 0 < cntc a c -> h' a = h a) -> h' rt = h rt ->
  ctxh h rt q c -> ctxh h' rt q c.
Proof.
  induction c as [|f c IH]; intros q H Hr; simpl.
  - congruence.
  - assert (h' (fa f) = h (fa f)) as Hf by (apply H; simpl; rewrite eqn_refl; lia).
    assert (forall b, 0 < cnt b (fsib f) -> h' b = h b) as Hs by (intros; apply H; simpl; lia).
    assert (forall b, 0 < cntc b c -> h' b = h b) as Hc by (intros; apply H; simpl; lia).
    destruct f; simpl in *; intros (H1 & H2 & H3);
      (split; [congruence|split; [eapply treeh_agree; eauto|apply IH; auto]]).
Qed.

Lemma cnt_ad t : t <> L -> 1 <= cnt (ad t) t.
Proof. destruct t; [congruence|]. simpl. rewrite eqn_refl. lia. Qed.

(** give the root of a subtree another parent; nil is left alone *)
Lemma reparent h p q t : treeh h p t -> (forall a, cnt a t <= 1) -> cnt nil t = 0 ->
  exists h', (if negb (ad t =? nil) then set_par h (ad t) q else Ok h) = Ok h' /\ treeh h' q t /\
    forall a, a <> ad t \/ t = L -> h' a = h a.
Proof.
  destruct t as [|a c k v l r]; simpl; intros H D N.
  - exists h. auto.
  - destruct H as (H1 & H2 & H3).
    assert (nil <> a) as Na by (apply eqn_0; lia).
    destruct (Nat.eqb_spec a nil); [congruence|]. simpl.
    unfold set_par, getn. rewrite H1. cbn [bind].
    eexists. split; [reflexivity|]. specialize (D a). rewrite eqn_refl in D. split.
    + split; [rewrite hupd_same; reflexivity|].
      split; (eapply treeh_agree; [|eassumption]); intros b Hb; apply hupd_other; intros ->; lia.
    + intros b [Hb|Hb]; [apply hupd_other; auto|discriminate].
Qed.

Lemma pa_in rt c : c <> [] -> 1 <= cntc (pa rt c) c.
Proof. destruct c; [congruence|]. simpl. rewrite eqn_refl. lia. Qed.

Lemma relink_spec h rt c x y : ctxh h rt x c -> x <> nil ->
  (forall a, cntc a c <= 1) -> cntc x c = 0 -> cntc rt c = 0 -> 
  exists h', relink h (pa rt c) x y = Ok h' /\ ctxh h' rt y c /\
    forall a, a <> pa rt c -> h' a = h a.
Proof.
  intros H Hx D Dx Dr. unfold relink, left_of, getn. destruct c as [|[a c0 k v s|a c0 k v s] c]; simpl in *.
  - rewrite H. cbn [bind nleft rootn]. rewrite Nat.eqb_refl. unfold set_left, getn. rewrite H. cbn [bind].
    eexists. split; [reflexivity|]. split; [apply hupd_same|]. intros; apply hupd_other; auto.
  - destruct H as (H1 & H2 & H3). rewrite H1. cbn [bind nleft]. rewrite Nat.eqb_refl.
    unfold set_left, getn. rewrite H1. cbn [bind].
    pose proof (D a) as Da. rewrite eqn_refl in Da.
    assert (rt <> a) by (apply eqn_0; lia).
    eexists. split; [reflexivity|]. split; [|intros; apply hupd_other; auto].
    split; [apply hupd_same|]. split.
    + eapply treeh_agree; [|eassumption]. intros b Hb. apply hupd_other. intros ->. lia.
    + eapply ctxh_agree; [| |eassumption].
      * intros b Hb. apply hupd_other. intros ->. lia.
      * apply hupd_other; auto.
  - destruct H as (H1 & H2 & H3). rewrite H1. cbn [bind nleft].
    assert (x =? ad s = false) as ->.
    { apply Nat.eqb_neq. intros E. destruct s; simpl in E; [congruence|]. subst. simpl in Dx. rewrite eqn_refl in Dx. lia. }
    unfold set_right, getn. rewrite H1. cbn [bind].
    pose proof (D a) as Da. rewrite eqn_refl in Da.
    assert (rt <> a) by (apply eqn_0; lia).
    eexists. split; [reflexivity|]. split; [|intros; apply hupd_other; auto].
    split; [apply hupd_same|]. split.
    + eapply treeh_agree; [|eassumption]. intros b Hb. apply hupd_other. intros ->. lia.
    + eapply ctxh_agree; [| |eassumption].
      * intros b Hb. apply hupd_other. intros ->. lia.
      * apply hupd_other; auto.
Qed.

(** *** reading *)
Lemma rep_read h rt c a c0 k v l r : rep h rt (plug c (T a c0 k v l r)) ->
  getn h a = Ok (mkN (Some k) (Some v) c0 (pa rt c) (ad l) (ad r)).
Proof.
  intros [W _ _ _ _ _]. apply whole_plug in W. destruct W as [(H & _) _]. unfold getn. rewrite H. auto.
Qed.
Lemma rep_par h rt c a c0 k v l r : rep h rt (plug c (T a c0 k v l r)) -> par_of h a = Ok (pa rt c).
Proof. intros H. unfold par_of. rewrite (rep_read _ _ _ _ _ _ _ H). auto. Qed.
Lemma rep_left h rt c a c0 k v l r : rep h rt (plug c (T a c0 k v l r)) -> left_of h a = Ok (ad l).
Proof. intros H. unfold left_of. rewrite (rep_read _ _ _ _ _ _ _ H). auto. Qed.
Lemma rep_right h rt c a c0 k v l r : rep h rt (plug c (T a c0 k v l r)) -> right_of h a = Ok (ad r).
Proof. intros H. unfold right_of. rewrite (rep_read _ _ _ _ _ _ _ H). auto. Qed.
Lemma rep_red h rt c t : rep h rt (plug c t) -> red_of h (ad t) = Ok (color t).
Proof.
  intros H. unfold red_of. destruct t; simpl.
  - destruct (rep_nil H) as [p Hp]. unfold getn. unfold nilok in Hp. rewrite Hp. auto.
  - rewrite (rep_read _ _ _ _ _ _ _ H). auto.
Qed.
Lemma rep_rednil h rt t : rep h rt t -> red_of h nil = Ok false.
Proof. intros H. unfold red_of, getn. destruct (rep_nil H) as [p Hp]. unfold nilok in Hp. rewrite Hp. auto. Qed.
Lemma rep_root h rt t : rep h rt t -> getn h rt = Ok (rootn (ad t)).
Proof. intros [[_ W] _ _ _ _ _]. unfold getn. rewrite W. auto. Qed.

(** the color of the parent of the hole: the sentinel is black *)
Definition pcolor (c : ctx) : bool := match c with [] => false | FL _ c0 _ _ _ :: _ | FR _ c0 _ _ _ :: _ => c0 end.
Lemma rep_pred h rt c t : rep h rt (plug c t) -> red_of h (pa rt c) = Ok (pcolor c).
Proof.
  intros H. destruct c as [|[a c0 k v s|a c0 k v s] c]; simpl in *.
  - unfold red_of. rewrite (rep_root H). auto.
  - apply (@rep_red h rt c (T a c0 k v t s) H).
  - apply (@rep_red h rt c (T a c0 k v s t) H).
Qed.

Lemma rep_neq_nil h rt c a c0 k v l r : rep h rt (plug c (T a c0 k v l r)) -> a <> nil /\ a <> rt.
Proof.
  intros [_ _ D N R _]. rewrite cnt_plug in N, R. simpl in *.
  split; apply not_eq_sym, eqn_0; lia.
Qed.

(** *** writing *)
Lemma rep_pres_nil h h' rt t p : rep h rt t -> pres h h' rt t -> nilok h p -> nilok h' p.
Proof. intros H P N. unfold nilok in *. rewrite P; auto. apply (rep_cnt0 H). apply not_eq_sym, (rep_rt H). Qed.

(** changing the tree below a hole while keeping its addresses *)
Lemma rep_intro h h' rt c t t' : rep h rt (plug c t) ->
  (forall a, cnt a t' = cnt a t) -> pres h h' rt (plug c t) ->
  treeh h' (pa rt c) t' -> ctxh h' rt (ad t') c -> rep h' rt (plug c t').
Proof.
  intros H C P Ht Hc. pose proof H as [W [p Hp] D N R RT]. constructor; auto.
  - apply whole_plug. auto.
  - exists p. eapply rep_pres_nil; eauto.
  - intros a. rewrite cnt_plug, C, <- cnt_plug. auto.
  - rewrite cnt_plug, C, <- cnt_plug. auto.
  - rewrite cnt_plug, C, <- cnt_plug. auto.
Qed.

Lemma set_red_rep h rt c a c0 k v l r c1 : rep h rt (plug c (T a c0 k v l r)) ->
  exists h', set_red h a c1 = Ok h' /\ rep h' rt (plug c (T a c1 k v l r)) /\
    pres h h' rt (plug c (T a c0 k v l r)).
Proof.
  intros H. pose proof H as [W _ D N R RT]. apply whole_plug in W. destruct W as [(H1 & H2 & H3) H4].
  unfold set_red, getn. rewrite H1. cbn [bind nkey nval npar nleft nright].
  destruct (rep_neq_nil _ _ _ _ _ _ _ H) as [Nn Nr].
  pose proof (D a) as Da. rewrite cnt_plug in Da. simpl in Da. rewrite eqn_refl in Da.
  eexists. split; [reflexivity|].
  assert (forall b, b <> a -> hupd h a (Some (mkN (Some k) (Some v) c1 (pa rt c) (ad l) (ad r))) b = h b) as A
    by (intros; apply hupd_other; auto).
  assert (pres h (hupd h a (Some (mkN (Some k) (Some v) c1 (pa rt c) (ad l) (ad r)))) rt (plug c (T a c0 k v l r))) as P.
  { intros b Hb Hr. apply A. intros ->. rewrite cnt_plug in Hb. simpl in Hb. rewrite eqn_refl in Hb. lia. }
  split; auto. eapply rep_intro; eauto.
  - simpl. split; [apply hupd_same|].
    split; (eapply treeh_agree; [|eassumption]); intros b Hb; apply A; intros ->; lia.
  - eapply ctxh_agree; [| |eassumption].
    + intros b Hb. apply A. intros ->. lia.
    + apply A. auto.
Qed.

Lemma set_kv_rep h rt c a c0 k v l r k1 v1 : rep h rt (plug c (T a c0 k v l r)) ->
  exists h', set_kv h a (Some k1) (Some v1) = Ok h' /\ rep h' rt (plug c (T a c0 k1 v1 l r)) /\
    pres h h' rt (plug c (T a c0 k v l r)).
Proof.
  intros H. pose proof H as [W _ D N R RT]. apply whole_plug in W. destruct W as [(H1 & H2 & H3) H4].
  unfold set_kv, getn. rewrite H1. cbn [bind nred npar nleft nright].
  destruct (rep_neq_nil _ _ _ _ _ _ _ H) as [Nn Nr].
  pose proof (D a) as Da. rewrite cnt_plug in Da. simpl in Da. rewrite eqn_refl in Da.
  eexists. split; [reflexivity|].
  set (h' := hupd _ _ _).
  assert (forall b, b <> a -> h' b = h b) as A by (intros; apply hupd_other; auto).
  assert (pres h h' rt (plug c (T a c0 k v l r))) as P.
  { intros b Hb Hr. apply A. intros ->. rewrite cnt_plug in Hb. simpl in Hb. rewrite eqn_refl in Hb. lia. }
  split; auto. eapply rep_intro; eauto.
  - simpl. split; [apply hupd_same|].
    split; (eapply treeh_agree; [|eassumption]); intros b Hb; apply A; intros ->; lia.
  - eapply ctxh_agree; [| |eassumption].
    + intros b Hb. apply A. intros ->. lia.
    + apply A. auto.
Qed.

Lemma pa_neq rt c a : cntc a c = 0 -> a <> rt -> a <> pa rt c.
Proof.
  intros H Hr. destruct c as [|f c]; simpl in *; auto. apply eqn_0. lia.
Qed.

Lemma rotl_rep h rt c x cx kx vx A y cy ky vy B C :
  rep h rt (plug c (T x cx kx vx A (T y cy ky vy B C))) ->
  exists h', RotateLeft h x = Ok h' /\ rep h' rt (plug c (T y cy ky vy (T x cx kx vx A B) C)) /\
    pres h h' rt (plug c (T x cx kx vx A (T y cy ky vy B C))).
Proof.
  intros H. pose proof H as [W _ D N R RT]. apply whole_plug in W.
  destruct W as [(H1 & H2 & H3 & H4 & H5) H6].
  destruct (rep_neq_nil _ _ _ _ _ _ _ H) as [Nx Rx].
  destruct (@rep_neq_nil h rt (FR x cx kx vx A :: c) y cy ky vy B C H) as [Ny Ry].
  unfold RotateLeft. rewrite (rep_rednil H). cbn [bind negb massert].
  rewrite (@rep_right _ _ _ _ _ _ _ _ _ H). cbn [bind ad].
  rewrite (@rep_left h rt (FR x cx kx vx A :: c) y cy ky vy B C H). cbn [bind].
  assert (forall a, cntc a c + (eqn a x + cnt a A + (eqn a y + cnt a B + cnt a C)) <= 1) as D'.
  { intros a. specialize (D a). rewrite cnt_plug in D. exact D. }
  rewrite cnt_plug in N, R. cbn [cnt] in N, R.
  pose proof (D' x) as Dx. rewrite eqn_refl in Dx. pose proof (D' y) as Dy. rewrite eqn_refl in Dy.
  assert (x <> y) as Nxy by (apply eqn_0; lia).
  assert (x <> ad B \/ B = L) as NxB.
  { destruct B; [right; auto|left]. simpl in Dx. apply eqn_0. simpl. lia. }
  assert (y <> ad B \/ B = L) as NyB.
  { destruct B; [right; auto|left]. simpl in Dy. apply eqn_0. simpl. lia. }
  assert (x <> pa rt c) as Nxp by (apply pa_neq; auto; lia).
  assert (y <> pa rt c) as Nyp by (apply pa_neq; auto; lia).
  (* x->right = y->left *)
  unfold set_right at 1. unfold getn at 1. rewrite H1. cbn [bind nkey nval nred npar nleft nright].
  set (h1 := hupd h x _).
  assert (forall a, a <> x -> h1 a = h a) as A1 by (intros; apply hupd_other; auto).
  (* y->left->parent = x *)
  destruct (@reparent h1 y x B) as (h2 & E2 & T2 & A2).
  { eapply treeh_agree; [|exact H4]. intros b Hb. apply A1. intros ->. lia. }
  { intros a. specialize (D' a). lia. }
  { lia. }
  rewrite E2. cbn [bind].
  assert (h2 x = Some (mkN (Some kx) (Some vx) cx (pa rt c) (ad A) (ad B))) as X2.
  { rewrite A2 by auto. apply hupd_same. }
  assert (h2 y = Some (mkN (Some ky) (Some vy) cy x (ad B) (ad C))) as Y2.
  { rewrite A2 by auto. rewrite A1 by auto. exact H3. }
  unfold par_of, getn. rewrite X2. cbn [bind npar].
  unfold set_par at 1. unfold getn at 1. rewrite Y2. cbn [bind nkey nval nred npar nleft nright].
  set (h3 := hupd h2 y _).
  assert (forall a, a <> y -> h3 a = h2 a) as A3 by (intros; apply hupd_other; auto).
  assert (forall a, a <> x -> a <> y -> (a <> ad B \/ B = L) -> h3 a = h a) as A03.
  { intros a Ha1 Ha2 Ha3. rewrite A3, A2, A1; auto. }
  assert (forall a, cnt a B = 0 -> a <> ad B \/ B = L) as nB.
  { intros a Ha. destruct B; auto. left. simpl in Ha. simpl. apply eqn_0. lia. }
  (* relink *)
  destruct (@relink_spec h3 rt c x y) as (h4 & E4 & C4 & A4); auto; try lia.
  { eapply ctxh_agree; [| |exact H6].
    - intros b Hb. pose proof (D' b). apply A03.
      + intros ->. lia.
      + intros ->. lia.
      + apply nB. lia.
    - apply A03; auto. apply nB. lia. }
  { intros a. specialize (D' a). lia. }
  rewrite E4. cbn [bind].
  assert (h4 x = Some (mkN (Some kx) (Some vx) cx (pa rt c) (ad A) (ad B))) as X4.
  { rewrite A4, A3; auto. }
  assert (h4 y = Some (mkN (Some ky) (Some vy) cy (pa rt c) (ad B) (ad C))) as Y4.
  { rewrite A4 by auto. apply hupd_same. }
  unfold set_left at 1. unfold getn at 1. rewrite Y4. cbn [bind nkey nval nred npar nleft nright].
  set (h5 := hupd h4 y _).
  assert (forall a, a <> y -> h5 a = h4 a) as A5 by (intros; apply hupd_other; auto).
  unfold set_par, getn. rewrite A5, X4 by auto. cbn [bind nkey nval nred npar nleft nright].
  set (h6 := hupd h5 x _).
  assert (forall a, a <> x -> h6 a = h5 a) as A6 by (intros; apply hupd_other; auto).
  exists h6. split; [reflexivity|].
  assert (forall a, a <> x -> a <> y -> h6 a = h4 a) as A46 by (intros; rewrite A6, A5; auto).
  assert (forall a, a <> x -> a <> y -> a <> pa rt c -> h6 a = h2 a) as A26.
  { intros. rewrite A46, A4, A3; auto. }
  assert (forall a, a <> x -> a <> y -> a <> pa rt c -> cnt a B = 0 -> h6 a = h a) as A06.
  { intros. rewrite A26, A2, A1; auto. }
  assert (forall b, 0 < cnt b A + cnt b B + cnt b C -> b <> x /\ b <> y /\ b <> pa rt c) as NB.
  { intros b Hb. pose proof (D' b). split; [intros ->; lia|]. split; [intros ->; lia|].
    destruct c as [|f c']; simpl pa; [intros ->; lia|]. intros E.
    assert (1 <= cntc b (f :: c')) by (simpl; rewrite E, eqn_refl; lia). lia. }
  assert (pres h h6 rt (plug c (T x cx kx vx A (T y cy ky vy B C)))) as P.
  { intros b Hb Hr. rewrite cnt_plug in Hb. simpl in Hb.
    apply A06; try (apply eqn_0; lia); try lia. apply pa_neq; auto; lia. }
  split; auto. eapply rep_intro; [exact H| |exact P| |].
  - intros a. simpl. lia.
  - simpl. split; [|split; [split; [|split]|]].
    + unfold h6. rewrite hupd_other by auto. apply hupd_same.
    + apply hupd_same.
    + eapply treeh_agree; [|exact H2]. intros b Hb. pose proof (D' b). destruct (NB b) as (? & ? & ?); [lia|]. apply A06; auto; lia.
    + eapply treeh_agree; [|exact T2]. intros b Hb. destruct (NB b) as (? & ? & ?); [lia|]. apply A26; auto.
    + eapply treeh_agree; [|exact H5]. intros b Hb. pose proof (D' b). destruct (NB b) as (? & ? & ?); [lia|]. apply A06; auto; lia.
  - simpl. eapply ctxh_agree; [| |exact C4].
    + intros b Hb. pose proof (D' b). apply A46; intros ->; lia.
    + apply A46; auto.
Qed.

Lemma rotr_rep h rt c x cx kx vx A y cy ky vy B C :
  rep h rt (plug c (T y cy ky vy (T x cx kx vx A B) C)) ->
  exists h', RotateRight h y = Ok h' /\ rep h' rt (plug c (T x cx kx vx A (T y cy ky vy B C))) /\
    pres h h' rt (plug c (T y cy ky vy (T x cx kx vx A B) C)).
Proof.
  intros H. pose proof H as [W _ D N R RT]. apply whole_plug in W.
  destruct W as [(H1 & (H2 & H3 & H4) & H5) H6].
  destruct (rep_neq_nil _ _ _ _ _ _ _ H) as [Ny Ry].
  destruct (@rep_neq_nil h rt (FL y cy ky vy C :: c) x cx kx vx A B H) as [Nx Rx].
  unfold RotateRight. rewrite (rep_rednil H). cbn [bind negb massert].
  rewrite (@rep_left _ _ _ _ _ _ _ _ _ H). cbn [bind ad].
  rewrite (@rep_right h rt (FL y cy ky vy C :: c) x cx kx vx A B H). cbn [bind].
  assert (forall a, cntc a c + (eqn a y + (eqn a x + cnt a A + cnt a B) + cnt a C) <= 1) as D'.
  { intros a. specialize (D a). rewrite cnt_plug in D. exact D. }
  rewrite cnt_plug in N, R. cbn [cnt] in N, R.
  pose proof (D' x) as Dx. rewrite eqn_refl in Dx. pose proof (D' y) as Dy. rewrite eqn_refl in Dy.
  assert (y <> x) as Nxy by (apply eqn_0; lia).
  assert (x <> ad B \/ B = L) as NxB.
  { destruct B; [right; auto|left]. simpl in Dx. apply eqn_0. simpl. lia. }
  assert (y <> ad B \/ B = L) as NyB.
  { destruct B; [right; auto|left]. simpl in Dy. apply eqn_0. simpl. lia. }
  assert (x <> pa rt c) as Nxp by (apply pa_neq; auto; lia).
  assert (y <> pa rt c) as Nyp by (apply pa_neq; auto; lia).
  unfold set_left at 1. unfold getn at 1. rewrite H1. cbn [bind nkey nval nred npar nleft nright].
  set (h1 := hupd h y _).
  assert (forall a, a <> y -> h1 a = h a) as A1 by (intros; apply hupd_other; auto).
  destruct (@reparent h1 x y B) as (h2 & E2 & T2 & A2).
  { eapply treeh_agree; [|exact H4]. intros b Hb. apply A1. intros ->. lia. }
  { intros a. specialize (D' a). lia. }
  { lia. }
  rewrite E2. cbn [bind].
  assert (h2 y = Some (mkN (Some ky) (Some vy) cy (pa rt c) (ad B) (ad C))) as Y2.
  { rewrite A2 by auto. apply hupd_same. }
  assert (h2 x = Some (mkN (Some kx) (Some vx) cx y (ad A) (ad B))) as X2.
  { rewrite A2 by auto. rewrite A1 by auto. exact H2. }
  unfold par_of, getn. rewrite Y2. cbn [bind npar].
  unfold set_par at 1. unfold getn at 1. rewrite X2. cbn [bind nkey nval nred npar nleft nright].
  set (h3 := hupd h2 x _).
  assert (forall a, a <> x -> h3 a = h2 a) as A3 by (intros; apply hupd_other; auto).
  assert (forall a, a <> x -> a <> y -> (a <> ad B \/ B = L) -> h3 a = h a) as A03.
  { intros a Ha1 Ha2 Ha3. rewrite A3, A2, A1; auto. }
  assert (forall a, cnt a B = 0 -> a <> ad B \/ B = L) as nB.
  { intros a Ha. destruct B; auto. left. simpl in Ha. simpl. apply eqn_0. lia. }
  destruct (@relink_spec h3 rt c y x) as (h4 & E4 & C4 & A4); auto; try lia.
  { eapply ctxh_agree; [| |exact H6].
    - intros b Hb. pose proof (D' b). apply A03.
      + intros ->. lia.
      + intros ->. lia.
      + apply nB. lia.
    - apply A03; auto. apply nB. lia. }
  { intros a. specialize (D' a). lia. }
  rewrite E4. cbn [bind].
  assert (h4 y = Some (mkN (Some ky) (Some vy) cy (pa rt c) (ad B) (ad C))) as Y4.
  { rewrite A4, A3; auto. }
  assert (h4 x = Some (mkN (Some kx) (Some vx) cx (pa rt c) (ad A) (ad B))) as X4.
  { rewrite A4 by auto. apply hupd_same. }
  unfold set_right at 1. unfold getn at 1. rewrite X4. cbn [bind nkey nval nred npar nleft nright].
  set (h5 := hupd h4 x _).
  assert (forall a, a <> x -> h5 a = h4 a) as A5 by (intros; apply hupd_other; auto).
  unfold set_par, getn. rewrite A5, Y4 by auto. cbn [bind nkey nval nred npar nleft nright].
  set (h6 := hupd h5 y _).
  assert (forall a, a <> y -> h6 a = h5 a) as A6 by (intros; apply hupd_other; auto).
  exists h6. split; [reflexivity|].
  assert (forall a, a <> x -> a <> y -> h6 a = h4 a) as A46 by (intros; rewrite A6, A5; auto).
  assert (forall a, a <> x -> a <> y -> a <> pa rt c -> h6 a = h2 a) as A26.
  { intros. rewrite A46, A4, A3; auto. }
  assert (forall a, a <> x -> a <> y -> a <> pa rt c -> cnt a B = 0 -> h6 a = h a) as A06.
  { intros. rewrite A26, A2, A1; auto. }
  assert (forall b, 0 < cnt b A + cnt b B + cnt b C -> b <> x /\ b <> y /\ b <> pa rt c) as NB.
  { intros b Hb. pose proof (D' b). split; [intros ->; lia|]. split; [intros ->; lia|].
    destruct c as [|f c']; simpl pa; [intros ->; lia|]. intros E.
    assert (1 <= cntc b (f :: c')) by (simpl; rewrite E, eqn_refl; lia). lia. }
  assert (pres h h6 rt (plug c (T y cy ky vy (T x cx kx vx A B) C))) as P.
  { intros b Hb Hr. rewrite cnt_plug in Hb. simpl in Hb.
    apply A06; try (apply eqn_0; lia); try lia. apply pa_neq; auto; lia. }
  split; auto. eapply rep_intro; [exact H| |exact P| |].
  - intros a. simpl. lia.
  - simpl. split; [|split; [|split; [|split]]].
    + unfold h6. rewrite hupd_other by auto. apply hupd_same.
    + eapply treeh_agree; [|exact H3]. intros b Hb. pose proof (D' b). destruct (NB b) as (? & ? & ?); [lia|]. apply A06; auto; lia.
    + apply hupd_same.
    + eapply treeh_agree; [|exact T2]. intros b Hb. destruct (NB b) as (? & ? & ?); [lia|]. apply A26; auto.
    + eapply treeh_agree; [|exact H5]. intros b Hb. pose proof (D' b). destruct (NB b) as (? & ? & ?); [lia|]. apply A06; auto; lia.
  - simpl. eapply ctxh_agree; [| |exact C4].
    + intros b Hb. pose proof (D' b). apply A46; intros ->; lia.
    + apply A46; auto.
Qed.
End H.
Arguments L {K V}.
