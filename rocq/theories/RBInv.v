(** Red-black invariant of trees and contexts; evolution of the heap that keeps
    the in-order sequence. *)
From Verif Require Import Prelude PreludeFacts RBModel RBHeap.
Set Implicit Arguments.
Arguments FL {K V}. Arguments FR {K V}. Arguments T {K V}.

Section I.
Variables K V : Type.
Notation heap := (heap K V).
Notation atree := (atree K V).
Notation ctx := (ctx K V).
Notation L := (@L K V).

(** in-order sequence of nodes *)
Definition ent := (addr * K * V)%type.
Fixpoint flata (t : atree) : list (addr * K * V) :=
  match t with RBHeap.L => [] | T a _ k v l r => flata l ++ (a, k, v) :: flata r end.
Fixpoint before (c : ctx) : list (addr * K * V) :=
  match c with
  | [] => []
  | FL _ _ _ _ _ :: c' => before c'
  | FR a _ k v s :: c' => before c' ++ flata s ++ [(a, k, v)]
  end.
Fixpoint after (c : ctx) : list (addr * K * V) :=
  match c with
  | [] => []
  | FL a _ k v s :: c' => (a, k, v) :: flata s ++ after c'
  | FR _ _ _ _ _ :: c' => after c'
  end.
Lemma flata_plug c : forall t, flata (plug c t) = before c ++ flata t ++ after c.
Proof.
  induction c as [|[a c0 k v s|a c0 k v s] c IH]; intros t; simpl.
  - rewrite app_nil_r. auto.
  - rewrite IH. simpl. rewrite <- !app_assoc. auto.
  - rewrite IH. simpl. rewrite <- !app_assoc. simpl. auto.
Qed.

Definition eaddr (e : addr * K * V) : addr := fst (fst e).
Lemma cnt_flata t : forall a, cnt a t = list_sum (map (fun e => eqn a (eaddr e)) (flata t)).
Proof.
  induction t as [|b c k v l IHl r IHr]; intros a; simpl; auto.
  rewrite map_app, list_sum_app. simpl. rewrite IHl, IHr. change (eaddr (b, k, v)) with b. lia.
Qed.
Lemma cnt_flata_eq t t' : flata t' = flata t -> forall a, cnt a t' = cnt a t.
Proof. intros E a. rewrite !cnt_flata, E. auto. Qed.

Definition evo (rt : addr) (h : heap) (t : atree) (h' : heap) (t' : atree) : Prop :=
  rep h' rt t' /\ pres h h' rt t /\ flata t' = flata t.
Lemma evo_refl rt h t : rep h rt t -> evo rt h t h t.
Proof. intros H. split; [auto|split; auto]. intros a _ _. auto. Qed.
Lemma evo_trans rt h t h1 t1 h2 t2 : evo rt h t h1 t1 -> evo rt h1 t1 h2 t2 -> evo rt h t h2 t2.
Proof.
  intros (A1 & A2 & A3) (B1 & B2 & B3). split; [auto|split; [|congruence]].
  intros a Ha Hr. rewrite B2, A2; auto. rewrite (cnt_flata_eq _ _ A3). auto.
Qed.
Lemma evo_rep rt h t h' t' : evo rt h t h' t' -> rep h' rt t'.
Proof. intros H. apply H. Qed.

Lemma red_evo h rt c a c0 k v l r c1 : rep h rt (plug c (T a c0 k v l r)) ->
  exists h', set_red h a c1 = Ok h' /\ evo rt h (plug c (T a c0 k v l r)) h' (plug c (T a c1 k v l r)).
Proof.
  intros H. destruct (set_red_rep _ _ _ _ _ _ _ c1 H) as (h' & E & R & P). exists h'.
  split; [auto|]. split; [auto|split; auto]. rewrite !flata_plug. auto.
Qed.
Lemma rotl_evo h rt c x cx kx vx A y cy ky vy B C :
  rep h rt (plug c (T x cx kx vx A (T y cy ky vy B C))) ->
  exists h', RotateLeft h x = Ok h' /\
   evo rt h (plug c (T x cx kx vx A (T y cy ky vy B C))) h' (plug c (T y cy ky vy (T x cx kx vx A B) C)).
Proof.
  intros H. destruct (rotl_rep _ _ _ _ _ _ _ _ _ _ _ _ H) as (h' & E & R & P). exists h'.
  split; [auto|]. split; [auto|split; auto]. rewrite !flata_plug. simpl. repeat (rewrite <- !app_assoc; simpl). auto.
Qed.
Lemma rotr_evo h rt c x cx kx vx A y cy ky vy B C :
  rep h rt (plug c (T y cy ky vy (T x cx kx vx A B) C)) ->
  exists h', RotateRight h y = Ok h' /\
   evo rt h (plug c (T y cy ky vy (T x cx kx vx A B) C)) h' (plug c (T x cx kx vx A (T y cy ky vy B C))).
Proof.
  intros H. destruct (rotr_rep _ _ _ _ _ _ _ _ _ _ _ _ H) as (h' & E & R & P). exists h'.
  split; [auto|]. split; [auto|split; auto]. rewrite !flata_plug. simpl. repeat (rewrite <- !app_assoc; simpl). auto.
Qed.

(** *** the red-black invariant *)
Inductive rbt : atree -> bool -> nat -> Prop :=
| rbL : rbt L false 0
| rbR a k v l r n : rbt l false n -> rbt r false n -> rbt (T a true k v l r) true n
| rbB a k v l r cl cr n : rbt l cl n -> rbt r cr n -> rbt (T a false k v l r) false (S n).
Lemma rbt_color t c n : rbt t c n -> color t = c.
Proof. destruct 1; auto. Qed.

Definition fc (f : frame K V) : bool := match f with FL _ c _ _ _ | FR _ c _ _ _ => c end.
(** [rbc c mb n]: a subtree of black height n fits the hole of c, and must be
    black if mb *)
Inductive rbc : ctx -> bool -> nat -> Prop :=
| rbc0 n : rbc [] true n
| rbcR f c n : fc f = true -> rbt (fsib f) false n -> rbc c false n -> rbc (f :: c) true n
| rbcB f c cs mb n : fc f = false -> rbt (fsib f) cs n -> rbc c mb (S n) -> rbc (f :: c) false n.

Lemma rbt_plug c mb n : rbc c mb n -> forall t ct, rbt t ct n -> (mb = true -> ct = false) ->
  exists N, rbt (plug c t) false N.
Proof.
  induction 1 as [n|f c n F S C IH|f c cs mb n F S C IH]; intros t ct Ht Hm; simpl.
  - rewrite Hm in Ht; eauto.
  - rewrite Hm in Ht by auto. apply (IH _ true); [|congruence].
    destruct f; simpl in *; subst; constructor; auto.
  - apply (IH _ false); auto. destruct f; simpl in *; subst; econstructor; eauto.
Qed.

Lemma rbt_unplug c : forall t N, rbt (plug c t) false N ->
  exists mb n, rbc c mb n /\ rbt t (color t) n /\ (mb = true -> color t = false).
Proof.
  induction c as [|f c IH]; intros t N H; simpl in H.
  - exists true, N. pose proof (rbt_color H) as E. rewrite E. split; [constructor|split; auto].
  - destruct (IH _ _ H) as (mb & n & C & R & M).
    destruct f as [a c0 k v s|a c0 k v s]; simpl in *; destruct c0; inversion R; subst.
    + destruct mb; [discriminate M; auto|]. exists true, n. pose proof (rbt_color H6) as E. rewrite E. split; [|split; auto].
      apply rbcR; auto.
    + exists false, n0. pose proof (rbt_color H6) as E. rewrite E. split; [|split; [auto|discriminate]].
      eapply rbcB; simpl; eauto.
    + destruct mb; [discriminate M; auto|]. exists true, n. pose proof (rbt_color H7) as E. rewrite E. split; [|split; auto].
      apply rbcR; auto.
    + exists false, n0. pose proof (rbt_color H7) as E. rewrite E. split; [|split; [auto|discriminate]].
      eapply rbcB; simpl; eauto.
Qed.

Definition blacken (t : atree) : atree := match t with RBHeap.L => L | T a _ k v l r => T a false k v l r end.
Lemma blacken_black t : color t = false -> blacken t = t.
Proof. destruct t; simpl; intros; subst; auto. Qed.

(** *** distinctness *)
Lemma rep_lr h rt c a c0 k v l r : rep h rt (plug c (T a c0 k v l r)) -> l <> L \/ r <> L -> ad l <> ad r.
Proof.
  intros H N. pose proof (rep_cnt H) as D. pose proof (rep_cnt0 H) as Z. rewrite cnt_plug in Z. simpl in Z.
  destruct l as [|b ? ? ? ? ?], r as [|d ? ? ? ? ?]; simpl in *.
  - destruct N; congruence.
  - apply eqn_0. lia.
  - apply not_eq_sym, eqn_0. lia.
  - specialize (D b). rewrite cnt_plug in D. simpl in D. rewrite eqn_refl in D.
    apply eqn_0. lia.
Qed.
Lemma rep_ne h rt c t : rep h rt (plug c t) -> t <> L -> ad t <> nil.
Proof. intros H N. destruct t; [congruence|]. apply (rep_neq_nil _ _ _ _ _ _ _ H). Qed.
End I.
Arguments rbL {K V}.
