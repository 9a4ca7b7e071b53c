(** Successor, iteration, equality and destruction. *)
From Verif Require Import Prelude PreludeFacts RBModel RBSpec RBHeap RBInv RBPut RBSearch.
Set Implicit Arguments.

Section S.
Variables K V : Type.
Notation heap := (heap K V).
Notation atree := (atree K V).
Notation ctx := (ctx K V).
Notation rbtree := (rbtree K V).
Notation L := (@L K V).

(** address of the first entry, nil if none *)
Definition hda (l : list (addr * K * V)) : addr := match l with [] => nil | e :: _ => eaddr e end.

Lemma plug_app : forall c1 c2 (t : atree), plug (c1 ++ c2) t = plug c2 (plug c1 t).
Proof. induction c1; simpl; auto. Qed.
Lemma before_app : forall c1 c2 : ctx, before (c1 ++ c2) = before c2 ++ before c1.
Proof. induction c1 as [|[? ? ? ? ?|? ? ? ? ?] c1 IHc]; intros; simpl; rewrite ?app_nil_r, ?IHc, ?app_assoc; auto. Qed.
Lemma after_app : forall c1 c2 : ctx, after (c1 ++ c2) = after c1 ++ after c2.
Proof. induction c1 as [|[? ? ? ? ?|? ? ? ? ?] c1 IHc]; intros; simpl; auto. rewrite IHc, <- app_assoc. auto. Qed.

Lemma leftmost_spec fuel : forall h rt c a c0 k v l r,
  rep h rt (plug c (T a c0 k v l r)) -> length (flata (T a c0 k v l r)) <= fuel ->
  exists c' y cy ky vy ry, leftmost fuel h a = Ok y /\
    plug c (T a c0 k v l r) = plug (c' ++ c) (T y cy ky vy L ry) /\
    plug c' (T y cy ky vy L ry) = T a c0 k v l r /\ before c' = [].
Proof.
  induction fuel as [|fuel IH]; intros h rt c a c0 k v l r R Hf; simpl in Hf; rewrite app_length in Hf; simpl in Hf; [lia|].
  cbn [leftmost]. rewrite (@rep_left K V h rt c a c0 k v l r R). cbn [bind].
  destruct l as [|b cb kb vb bl br].
  - cbn [ad]. rewrite Nat.eqb_refl. exists [], a, c0, k, v, r. auto.
  - assert (b <> nil) as Nb. { apply (@rep_neq_nil K V h rt (FL a c0 k v r :: c) b cb kb vb bl br R). }
    cbn [ad]. apply Nat.eqb_neq in Nb. rewrite Nb.
    destruct (IH h rt (FL a c0 k v r :: c) b cb kb vb bl br R) as (c' & y & cy & ky & vy & ry & E & P1 & P2 & P3); [lia|].
    exists (c' ++ [FL a c0 k v r]), y, cy, ky, vy, ry. split; auto.
    split; [|split].
    + simpl in P1. rewrite P1. rewrite !plug_app. auto.
    + rewrite plug_app, P2. auto.
    + rewrite before_app, P3. auto.
Qed.

Lemma climb_spec fuel : forall h rt c t, rep h rt (plug c t) -> t <> L -> length c < fuel ->
  climb fuel h (ad t) (pa rt c) = Ok (match after c with [] => rt | e :: _ => eaddr e end).
Proof.
  induction fuel as [|fuel IH]; intros h rt c t R N Hf; [lia|]. cbn [climb].
  destruct c as [|[a c0 k v s|a c0 k v s] c]; cbn [pa fa after].
  - unfold right_of. rewrite (rep_root R). cbn [bind nright rootn].
    pose proof (@rep_ne K V h rt [] t R N) as Nn. apply Nat.eqb_neq in Nn. rewrite Nn. auto.
  - cbn [plug plug1] in R. rewrite (@rep_right K V h rt c a c0 k v t s R). cbn [bind].
    assert (ad t =? ad s = false) as ->. { apply Nat.eqb_neq. apply (@rep_lr K V h rt c a c0 k v t s R); auto. }
    auto.
  - cbn [plug plug1] in R. rewrite (@rep_right K V h rt c a c0 k v s t R). cbn [bind]. rewrite Nat.eqb_refl.
    rewrite (@rep_par K V h rt c a c0 k v s t R). cbn [bind].
    apply (IH h rt c (T a c0 k v s t) R); [discriminate|]. simpl in Hf. lia.
Qed.

Lemma hda_in (l : list (addr * K * V)) : l <> [] -> exists e, In e l /\ hda l = eaddr e.
Proof. destruct l as [|e l]; [congruence|]. exists e. simpl. auto. Qed.
Lemma cnt_in (t : atree) e : In e (flata t) -> 0 < cnt (eaddr e) t.
Proof.
  rewrite cnt_flata. induction (flata t) as [|x l IH]; simpl; [tauto|]. intros [->|H].
  - rewrite eqn_refl. lia.
  - apply IH in H. lia.
Qed.

(** [after] of the node's position: right subtree first *)
Lemma Next_spec (t : rbtree) T0 c a c0 k v l r : rep (rheap t) (rroot t) T0 -> T0 = plug c (T a c0 k v l r) ->
  length (flata T0) <= rsize t ->
  Next_ t (rheap t) a = Ok (hda (flata r ++ after c)).
Proof.
  intros R E Hs. subst T0. unfold Next_. rewrite (rep_right _ _ _ _ _ _ _ R). cbn [bind].
  pose proof (plug_length c (T a c0 k v l r)) as PL. simpl in PL. rewrite app_length in PL. simpl in PL.
  destruct r as [|b cb kb vb bl br].
  - cbn [ad]. rewrite Nat.eqb_refl. cbn [negb]. rewrite (rep_par _ _ _ _ _ _ _ R). cbn [bind].
    pose proof (@climb_spec (S (S (rsize t))) (rheap t) (rroot t) c (T a c0 k v l L) R) as C. cbn [ad] in C.
    rewrite C; [|discriminate|lia]. cbn [bind]. cbn [flata app]. f_equal.
    destruct (after c) as [|e A] eqn:EA; simpl.
    + rewrite Nat.eqb_refl. auto.
    + assert (eaddr e <> rroot t) as Ne.
      { intros Z. pose proof (rep_cntr R) as X. rewrite <- Z in X.
        assert (In e (flata (plug c (T a c0 k v l L)))) as Ie by (rewrite flata_plug, EA, !in_app_iff; simpl; tauto).
        apply cnt_in in Ie. lia. }
      apply Nat.eqb_neq in Ne. rewrite Ne. auto.
  - assert (b <> nil) as Nb. { apply (@rep_neq_nil K V _ _ (FR a c0 k v l :: c) b cb kb vb bl br R). }
    cbn [ad]. apply Nat.eqb_neq in Nb. rewrite Nb. cbn [negb].
    destruct (@leftmost_spec (S (rsize t)) (rheap t) (rroot t) (FR a c0 k v l :: c) b cb kb vb bl br R) as (c' & y & cy & ky & vy & ry & E & P1 & P2 & P3); [simpl in *; lia|].
    rewrite E. f_equal. rewrite <- P2, flata_plug, P3. simpl. auto.
Qed.

(** every entry of the sequence is a node *)
Lemma flata_focus (t : atree) : forall B e A, flata t = B ++ e :: A ->
  (forall x, cnt x t <= 1) ->
  exists c c0 l r, t = plug c (T (eaddr e) c0 (snd (fst e)) (snd e) l r) /\
    before c ++ flata l = B /\ flata r ++ after c = A.
Proof.
  induction t as [|a c0 k v l IHl r IHr]; intros B e A E D; simpl in E.
  - destruct B; discriminate.
  - assert (forall x, cnt x l <= 1) as Dl by (intros x; specialize (D x); simpl in D; lia).
    assert (forall x, cnt x r <= 1) as Dr by (intros x; specialize (D x); simpl in D; lia).
    apply app_eq_app in E. destruct E as (m & [[E1 E2]|[E1 E2]]).
    + destruct m as [|x m].
      * rewrite app_nil_r in E1. simpl in E2. inversion E2; subst. exists [], c0, l, r. simpl. rewrite app_nil_r. auto.
      * simpl in E2. inversion E2; subst.
        destruct (IHl B x m E1 Dl) as (c & c1 & l1 & r1 & F1 & F2 & F3).
        exists (c ++ [FL a c0 k v r]), c1, l1, r1. rewrite plug_app, before_app, after_app, <- F1. simpl.
        split; auto. split; auto. rewrite <- F3, <- app_assoc. simpl. rewrite app_nil_r. auto.
    + destruct m as [|x m].
      * simpl in E2. inversion E2; subst. exists [], c0, l, r. simpl. rewrite !app_nil_r. auto.
      * simpl in E2. inversion E2; subst.
        match goal with H : flata r = m ++ e :: A |- _ => destruct (IHr m e A H Dr) as (c & c1 & l1 & r1 & F1 & F2 & F3) end.
        exists (c ++ [FR a c0 k v l]), c1, l1, r1. rewrite plug_app, before_app, after_app, <- F1. simpl.
        split; auto. split; [|rewrite app_nil_r; auto]. rewrite <- F2. rewrite <- !app_assoc. simpl. auto.
Qed.

Variable cmp : K -> K -> Z.
Definition opt (e : K * V) : option K * option V := (Some (fst e), Some (snd e)).

Lemma iter_next_spec (t : rbtree) a B A : inv cmp t a -> flata a = B ++ A ->
  RBTreeIteratorNext t (hda A) = Ok (match A with
     | [] => None
     | e :: A' => Some (Some (snd (fst e)), Some (snd e), hda A')
     end).
Proof.
  intros I E. unfold RBTreeIteratorNext. destruct A as [|e A].
  - cbn [hda]. rewrite Nat.eqb_refl. destruct (rsize t =? 0); auto.
  - assert (rsize t =? 0 = false) as ->. { rewrite (i_size I), E, app_length. simpl. apply Nat.eqb_neq. lia. }
    destruct (flata_focus a B e A E (rep_cnt (i_rep I))) as (c & c0 & l & r & F1 & F2 & F3).
    cbn [hda]. pose proof (i_rep I) as R. rewrite F1 in R.
    destruct (rep_neq_nil _ _ _ _ _ _ _ R) as [Nn _]. apply Nat.eqb_neq in Nn. rewrite Nn.
    rewrite (rep_read _ _ _ _ _ _ _ R). cbn [bind nkey nval].
    erewrite Next_spec; [|exact (i_rep I)|exact F1|rewrite (i_size I); auto]. cbn [bind]. rewrite F3. auto.
Qed.

Lemma iter_new_spec (t : rbtree) a : inv cmp t a -> RBTreeIteratorNew t = Ok (match flata a with [] => rroot t | e :: _ => eaddr e end).
Proof.
  intros I. unfold RBTreeIteratorNew. pose proof (i_rep I) as R.
  change (leftmost (S (S (rsize t))) (rheap t) (rroot t)) with
    (let* l := left_of (rheap t) (rroot t) in if l =? nil then Ok (rroot t) else leftmost (S (rsize t)) (rheap t) l).
  rewrite (inv_left I). cbn [bind]. destruct a as [|b cb kb vb bl br].
  - cbn [ad]. rewrite Nat.eqb_refl. auto.
  - destruct (@rep_neq_nil K V _ _ [] b cb kb vb bl br R) as [Nb _]. cbn [ad]. apply Nat.eqb_neq in Nb. rewrite Nb.
    destruct (@leftmost_spec (S (rsize t)) (rheap t) (rroot t) [] b cb kb vb bl br R) as (c' & y & cy & ky & vy & ry & E & P1 & P2 & P3).
    { rewrite (i_size I). lia. }
    rewrite E. f_equal. rewrite <- P2, flata_plug, P3. simpl. auto.
Qed.

Lemma iter_loop_spec (t : rbtree) a : inv cmp t a -> forall A B fuel, flata a = B ++ A -> length A < fuel ->
  iter_loop fuel t (hda A) = Ok (map opt (kvs A)).
Proof.
  intros I. induction A as [|e A IH]; intros B fuel E Hf; (destruct fuel as [|fuel]; [simpl in Hf; lia|]); cbn [iter_loop].
  - rewrite (iter_next_spec B [] I E). auto.
  - rewrite (iter_next_spec B (e :: A) I E). cbn [bind]. simpl in Hf.
    rewrite (IH (B ++ [e]) fuel); [auto| |lia]. rewrite E, <- app_assoc. auto.
Qed.

Lemma RBTreeIterate_spec (t : rbtree) a : inv cmp t a -> RBTreeIterate t = Ok (map opt (kvs (flata a))).
Proof.
  intros I. unfold RBTreeIterate. rewrite (iter_new_spec I). cbn [bind].
  destruct (flata a) as [|e A] eqn:E.
  - assert (rsize t = 0) as Hs by (rewrite (i_size I), E; auto). cbn [iter_loop]. unfold RBTreeIteratorNext. rewrite Hs. auto.
  - apply (@iter_loop_spec t a I (e :: A) []); auto. rewrite (i_size I), E. simpl. lia.
Qed.

(** *** equality *)
Section E.
Variable vcmp : V -> V -> Z.
Definition kv_eqb (x y : K * V) : bool := ((cmp (fst x) (fst y) =? 0) && (vcmp (snd x) (snd y) =? 0))%Z.
Fixpoint all2 (l m : list (K * V)) : bool :=
  match l, m with
  | x :: l, y :: m => kv_eqb x y && all2 l m
  | _, _ => true
  end.
Lemma equal_loop_spec a ta b tb : inv cmp a ta -> inv cmp b tb -> forall A A' B B' fuel,
  flata ta = B ++ A -> flata tb = B' ++ A' -> length A < fuel ->
  equal_loop cmp vcmp fuel a b (hda A) (hda A') = Ok (all2 (kvs A) (kvs A')).
Proof.
  intros Ia Ib. induction A as [|e A IH]; intros A' B B' fuel E E' Hf; (destruct fuel as [|fuel]; [simpl in Hf; lia|]); cbn [equal_loop].
  - rewrite (iter_next_spec B [] Ia E). auto.
  - rewrite (iter_next_spec B (e :: A) Ia E). cbn [bind].
    rewrite (iter_next_spec B' A' Ib E'). cbn [bind]. destruct A' as [|e' A']; auto.
    simpl. unfold kv_eqb. simpl. destruct (cmp (snd (fst e)) (snd (fst e')) =? 0)%Z; simpl; auto.
    destruct (vcmp (snd e) (snd e') =? 0)%Z; simpl; auto.
    apply (IH A' (B ++ [e]) (B' ++ [e']) fuel); [rewrite E, <- app_assoc; auto|rewrite E', <- app_assoc; auto|simpl in Hf; lia].
Qed.
Lemma RBTreeEqual_spec a ta b tb : inv cmp a ta -> inv cmp b tb ->
  RBTreeEqual cmp vcmp a b = Ok ((length (flata ta) =? length (flata tb)) && all2 (kvs (flata ta)) (kvs (flata tb))).
Proof.
  intros Ia Ib. unfold RBTreeEqual. rewrite (i_size Ia), (i_size Ib).
  destruct (Nat.eqb_spec (length (flata ta)) (length (flata tb))) as [El|El]; cbn [negb andb]; auto.
  rewrite (iter_new_spec Ia), (iter_new_spec Ib). cbn [bind].
  destruct (flata ta) as [|e A] eqn:E; destruct (flata tb) as [|e' A'] eqn:E'; simpl in El; try discriminate.
  - cbn [equal_loop]. unfold RBTreeIteratorNext. rewrite (i_size Ia), E. auto.
  - apply (@equal_loop_spec a ta b tb Ia Ib (e :: A) (e' :: A') [] []); auto.
Qed.

End E.
(** *** destruction *)
Fixpoint post (t : atree) : list (rev_ K V) :=
  match t with RBHeap.L => [] | T _ _ k v l r => post l ++ post r ++ [RKey V (Some k); RVal K (Some v)] end.

Lemma ClearRecursive_spec fuel : forall h p t, treeh h p t -> (forall x, cnt x t <= 1) -> cnt nil t = 0 ->
  length (flata t) < fuel ->
  exists h', ClearRecursive fuel h (ad t) = Ok (h', post t) /\
    (forall x, 0 < cnt x t -> h' x = None) /\ (forall x, cnt x t = 0 -> h' x = h x).
Proof.
  induction fuel as [|fuel IH]; intros h p t H D N Hf; [lia|]. cbn [ClearRecursive].
  destruct t as [|a c k v l r]; cbn [ad].
  - rewrite Nat.eqb_refl. exists h. split; auto. split; auto. simpl. lia.
  - simpl in N. assert (a =? nil = false) as ->. { apply Nat.eqb_neq, not_eq_sym, eqn_0. lia. }
    simpl in H. destruct H as (H1 & H2 & H3). simpl in Hf. rewrite app_length in Hf. simpl in Hf.
    unfold left_of, getn. rewrite H1. cbn [bind nleft].
    assert (forall x, cnt x l <= 1) as Dl by (intros x; specialize (D x); simpl in D; lia).
    assert (forall x, cnt x r <= 1) as Dr by (intros x; specialize (D x); simpl in D; lia).
    pose proof (D a) as Da. simpl in Da. rewrite eqn_refl in Da.
    destruct (IH h a l H2 Dl) as (h1 & E1 & A1 & B1); [lia|lia|]. rewrite E1. cbn [bind].
    unfold right_of, getn. rewrite B1, H1 by lia. cbn [bind nright].
    assert (treeh h1 a r) as H3'.
    { eapply treeh_agree; [|exact H3]. intros b Hb. apply B1. specialize (D b). simpl in D. lia. }
    destruct (IH h1 a r H3' Dr) as (h2 & E2 & A2 & B2); [lia|lia|]. rewrite E2. cbn [bind].
    rewrite B2, B1, H1 by lia. cbn [bind nkey nval].
    eexists. split; [reflexivity|]. split.
    + intros x Hx. destruct (Nat.eq_dec x a) as [->|Nx]; [apply hupd_same|]. rewrite hupd_other by auto.
      simpl in Hx. pose proof (proj2 (eqn_0 _ _) Nx). destruct (cnt x r) eqn:Er; [|apply A2; lia].
      rewrite B2 by auto. apply A1. lia.
    + intros x Hx. simpl in Hx. rewrite hupd_other, B2, B1; auto; try lia. apply eqn_0. lia.
Qed.

Lemma post_keys t : Permutation (dkeys (post t)) (map fst (kvs (flata t))) /\ Permutation (dvals (post t)) (map snd (kvs (flata t))).
Proof.
  induction t as [|a c k v l [IHl1 IHl2] r [IHr1 IHr2]]; simpl; auto.
  unfold dkeys, dvals in *. rewrite !flat_map_app. unfold kvs in *. rewrite !map_app. simpl.
  rewrite IHl1, IHr1, IHl2, IHr2. split; apply Permutation_app_head; symmetry; apply Permutation_cons_append.
Qed.

(** the new tree *)
Lemma inv_new : inv cmp (@RBTreeNew K V) L.
Proof.
  constructor.
  - constructor; simpl; auto.
    + split; simpl; auto.
    + exists nil. reflexivity.
  - exists 0. constructor.
  - auto.
  - constructor.
  - intros x Hx. simpl in *. unfold hupd. destruct x as [|[|x]]; try lia. auto.
  - intros x Hx. simpl in *. unfold hupd in Hx. destruct x as [|[|x]]; auto. simpl in Hx. congruence.
Qed.

Lemma RBTreeClear_spec (t : rbtree) a : inv cmp t a -> exists t', RBTreeClear t = Ok t' /\ inv cmp t' L /\
  rlog t' = rlog t ++ post a ++ [RKey V None; RVal K None].
Proof.
  intros I. pose proof (i_rep I) as R. unfold RBTreeClear.
  pose proof (rep_whole R) as [W1 W2]. pose proof (rep_rt R) as NR.
  remember (S (rsize t)) as fuel eqn:Ef.
  assert (exists h1, ClearRecursive (S fuel) (rheap t) (rroot t) = Ok (h1, post a ++ [RKey V None; RVal K None]) /\
     h1 (rroot t) = None /\ (forall x, 0 < cnt x a -> h1 x = None) /\ (forall x, x <> rroot t -> cnt x a = 0 -> h1 x = rheap t x)) as (h1 & E & C1 & C2 & C3).
  { cbn [ClearRecursive]. apply Nat.eqb_neq in NR. rewrite NR. rewrite (inv_left I). cbn [bind].
    destruct (@ClearRecursive_spec fuel (rheap t) (rroot t) a W1 (rep_cnt R) (rep_cnt0 R)) as (h1 & E1 & A1 & B1).
    { rewrite Ef, (i_size I). lia. }
    rewrite E1. cbn [bind]. unfold right_of, getn. rewrite B1, W2 by apply (rep_cntr R). cbn [bind nright rootn].
    assert (ClearRecursive fuel h1 nil = Ok (h1, [])) as -> by (subst fuel; reflexivity). cbn [bind].
    rewrite B1, W2 by apply (rep_cntr R). cbn [bind nkey nval rootn].
    eexists. split; [reflexivity|]. split; [apply hupd_same|]. split.
    - intros x Hx. rewrite hupd_other; auto. intros ->. pose proof (rep_cntr R). lia.
    - intros x Hx Hc. rewrite hupd_other; auto. }
  rewrite E. cbn [bind]. destruct (rep_nil R) as [p Hp]. unfold nilok in Hp.
  destruct (inv_fresh I) as (Z1 & Z2 & Z3).
  unfold getn. rewrite C3; auto; [|apply (rep_cnt0 R)]. rewrite Hp. cbn [bind].
  eexists. split; [reflexivity|]. split; [|reflexivity].
  constructor; cbn [rheap rroot rsize rnext]; auto.
  - constructor; simpl; auto.
    + split; simpl; auto. apply hupd_same.
    + exists nil. unfold nilok. rewrite hupd_other by auto. apply hupd_same.
  - exists 0. constructor.
  - constructor.
  - intros x Hx. rewrite hupd_other by lia. rewrite hupd_other by (unfold nil; lia).
    assert (rheap t x = None) as X by (apply (i_fresh I); lia).
    destruct (cnt x a) eqn:Ex; [|apply C2; lia]. rewrite C3; auto. intros ->. congruence.
  - intros x Hx. unfold hupd in Hx. destruct (Nat.eqb_spec x (rnext t)); auto. destruct (Nat.eqb_spec x nil); auto.
    exfalso. destruct (cnt x a) eqn:Ex; [|apply Hx, C2; lia].
    destruct (Nat.eq_dec x (rroot t)) as [->|]; [congruence|]. rewrite C3 in Hx by auto.
    destruct (i_live I x Hx) as [?|[?|?]]; auto. lia.
Qed.

Lemma RBTreeDestroy_spec (t : rbtree) a : inv cmp t a -> RBTreeDestroy t = Ok (rlog t ++ post a).
Proof.
  intros I. pose proof (i_rep I) as R. unfold RBTreeDestroy. rewrite (inv_left I). cbn [bind].
  destruct (rep_whole R) as [W1 W2].
  destruct (@ClearRecursive_spec (S (S (rsize t))) (rheap t) (rroot t) a W1 (rep_cnt R) (rep_cnt0 R)) as (h1 & E1 & A1 & B1).
  { rewrite (i_size I). lia. }
  rewrite E1. auto.
Qed.
End S.
