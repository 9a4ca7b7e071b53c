(** Property theorems about rb-tree.c (C10-C12, C56, C57).
    Specification vocabulary: RBSpec.v. *)
From Verif Require Import Prelude PreludeFacts RBModel RBSpec RBHeap RBInv RBPut RBSearch RBIter RBRemFix RBRemove RBBal.
From Coq Require Import Sorting.Sorted.
Set Implicit Arguments.

(** ** Specification of balance, on the pointers of the heap *)
Section BalSpec.
Variables K V : Type.
(** [path h a dirs x bl]: following dirs (true = right) from node a never leaves a
    real node before reaching x, and bl black nodes are on the way (a included,
    x not). *)
Inductive path (h : heap K V) : addr -> list bool -> addr -> nat -> Prop :=
| path_here a : path h a [] a 0
| path_step a n (d : bool) ds x bl : a <> nil -> h a = Some n ->
    path h (if d then nright n else nleft n) ds x bl ->
    path h a (d :: ds) x (if nred n then bl else S bl).
Definition is_red (h : heap K V) (a : addr) : Prop := exists n, h a = Some n /\ nred n = true.
End BalSpec.

Section Lem.
Variables K V : Type.
Notation L := (@L K V).
Lemma path_depth (h : heap K V) a ds x bl : path h a ds x bl -> forall p t, a = ad t -> treeh h p t -> x <> nil ->
  length ds + 1 <= depth t.
Proof.
  induction 1 as [a|a n d ds x bl Na Ha P IH]; intros p t Ea Ht Nx.
  - subst a. destruct t; simpl in *; [congruence|lia].
  - destruct t as [|b c k v l r]; simpl in Ea; [congruence|]. subst b. simpl in Ht. destruct Ht as (H1 & H2 & H3).
    rewrite H1 in Ha. inversion Ha; subst n. simpl in *. destruct d.
    + specialize (IH a r eq_refl H3 Nx). lia.
    + specialize (IH a l eq_refl H2 Nx). lia.
Qed.
Lemma path_black (h : heap K V) a ds x bl : path h a ds x bl -> forall p t c n, a = ad t -> treeh h p t -> cnt nil t = 0 -> rbt t c n -> x = nil -> bl = n.
Proof.
  induction 1 as [a|a nd d ds x bl Na Ha P IH]; intros p t c n Ea Ht Z B Nx.
  - destruct t as [|b cb k v l r]; [inversion B; auto|]. simpl in Ea. simpl in Z. rewrite <- Ea, Nx in Z. rewrite eqn_refl in Z. lia.
  - destruct t as [|b cb k v l r]; simpl in Ea; [congruence|]. subst b. simpl in Ht. destruct Ht as (H1 & H2 & H3).
    simpl in Z. rewrite H1 in Ha. inversion Ha; subst nd. simpl in *.
    inversion B as [|? ? ? ? ? n0 Bl Br|? ? ? ? ? cl cr n0 Bl Br]; subst; destruct d.
    + eapply IH; eauto. lia.
    + eapply IH; eauto. lia.
    + f_equal. eapply IH; eauto. lia.
    + f_equal. eapply IH; eauto. lia.
Qed.
Lemma path_red (h : heap K V) rt a ds x bl : path h a ds x bl -> forall p t c n N, a = ad t -> treeh h p t -> rep h rt N -> rbt t c n ->
  forall nd, x <> nil -> h x = Some nd -> nred nd = true -> ~ is_red h (nleft nd) /\ ~ is_red h (nright nd).
Proof.
  induction 1 as [a|a nd0 d ds x bl Na Ha P IH]; intros p t c n N Ea Ht R B nd Nx Hx Hr.
  - destruct t as [|b cb k v l r]; [simpl in Ea; congruence|]. simpl in Ea. subst b. simpl in Ht. destruct Ht as (H1 & H2 & H3).
    rewrite H1 in Hx. inversion Hx; subst nd. simpl in Hr. subst cb. inversion B as [|? ? ? ? ? n0 Bl Br|]; subst.
    assert (forall s q, treeh h q s -> rbt s false n -> ~ is_red h (ad s)) as A.
    { intros s q Hs Bs (m & Hm & Hmr). destruct s as [|e ce ke ve le re]; simpl in Hm.
      - destruct (rep_nil R) as [pp Hp]. unfold nilok in Hp. rewrite Hp in Hm. inversion Hm; subst. discriminate.
      - simpl in Hs. destruct Hs as (Hs & _). rewrite Hs in Hm. inversion Hm; subst m. simpl in Hmr. apply rbt_color in Bs. simpl in Bs. congruence. }
    simpl. split; eapply A; eauto.
  - destruct t as [|b cb k v l r]; simpl in Ea; [congruence|]. subst b. simpl in Ht. destruct Ht as (H1 & H2 & H3).
    rewrite H1 in Ha. inversion Ha; subst nd0. simpl in *.
    inversion B as [|? ? ? ? ? n0 Bl Br|? ? ? ? ? cl cr n0 Bl Br]; subst; destruct d; eapply IH; eauto.
Qed.
End Lem.

Section T.
Variables K V : Type.
Variable cmp : K -> K -> Z.
Hypothesis CO : cmp_ok cmp.

(** C10: every history returns normally and its results are those of the sorted
    finite map; [ZEntries] lists entries in ascending order. *)
Theorem C10_rbtree_is_ordered_map : forall ops : list (rop K V),
  let '(m, spec_outs, _) := rspec_run cmp [] ops in
  sorted cmp m /\ exists t, rb_run cmp RBTreeNew ops = Ok (t, spec_outs).
Proof.
  intros ops. pose proof (run_new CO ops) as H. destruct (rspec_run cmp [] ops) as [[m vs] ds].
  destruct H as (t & a & E & I & F & _). split; [|eauto]. rewrite <- F. apply (i_sorted I).
Qed.

(** C11 *)
Theorem C11_height_is_logarithmic : forall (ops : list (rop K V)) t outs top ds x bl,
  rb_run cmp RBTreeNew ops = Ok (t, outs) ->
  left_of (rheap t) (rroot t) = Ok top ->
  path (rheap t) top ds x bl -> x <> nil ->
  length ds + 1 <= 2 * Nat.log2 (RBTreeSize t + 1).
Proof.
  intros ops t outs top ds x bl E Et P Nx. pose proof (run_new CO ops) as H. destruct (rspec_run cmp [] ops) as [[m vs] d].
  destruct H as (t' & a & E' & I & _). rewrite E in E'. inversion E'; subst t'. rewrite (inv_left I) in Et. inversion Et; subst top.
  destruct (rep_whole (i_rep I)) as [W _]. pose proof (path_depth P _ a eq_refl W Nx) as D.
  destruct (i_rb I) as [N HN]. apply rbt_log in HN. unfold RBTreeSize. rewrite (i_size I). lia.
Qed.
Theorem C11_equal_black_counts : forall (ops : list (rop K V)) t outs top ds1 ds2 b1 b2,
  rb_run cmp RBTreeNew ops = Ok (t, outs) ->
  left_of (rheap t) (rroot t) = Ok top ->
  path (rheap t) top ds1 nil b1 -> path (rheap t) top ds2 nil b2 -> b1 = b2.
Proof.
  intros ops t outs top ds1 ds2 b1 b2 E Et P1 P2. pose proof (run_new CO ops) as H. destruct (rspec_run cmp [] ops) as [[m vs] d].
  destruct H as (t' & a & E' & I & _). rewrite E in E'. inversion E'; subst t'. rewrite (inv_left I) in Et. inversion Et; subst top.
  destruct (rep_whole (i_rep I)) as [W _]. destruct (i_rb I) as [N HN]. pose proof (rep_cnt0 (i_rep I)) as Z.
  rewrite (path_black P1 _ eq_refl W Z HN eq_refl), (path_black P2 _ eq_refl W Z HN eq_refl). auto.
Qed.
Theorem C11_no_red_red : forall (ops : list (rop K V)) t outs top ds x bl n,
  rb_run cmp RBTreeNew ops = Ok (t, outs) ->
  left_of (rheap t) (rroot t) = Ok top ->
  path (rheap t) top ds x bl -> x <> nil -> rheap t x = Some n -> nred n = true ->
  ~ is_red (rheap t) (nleft n) /\ ~ is_red (rheap t) (nright n).
Proof.
  intros ops t outs top ds x bl n E Et P Nx Hx Hr. pose proof (run_new CO ops) as H. destruct (rspec_run cmp [] ops) as [[m vs] d].
  destruct H as (t' & a & E' & I & _). rewrite E in E'. inversion E'; subst t'. rewrite (inv_left I) in Et. inversion Et; subst top.
  destruct (rep_whole (i_rep I)) as [W _]. destruct (i_rb I) as [N HN].
  eapply (path_red P _ eq_refl W (i_rep I) HN); eauto.
Qed.
(** the assertions of the library's own checker hold *)
Theorem C11_verify_tree_passes : forall (ops : list (rop K V)) t outs,
  rb_run cmp RBTreeNew ops = Ok (t, outs) -> VerifyTree t = Ok tt.
Proof.
  intros ops t outs E. pose proof (run_new CO ops) as H. destruct (rspec_run cmp [] ops) as [[m vs] d].
  destruct H as (t' & a & E' & I & _). rewrite E in E'. inversion E'; subst t'. eapply VerifyTree_ok; eauto.
Qed.

(** C12, the part that holds: the number of accepted entries is even or one and
    the tree is not empty *)
Definition entries (m : list (K * V)) := map (fun e => (Some (fst e), Some (snd e))) m.
Definition accepted (filt : option K -> option V -> bool) (m : list (K * V)) :=
  filter (fun e => filt (Some (fst e)) (Some (snd e))) m.

Theorem C12_copy_partial : forall (ops : list (rop K V)) t outs filt,
  rb_run cmp RBTreeNew ops = Ok (t, outs) ->
  let '(m, _, _) := rspec_run cmp [] ops in
  let w := accepted filt m in
  m <> [] -> (Nat.even (length w) = true \/ length w = 1) ->
  exists copy, RBTreeCopy cmp t filt = Ok copy /\ RBTreeIterate copy = Ok (entries w) /\
    RBTreeSize copy = length w /\ RBTreeIterate t = Ok (entries m).
Proof.
  intros ops t outs filt E. pose proof (run_new CO ops) as H. destruct (rspec_run cmp [] ops) as [[m vs] d].
  destruct H as (t' & a & E' & I & F & _). rewrite E in E'. inversion E'; subst t'. cbn zeta. intros Nm Hw.
  assert (flata a <> []) as Na by (intros Z; rewrite Z in F; simpl in F; congruence).
  destruct (copy_spec CO filt I Na) as (copy & Ec & (ac & Ic & Fc)).
  assert (kvs (filter (acc filt) (flata a)) = accepted filt m) as Ek by (rewrite kvs_filter, F; auto).
  assert (length (filter (acc filt) (flata a)) = length (accepted filt m)) as El by (rewrite <- Ek, kvs_length; auto).
  rewrite El, Ek in Fc.
  assert (Nat.odd (length (accepted filt m)) && (1 <? length (accepted filt m)) = false) as Eb.
  { rewrite <- Nat.negb_even. destruct Hw as [-> | ->]; auto. }
  rewrite Eb in Fc. exists copy. split; auto. rewrite (RBTreeIterate_spec Ic), Fc. split; auto.
  rewrite (RBTreeIterate_spec I), F. split; auto.
  unfold RBTreeSize. rewrite (i_size Ic), <- (kvs_length (flata ac)), Fc. auto.
Qed.
(** with an odd number (3 or more) of accepted entries the last one is lost *)
Theorem C12_copy_odd_refuted : forall (ops : list (rop K V)) t outs filt,
  rb_run cmp RBTreeNew ops = Ok (t, outs) ->
  let '(m, _, _) := rspec_run cmp [] ops in
  let w := accepted filt m in
  Nat.odd (length w) = true -> 1 < length w ->
  exists copy, RBTreeCopy cmp t filt = Ok copy /\ RBTreeIterate copy = Ok (entries (removelast w)).
Proof.
  intros ops t outs filt E. pose proof (run_new CO ops) as H. destruct (rspec_run cmp [] ops) as [[m vs] d].
  destruct H as (t' & a & E' & I & F & _). rewrite E in E'. inversion E'; subst t'. cbn zeta. intros Ho Hl.
  assert (flata a <> []) as Na. { intros Z. rewrite Z in F. simpl in F. subst m. simpl in Hl. lia. }
  destruct (copy_spec CO filt I Na) as (copy & Ec & (ac & Ic & Fc)).
  assert (kvs (filter (acc filt) (flata a)) = accepted filt m) as Ek by (rewrite kvs_filter, F; auto).
  assert (length (filter (acc filt) (flata a)) = length (accepted filt m)) as El by (rewrite <- Ek, kvs_length; auto).
  rewrite El, Ek, Ho in Fc. apply Nat.ltb_lt in Hl. rewrite Hl in Fc. simpl in Fc.
  exists copy. split; auto. rewrite (RBTreeIterate_spec Ic), Fc. auto.
Qed.
(** copying an empty tree with no filter writes past a zero-sized allocation *)
Theorem C12_copy_empty_refuted : RBTreeCopy cmp (@RBTreeNew K V) (fun _ _ => true) = UB.
Proof. reflexivity. Qed.

(** C56: keys and values *)
Fixpoint put_entries (ops : list (rop K V)) : list (K * V) :=
  match ops with
  | [] => []
  | OPut k v :: os => (k, v) :: put_entries os
  | _ :: os => put_entries os
  end.
Fixpoint clears (ops : list (rop K V)) : nat :=
  match ops with [] => 0 | OClear :: os => S (clears os) | _ :: os => clears os end.
Definition null_keys (l : list (rev_ K V)) : nat :=
  length (filter (fun e => match e with RKey _ None => true | _ => false end) l).
Definition null_vals (l : list (rev_ K V)) : nat :=
  length (filter (fun e => match e with RVal _ None => true | _ => false end) l).

Lemma partition3 k m : Permutation m (shits cmp m k ++ filter (fun e : K * V => (0 <? cmp k (fst e))%Z) m ++ filter (fun e => (cmp k (fst e) <? 0)%Z) m).
Proof.
  unfold shits, same. induction m as [|e m IH]; simpl; auto.
  destruct (Z.eqb_spec (cmp k (fst e)) 0) as [E|E].
  - rewrite E. simpl. constructor. exact IH.
  - destruct (Z.ltb_spec 0 (cmp k (fst e))); destruct (Z.ltb_spec (cmp k (fst e)) 0); try lia.
    + rewrite IH at 1. apply Permutation_middle.
    + rewrite IH at 1. rewrite !app_assoc. apply Permutation_middle.
Qed.
Lemma step_conserves m o m1 v d : rspec_step cmp m o = (m1, v, d) -> Permutation (d ++ m1) (put_entries [o] ++ m).
Proof.
  destruct o; simpl; intros E; inversion E; subst; simpl; auto.
  - rewrite (partition3 k m) at 3. unfold sput. rewrite !app_assoc. rewrite <- Permutation_middle. auto.
  - unfold shits, sremove. induction m as [|e m IH]; simpl; auto. destruct (same cmp k e); simpl.
    + constructor. apply IH. reflexivity.
    + rewrite <- Permutation_middle. constructor. apply IH. reflexivity.
  - rewrite app_nil_r. auto.
Qed.
Lemma run_conserves : forall ops m m1 vs d, rspec_run cmp m ops = (m1, vs, d) -> Permutation (d ++ m1) (put_entries ops ++ m).
Proof.
  induction ops as [|o ops IH]; intros m m1 vs d E; cbn [rspec_run] in E.
  - inversion E; subst. auto.
  - destruct (rspec_step cmp m o) as [[m2 v] d2] eqn:E2. destruct (rspec_run cmp m2 ops) as [[m3 vs3] d3] eqn:E3.
    inversion E; subst. apply IH in E3. apply step_conserves in E2. rewrite <- app_assoc, E3.
    rewrite Permutation_app_swap_app, E2.
    destruct o; simpl; auto. rewrite Permutation_middle. auto.
Qed.

Lemma nulls_evs l : null_keys (evs_of l) = 0 /\ null_vals (evs_of l) = 0.
Proof. unfold null_keys, null_vals, evs_of. induction l as [|e l [IH1 IH2]]; simpl; auto. Qed.
Lemma nulls_post t : null_keys (@post K V t) = 0 /\ null_vals (post t) = 0.
Proof.
  unfold null_keys, null_vals. induction t as [|a c k v l [IHl1 IHl2] r [IHr1 IHr2]]; simpl; auto.
  rewrite !filter_app, !app_length. simpl. lia.
Qed.
Lemma nulls_app l1 l2 : null_keys (l1 ++ l2) = null_keys l1 + null_keys l2 /\ null_vals (l1 ++ l2) = null_vals l1 + null_vals l2.
Proof. unfold null_keys, null_vals. rewrite !filter_app, !app_length. auto. Qed.

Lemma run_nulls : forall ops t a, inv cmp t a -> forall t' vs, rb_run cmp t ops = Ok (t', vs) ->
  null_keys (rlog t') = null_keys (rlog t) + clears ops /\ null_vals (rlog t') = null_vals (rlog t) + clears ops.
Proof.
  induction ops as [|o ops IH]; intros t a I t' vs E; cbn [rb_run] in E.
  - inversion E; subst. simpl. lia.
  - assert (exists t1 v1 a1, rb_step cmp t o = Ok (t1, v1) /\ inv cmp t1 a1 /\
       null_keys (rlog t1) = null_keys (rlog t) + clears [o] /\ null_vals (rlog t1) = null_vals (rlog t) + clears [o]) as (t1 & v1 & a1 & E1 & I1 & N1 & N2).
    { destruct o as [k v| k| |k| |]; cbn [rb_step].
      - destruct (RBTreePut_spec CO k v I) as (t1 & a1 & E1 & I1 & _ & LG). rewrite E1. cbn [bind].
        eexists; eexists; exists a1. split; [reflexivity|]. split; auto. rewrite LG.
        destruct (nulls_app (rlog t) (evs_of (shits cmp (kvs (flata a)) k))) as [-> ->].
        destruct (nulls_evs (shits cmp (kvs (flata a)) k)) as [-> ->]. simpl. lia.
      - destruct (RBTreeRemove_spec CO k I) as (t1 & a1 & E1 & I1 & _ & LG). rewrite E1. cbn [bind].
        eexists; eexists; exists a1. split; [reflexivity|]. split; auto. rewrite LG.
        destruct (nulls_app (rlog t) (evs_of (shits cmp (kvs (flata a)) k))) as [-> ->].
        destruct (nulls_evs (shits cmp (kvs (flata a)) k)) as [-> ->]. simpl. lia.
      - destruct (RBTreeClear_spec I) as (t1 & E1 & I1 & LG). rewrite E1. cbn [bind].
        eexists; eexists; exists (@RBHeap.L K V). split; [reflexivity|]. split; auto. rewrite LG.
        destruct (nulls_app (rlog t) (post a ++ [RKey V None; RVal K None])) as [-> ->].
        destruct (nulls_app (post a) [RKey V None; RVal K None]) as [-> ->].
        destruct (nulls_post a) as [-> ->]. cbn. lia.
      - rewrite (RBTreeGet_spec CO k I). cbn [bind]. eexists; eexists; exists a. split; [reflexivity|]. simpl. split; auto; lia.
      - eexists; eexists; exists a. split; [reflexivity|]. simpl. split; auto; lia.
      - rewrite (RBTreeIterate_spec I). cbn [bind]. eexists; eexists; exists a. split; [reflexivity|]. simpl. split; auto; lia. }
    rewrite E1 in E. cbn [bind] in E. destruct (rb_run cmp t1 ops) as [[t2 vs2]| | |] eqn:E2; try discriminate.
    inversion E; subst. destruct (IH t1 a1 I1 _ _ E2) as [M1 M2].
    destruct o; simpl in *; lia.
Qed.

Theorem C56_rbtree_destroys_once_partial : forall (ops : list (rop K V)) t outs,
  rb_run cmp RBTreeNew ops = Ok (t, outs) ->
  exists all, RBTreeDestroy t = Ok all /\
    Permutation (dkeys all) (map fst (put_entries ops)) /\
    Permutation (dvals all) (map snd (put_entries ops)) /\
    (exists stored, RBTreeIterate t = Ok (entries stored) /\
       Permutation (dkeys (rlog t) ++ map fst stored) (map fst (put_entries ops)) /\
       Permutation (dvals (rlog t) ++ map snd stored) (map snd (put_entries ops))) /\
    null_keys all = clears ops /\ null_vals all = clears ops.
Proof.
  intros ops t outs E. pose proof (run_new CO ops) as H. destruct (rspec_run cmp [] ops) as [[m vs] d] eqn:ES.
  destruct H as (t' & a & E' & I & F & [LK LV]). rewrite E in E'. inversion E'; subst t'.
  apply run_conserves in ES. rewrite app_nil_r in ES.
  exists (rlog t ++ post a). split; [apply (RBTreeDestroy_spec I)|].
  destruct (post_keys a) as [Q1 Q2]. rewrite F in Q1, Q2.
  assert (Permutation (dkeys (rlog t) ++ map fst m) (map fst (put_entries ops))) as P1.
  { rewrite LK, <- map_app, ES. auto. }
  assert (Permutation (dvals (rlog t) ++ map snd m) (map snd (put_entries ops))) as P2.
  { rewrite LV, <- map_app, ES. auto. }
  split; [rewrite dkeys_app, Q1; auto|]. split; [rewrite dvals_app, Q2; auto|]. split.
  - exists m. rewrite (RBTreeIterate_spec I), F. auto.
  - destruct (run_nulls ops (inv_new V cmp) E) as [N1 N2].
    destruct (nulls_app (rlog t) (post a)) as [-> ->]. destruct (nulls_post a) as [-> ->]. rewrite N1, N2. simpl. lia.
Qed.
(** every RBTreeClear additionally hands NULL to both destroy callbacks *)
Theorem C56_clear_destroys_null_refuted : exists t,
  rb_run cmp RBTreeNew [@OClear K V] = Ok (t, [ZUnit]) /\ rlog t = [RKey V None; RVal K None].
Proof. eexists. split; reflexivity. Qed.

(** C57 *)
Variable vcmp : V -> V -> Z.
Lemma all2_Forall2 : forall l m : list (K * V), length l = length m ->
  (all2 cmp vcmp l m = true <-> Forall2 (fun x y => cmp (fst x) (fst y) = 0%Z /\ vcmp (snd x) (snd y) = 0%Z) l m).
Proof.
  induction l as [|x l IH]; intros [|y m] H; simpl in *; try discriminate; [split; auto|].
  rewrite andb_true_iff, IH by lia. unfold kv_eqb. rewrite andb_true_iff, !Z.eqb_eq.
  split; [intros [? ?]; constructor; auto|inversion 1; subst; auto].
Qed.
Theorem C57_equal_iff_same_entries : forall (ops1 ops2 : list (rop K V)) t1 t2 o1 o2,
  rb_run cmp RBTreeNew ops1 = Ok (t1, o1) -> rb_run cmp RBTreeNew ops2 = Ok (t2, o2) ->
  let '(m1, _, _) := rspec_run cmp [] ops1 in
  let '(m2, _, _) := rspec_run cmp [] ops2 in
  exists b, RBTreeEqual cmp vcmp t1 t2 = Ok b /\
    (b = true <-> Forall2 (fun x y => cmp (fst x) (fst y) = 0%Z /\ vcmp (snd x) (snd y) = 0%Z) m1 m2).
Proof.
  intros ops1 ops2 t1 t2 o1 o2 E1 E2.
  pose proof (run_new CO ops1) as H1. destruct (rspec_run cmp [] ops1) as [[m1 vs1] d1].
  pose proof (run_new CO ops2) as H2. destruct (rspec_run cmp [] ops2) as [[m2 vs2] d2].
  destruct H1 as (t' & a & E' & I1 & F1 & _). rewrite E1 in E'. inversion E'; subst t'.
  destruct H2 as (t' & b & E'' & I2 & F2 & _). rewrite E2 in E''. inversion E''; subst t'.
  eexists. split; [apply (RBTreeEqual_spec vcmp I1 I2)|]. rewrite F1, F2.
  rewrite <- (kvs_length (flata a)), <- (kvs_length (flata b)), F1, F2.
  destruct (Nat.eqb_spec (length m1) (length m2)) as [El|El]; cbn [andb].
  - apply all2_Forall2. auto.
  - split; [discriminate|]. intros H. exfalso; apply El; clear - H; induction H; simpl; auto.
Qed.
End T.

(** ** Non-trivial instances *)
Definition zcmp (a b : Z) : Z := (a - b)%Z.
Example cmp_ok_Z : cmp_ok zcmp.
Proof. unfold zcmp. constructor; intros; lia. Qed.
Definition ex_ops : list (rop Z Z) :=
  [OPut 5 50; OPut 3 30; OPut 8 80; OPut 1 10; OPut 4 40; OPut 7 70; OPut 9 90; ORemove 5; ORemove 1;
   OPut 3 33; OPut 2 20; ORemove 8; OGet 3; OGet 5; OSize; OIter]%Z.
Definition outs_of (r : res (rbtree Z Z * list (rout Z Z))) : list (rout Z Z) :=
  match r with Ok (_, o) => o | _ => [] end.
Example ex_run : outs_of (rb_run zcmp RBTreeNew ex_ops) =
  [ZBool false; ZBool false; ZBool false; ZBool false; ZBool false; ZBool false; ZBool false; ZBool true; ZBool true;
   ZBool true; ZBool false; ZBool true; ZVal (Some 33); ZVal None; ZNat 5;
   ZEntries [(Some 2, Some 20); (Some 3, Some 33); (Some 4, Some 40); (Some 7, Some 70); (Some 9, Some 90)]]%Z.
Proof. vm_compute. reflexivity. Qed.
Definition rok {A} (d : A) (r : res A) : A := match r with Ok a => a | _ => d end.
Definition tree3 : rbtree Z Z := fst (rok (RBTreeNew, []) (rb_run zcmp RBTreeNew [OPut 1 1; OPut 2 2; OPut 3 3]%Z)).
(** three entries are copied as two *)
Example copy3_loses :
  bind (RBTreeCopy zcmp tree3 (fun _ _ => true)) (@RBTreeIterate Z Z) = Ok [(Some 1, Some 1); (Some 2, Some 2)]%Z.
Proof. vm_compute. reflexivity. Qed.

Print Assumptions C10_rbtree_is_ordered_map.
Print Assumptions C11_height_is_logarithmic.
Print Assumptions C11_equal_black_counts.
Print Assumptions C11_no_red_red.
Print Assumptions C11_verify_tree_passes.
Print Assumptions C12_copy_partial.
Print Assumptions C12_copy_odd_refuted.
Print Assumptions C12_copy_empty_refuted.
Print Assumptions C56_rbtree_destroys_once_partial.
Print Assumptions C56_clear_destroys_null_refuted.
Print Assumptions C57_equal_iff_same_entries.
