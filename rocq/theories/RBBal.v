(** Balance, VerifyTree_, histories and RBTreeCopy. *)
From Verif Require Import Prelude PreludeFacts RBModel RBSpec RBHeap RBInv RBPut RBSearch RBIter RBRemFix RBRemove.
From Coq Require Import Sorting.Sorted.
Set Implicit Arguments.

Section B.
Variables K V : Type.
Notation heap := (heap K V).
Notation atree := (atree K V).
Notation ctx := (ctx K V).
Notation rbtree := (rbtree K V).
Notation L := (@L K V).

(** *** height *)
Fixpoint depth (t : atree) : nat :=
  match t with RBHeap.L => 0 | T _ _ _ _ l r => S (Nat.max (depth l) (depth r)) end.
Lemma rbt_depth t c n : rbt t c n -> depth t <= 2 * n + (if c then 1 else 0) /\ 2 ^ n <= length (flata t) + 1.
Proof.
  induction 1 as [|a k v l r n Hl [IHl1 IHl2] Hr [IHr1 IHr2]|a k v l r cl cr n Hl [IHl1 IHl2] Hr [IHr1 IHr2]].
  - simpl. lia.
  - cbn [depth flata]. rewrite app_length. cbn [length]. split; [lia|]. lia.
  - cbn [depth flata]. rewrite app_length. cbn [length]. split; [destruct cl, cr; lia|]. simpl Nat.pow. lia.
Qed.
Lemma rbt_log t N : rbt t false N -> depth t <= 2 * Nat.log2 (length (flata t) + 1).
Proof.
  intros H. apply rbt_depth in H. destruct H as [H1 H2].
  assert (N <= Nat.log2 (length (flata t) + 1)).
  { rewrite <- (Nat.log2_pow2 N) by lia. apply Nat.log2_le_mono. auto. }
  lia.
Qed.

(** *** VerifyTree_ passes *)
Lemma VerifyNode_spec fuel : forall (h : heap) rt c t cc n bc pb, rep h rt (plug c t) -> rbt t cc n -> depth t < fuel ->
  (0 <= bc)%Z -> (pb = -1 \/ pb = bc + Z.of_nat n + 1)%Z ->
  VerifyNode fuel h (ad t) bc pb = Ok (bc + Z.of_nat n + 1)%Z.
Proof.
  induction fuel as [|fuel IH]; intros h rt c t cc n bc pb R B Hf Hbc Hpb; [lia|]. cbn [VerifyNode].
  destruct t as [|a c0 k v l r].
  - inversion B; subst. destruct (rep_nil R) as [p Hp]. unfold nilok in Hp. cbn [ad]. unfold getn at 1. rewrite Hp.
    cbn [bind nred negb massert]. rewrite Nat.eqb_refl.
    destruct Hpb as [-> | ->]; [rewrite Z.eqb_refl; f_equal; lia|].
    destruct (Z.eqb_spec (bc + Z.of_nat 0 + 1) (-1)); [lia|].
    replace (bc + 1 =? bc + Z.of_nat 0 + 1)%Z with true by (symmetry; apply Z.eqb_eq; lia). auto.
  - cbn [ad]. rewrite (rep_read _ _ _ _ _ _ _ R). cbn [bind nred nleft nright].
    destruct (rep_neq_nil _ _ _ _ _ _ _ R) as [Na _]. apply Nat.eqb_neq in Na.
    simpl in Hf.
    inversion B as [|? ? ? ? ? n0 Bl Br|? ? ? ? ? cl cr n0 Bl Br]; subst.
    + rewrite (@rep_red K V h rt (FL a true k v r :: c) l R), (rbt_color Bl). cbn [bind negb massert].
      rewrite (@rep_red K V h rt (FR a true k v l :: c) r R), (rbt_color Br). cbn [bind negb massert].
      rewrite Na.
      rewrite (IH h rt (FL a true k v r :: c) l false n); auto; [|lia]. cbn [bind].
      rewrite (IH h rt (FR a true k v l :: c) r false n); auto; lia.
    + cbn [bind negb massert]. rewrite Na.
      rewrite (IH h rt (FL a false k v r :: c) l cl n0); auto; [|lia|lia|lia]. cbn [bind].
      rewrite (IH h rt (FR a false k v l :: c) r cr n0); auto; try lia. f_equal. lia.
Qed.
Lemma depth_le (t : atree) : depth t <= length (flata t).
Proof. induction t; simpl; auto. rewrite app_length. simpl. lia. Qed.

Variable cmp : K -> K -> Z.
Lemma VerifyTree_ok (t : rbtree) a : inv cmp t a -> VerifyTree t = Ok tt.
Proof.
  intros I. pose proof (i_rep I) as R. unfold VerifyTree. rewrite (rep_root R). cbn [bind nred nkey nval nleft rootn negb massert].
  destruct (rep_nil R) as [p Hp]. unfold nilok in Hp. unfold getn at 1. rewrite Hp. cbn [bind nred nkey nval negb massert].
  destruct (i_rb I) as [N HN].
  rewrite (@VerifyNode_spec (S (S (rsize t))) (rheap t) (rroot t) [] a false N 0 (-1) R HN); auto; try lia.
  rewrite (i_size I). pose proof (depth_le a). lia.
Qed.

(** pointer paths *)
Fixpoint walk (h : heap) (a : addr) (dirs : list bool) : option addr :=
  match dirs with
  | [] => Some a
  | d :: ds => match h a with
               | Some n => if a =? nil then None else walk h (if d : bool then nright n else nleft n) ds
               | None => None
               end
  end.
Lemma walk_depth h dirs : forall p t x, treeh h p t -> walk h (ad t) dirs = Some x -> x <> nil -> cnt nil t = 0 ->
  length dirs + 1 <= depth t.
Proof.
  induction dirs as [|d ds IH]; intros p t x H W N Z.
  - destruct t; simpl in *; [congruence|lia].
  - simpl in W. destruct t as [|a c k v l r]; cbn [ad] in W.
    + rewrite Nat.eqb_refl in W. destruct (h nil); discriminate.
    + simpl in H. destruct H as (H1 & H2 & H3). rewrite H1 in W. simpl in W, Z.
      destruct (a =? nil); [discriminate|]. simpl. destruct d.
      * apply IH with (p := a) in W; auto; [lia|lia].
      * apply IH with (p := a) in W; auto; [lia|lia].
Qed.

(** *** histories *)
Hypothesis CO : cmp_ok cmp.
Lemma dkeys_app l1 l2 : dkeys (K:=K) (V:=V) (l1 ++ l2) = dkeys l1 ++ dkeys l2.
Proof. apply flat_map_app. Qed.
Lemma dvals_app l1 l2 : dvals (K:=K) (V:=V) (l1 ++ l2) = dvals l1 ++ dvals l2.
Proof. apply flat_map_app. Qed.
Lemma evs_keys l : dkeys (evs_of l) = map fst l /\ dvals (evs_of l) = map (@snd K V) l.
Proof.
  induction l as [|[k v] l [IH1 IH2]]; simpl; auto. unfold evs_of in *. simpl.
  unfold dkeys, dvals in *. simpl. rewrite IH1, IH2. auto.
Qed.

Definition logok (t : rbtree) (d0 : list (K * V)) : Prop :=
  Permutation (dkeys (rlog t)) (map fst d0) /\ Permutation (dvals (rlog t)) (map snd d0).

Lemma step_refines t a o m v d d0 : inv cmp t a -> logok t d0 -> rspec_step cmp (kvs (flata a)) o = (m, v, d) ->
  exists t' a', rb_step cmp t o = Ok (t', v) /\ inv cmp t' a' /\ kvs (flata a') = m /\ logok t' (d0 ++ d).
Proof.
  intros I [LK LV] E. destruct o as [k v0|k| |k| |]; simpl in E; inversion E; subst; clear E; cbn [rb_step].
  - destruct (RBTreePut_spec CO k v0 I) as (t' & a' & E1 & I' & F & LG). rewrite E1. cbn [bind].
    exists t', a'. split; auto. split; auto. split; auto.
    destruct (evs_keys (shits cmp (kvs (flata a)) k)) as [Q1 Q2].
    unfold logok. rewrite LG, dkeys_app, dvals_app, !map_app, Q1, Q2, LK, LV. auto.
  - destruct (RBTreeRemove_spec CO k I) as (t' & a' & E1 & I' & F & LG). rewrite E1. cbn [bind].
    exists t', a'. split; auto. split; auto. split; auto.
    destruct (evs_keys (shits cmp (kvs (flata a)) k)) as [Q1 Q2].
    unfold logok. rewrite LG, dkeys_app, dvals_app, !map_app, Q1, Q2, LK, LV. auto.
  - destruct (RBTreeClear_spec I) as (t' & E1 & I' & LG). rewrite E1. cbn [bind].
    exists t', L. split; auto. split; auto. split; auto.
    destruct (post_keys a) as [Q1 Q2].
    unfold logok. rewrite LG, !dkeys_app, !dvals_app, !map_app, Q1, Q2, LK, LV. simpl. rewrite !app_nil_r. auto.
  - rewrite (RBTreeGet_spec CO k I). cbn [bind]. exists t, a. rewrite app_nil_r. split; auto. split; auto. split; auto. split; auto.
  - unfold RBTreeSize. exists t, a. rewrite app_nil_r. rewrite (i_size I), <- (kvs_length (flata a)). split; auto. split; auto. split; auto. split; auto.
  - rewrite (RBTreeIterate_spec I). cbn [bind]. exists t, a. rewrite app_nil_r. split; auto. split; auto. split; auto. split; auto.
Qed.

Lemma run_refines : forall ops t a d0 m vs ds, inv cmp t a -> logok t d0 ->
  rspec_run cmp (kvs (flata a)) ops = (m, vs, ds) ->
  exists t' a', rb_run cmp t ops = Ok (t', vs) /\ inv cmp t' a' /\ kvs (flata a') = m /\ logok t' (d0 ++ ds).
Proof.
  induction ops as [|o ops IH]; intros t a d0 m vs ds I LO E; cbn [rspec_run] in E; cbn [rb_run].
  - inversion E; subst. exists t, a. rewrite app_nil_r. auto.
  - destruct (rspec_step cmp (kvs (flata a)) o) as [[m1 v] d] eqn:E1.
    destruct (rspec_run cmp m1 ops) as [[m2 vs2] ds2] eqn:E2. inversion E; subst.
    destruct (step_refines o I LO E1) as (t1 & a1 & S1 & I1 & F1 & L1). rewrite S1. cbn [bind].
    rewrite <- F1 in E2. destruct (IH t1 a1 (d0 ++ d) _ _ _ I1 L1 E2) as (t2 & a2 & S2 & I2 & F2 & L2).
    rewrite S2. cbn [bind]. exists t2, a2. rewrite app_assoc. auto.
Qed.

Definition reach (t : rbtree) (ops : list (rop K V)) (outs : list (rout K V)) : Prop := rb_run cmp RBTreeNew ops = Ok (t, outs).
Lemma run_new ops : let '(m, vs, ds) := rspec_run cmp [] ops in
  exists t a, rb_run cmp RBTreeNew ops = Ok (t, vs) /\ inv cmp t a /\ kvs (flata a) = m /\ logok t ds.
Proof.
  destruct (rspec_run cmp [] ops) as [[m vs] ds] eqn:E.
  destruct (@run_refines ops (@RBTreeNew K V) L [] m vs ds) as (t & a & H); auto.
  - apply inv_new.
  - split; simpl; auto.
  - exists t, a. auto.
Qed.

(** *** RBTreeCopy *)
Variable filt : option K -> option V -> bool.
Definition acc (e : addr * K * V) : bool := filt (Some (snd (fst e))) (Some (snd e)).

Lemma aset_pad (l : list addr) x n : length l < n -> aset (map Some l ++ repeat None (n - length l)) (length l) x
  = Ok (map Some (l ++ [x]) ++ repeat None (n - length (l ++ [x]))).
Proof.
  intros H. unfold aset. rewrite app_length, map_length, repeat_length.
  replace (length l <? length l + (n - length l)) with true by (symmetry; apply Nat.ltb_lt; lia).
  f_equal. rewrite map_app, app_length. simpl.
  replace (n - length l) with (S (n - (length l + 1))) by lia. simpl.
  assert (forall (p : list (option addr)) q y, upd (p ++ q) (length p) y = p ++ upd q 0 y) as U.
  { induction p; simpl; intros; auto. f_equal. auto. }
  specialize (U (map Some l) (None :: repeat None (n - (length l + 1))) (Some x)). rewrite map_length in U. rewrite U.
  simpl. rewrite <- app_assoc. auto.
Qed.

Lemma copy_collect_spec (t : rbtree) a : inv cmp t a -> forall A B P fuel, flata a = B ++ A -> length A < fuel ->
  length P <= length B ->
  copy_collect fuel t filt (hda A) (map Some P ++ repeat None (rsize t - length P)) (length P) =
  let Q := P ++ map (@eaddr K V) (filter acc A) in
  Ok (map Some Q ++ repeat None (rsize t - length Q), length Q).
Proof.
  intros I. induction A as [|e A IH]; intros B P fuel E Hf HP; (destruct fuel as [|fuel]; [simpl in Hf; lia|]); cbn [copy_collect].
  - cbn [hda filter map]. rewrite Nat.eqb_refl. cbn zeta. rewrite app_nil_r. auto.
  - destruct (flata_focus a B e A E (rep_cnt (i_rep I))) as (c & c0 & l & r & F1 & F2 & F3).
    cbn [hda]. pose proof (i_rep I) as R. rewrite F1 in R.
    destruct (rep_neq_nil _ _ _ _ _ _ _ R) as [Nn _]. apply Nat.eqb_neq in Nn. rewrite Nn.
    rewrite (rep_read _ _ _ _ _ _ _ R). cbn [bind nkey nval].
    change (filt (Some (snd (fst e))) (Some (snd e))) with (acc e). cbn [filter].
    pose proof (i_size I) as Hs. rewrite E, app_length in Hs. simpl in Hs, Hf.
    assert (Next_ t (rheap t) (eaddr e) = Ok (hda A)) as EN.
    { erewrite Next_spec; [|exact (i_rep I)|exact F1|rewrite (i_size I); auto]. rewrite F3. auto. }
    destruct (acc e).
    + rewrite aset_pad by lia. cbn [bind]. rewrite EN. cbn [bind].
      replace (S (length P)) with (length (P ++ [eaddr e])) by (rewrite app_length; simpl; lia).
      rewrite (IH (B ++ [e]) (P ++ [eaddr e]) fuel).
      * cbn [map]. rewrite <- app_assoc. auto.
      * rewrite E, <- app_assoc. auto.
      * lia.
      * rewrite !app_length. simpl. lia.
    + cbn [bind]. rewrite EN. cbn [bind].
      rewrite (IH (B ++ [e]) P fuel); auto.
      * rewrite E, <- app_assoc. auto.
      * lia.
      * rewrite app_length. simpl. lia.
Qed.

Definition holds (copy : rbtree) (m : list (K * V)) : Prop := exists a, inv cmp copy a /\ kvs (flata a) = m.

Lemma put_node_spec (t : rbtree) a copy m B e A : inv cmp t a -> flata a = B ++ e :: A -> holds copy m ->
  exists copy', put_node cmp t copy (eaddr e) = Ok copy' /\ holds copy' (sput cmp m (snd (fst e)) (snd e)).
Proof.
  intros I E (ac & Ic & Fc). unfold put_node.
  destruct (flata_focus a B e A E (rep_cnt (i_rep I))) as (c & c0 & l & r & F1 & F2 & F3).
  pose proof (i_rep I) as R. rewrite F1 in R. rewrite (rep_read _ _ _ _ _ _ _ R). cbn [bind nkey nval].
  destruct (RBTreePut_spec CO (snd (fst e)) (snd e) Ic) as (c' & a' & E1 & I' & F & _). rewrite E1. cbn [bind].
  exists c'. split; auto. exists a'. rewrite F, Fc. auto.
Qed.

Lemma sput_first M k (v : V) : sorted cmp ((k, v) :: M) -> sput cmp M k v = (k, v) :: M.
Proof.
  intros S. inversion S as [|? ? S1 S2]; subst. rewrite Forall_forall in S2.
  rewrite <- (app_nil_l M) at 1. rewrite sput_miss; auto. intros e [].
Qed.
Lemma sput_last M k (v : V) : sorted cmp (M ++ [(k, v)]) -> sput cmp M k v = M ++ [(k, v)].
Proof.
  intros S. apply sorted_app in S. destruct S as (S1 & S2 & S3).
  rewrite <- (app_nil_r M) at 1. rewrite sput_miss; auto.
  - intros e He. apply (cmp_gt CO). apply (S3 e (k, v)); simpl; auto.
  - intros e [].
Qed.
Lemma sput_again k (v : V) : sput cmp [(k, v)] k v = [(k, v)].
Proof. apply (@sput_hit K V cmp [] [] k) with (v' := v); simpl; try tauto. apply (cmp_refl CO). Qed.

Definition ekv (e : addr * K * V) : K * V := (snd (fst e), snd e).
Lemma sorted_sub (P M Q : list (K * V)) : sorted cmp (P ++ M ++ Q) -> sorted cmp M.
Proof. intros S. apply sorted_app in S. destruct S as (_ & S & _). apply sorted_app in S. tauto. Qed.
Lemma sorted_filter f (m : list (K * V)) : sorted cmp m -> sorted cmp (filter f m).
Proof.
  unfold sorted. induction 1 as [|x l S IH F]; simpl; [constructor|]. destruct (f x); auto.
  constructor; auto. rewrite Forall_forall in *. intros y Hy. apply filter_In in Hy. apply F. tauto.
Qed.
Lemma kvs_filter l : kvs (filter acc l) = filter (fun e => filt (Some (fst e)) (Some (snd e))) (kvs l).
Proof. induction l as [|e l IH]; simpl; auto. unfold acc at 1. destruct (filt _ _); simpl; rewrite IH; auto. Qed.

(** middle-out insertion, even part: M is already in the copy *)
Lemma copy_put_spec (t : rbtree) a (W : list (addr * K * V)) cells : inv cmp t a -> asorted cmp W ->
  (forall e, In e W -> In e (flata a)) ->
  (forall i, i < length W -> aget cells i = Ok (nth i (map (@eaddr K V) W) nil)) ->
  forall n i copy half P M Q, W = P ++ M ++ Q -> length P = half - i -> i <= half -> length M = 2 * i ->
  i + n = half -> n <= length Q -> holds copy (kvs M) ->
  exists copy' M' Q', copy_put cmp t copy cells half i n = Ok copy' /\ W = M' ++ Q' /\ length M' = 2 * half /\ holds copy' (kvs M').
Proof.
  intros I SW InW HC. induction n as [|n IH]; intros i copy half P M Q EW HP Hi HM Hn HQ HO; cbn [copy_put].
  - exists copy, M, Q. split; auto. destruct P; [|simpl in HP; lia]. simpl in EW. split; auto. split; auto. lia.
  - destruct Q as [|q Q]; [simpl in HQ; lia|].
    destruct (exists_last (l := P)) as (P' & x & EP). { intros ->. simpl in HP. lia. }
    subst P. rewrite app_length in HP. simpl in HP.
    assert (length W = length P' + 1 + length M + 1 + length Q) as LW by (rewrite EW, !app_length; simpl; lia).
    rewrite HC by lia.
    assert (nth (half + i) (map (@eaddr K V) W) nil = eaddr q) as ->.
    { rewrite EW. replace (half + i) with (length (map (@eaddr K V) ((P' ++ [x]) ++ M)) + 0) by (rewrite map_length, !app_length; simpl; lia).
      rewrite app_assoc, (map_app _ ((P' ++ [x]) ++ M)), app_nth2_plus. auto. }
    cbn [bind].
    assert (In q (flata a)) as Iq by (apply InW; rewrite EW, !in_app_iff; simpl; auto).
    apply in_split in Iq. destruct Iq as (Bq & Aq & Eq_).
    destruct (@put_node_spec t a copy (kvs M) Bq q Aq I Eq_ HO) as (c1 & E1 & H1). rewrite E1. cbn [bind].
    rewrite sput_last in H1.
    2:{ unfold asorted in SW. rewrite EW in SW. replace ((P' ++ [x]) ++ M ++ q :: Q) with ((P' ++ [x]) ++ (M ++ [q]) ++ Q) in SW by (rewrite <- !app_assoc; auto).
        rewrite (kvs_app (P' ++ [x])), (kvs_app (M ++ [q])) in SW. apply sorted_sub in SW. rewrite kvs_app in SW. exact SW. }
    rewrite HC by lia.
    assert (nth (half - i - 1) (map (@eaddr K V) W) nil = eaddr x) as ->.
    { rewrite EW. replace (half - i - 1) with (length (map (@eaddr K V) P') + 0) by (rewrite map_length; lia).
      rewrite <- app_assoc, (map_app _ P'), app_nth2_plus. auto. }
    cbn [bind].
    assert (In x (flata a)) as Ix by (apply InW; rewrite EW, !in_app_iff; simpl; auto).
    apply in_split in Ix. destruct Ix as (Bx & Ax & Ex_).
    destruct (@put_node_spec t a c1 _ Bx x Ax I Ex_ H1) as (c2 & E2 & H2). rewrite E2. cbn [bind].
    rewrite sput_first in H2.
    2:{ unfold asorted in SW. rewrite EW in SW. replace ((P' ++ [x]) ++ M ++ q :: Q) with (P' ++ (x :: M ++ [q]) ++ Q) in SW by (rewrite <- !app_assoc; simpl; rewrite <- app_assoc; auto).
        rewrite (kvs_app P'), (kvs_app (x :: M ++ [q])) in SW. apply sorted_sub in SW. change (kvs (x :: M ++ [q])) with (ekv x :: kvs (M ++ [q])) in SW. rewrite kvs_app in SW. exact SW. }
    apply (IH (S i) c2 half P' (x :: M ++ [q]) Q); try lia.
    + rewrite EW. rewrite <- !app_assoc. simpl. rewrite <- app_assoc. auto.
    + simpl. rewrite app_length. simpl. lia.
    + simpl in HQ. lia.
    + change (kvs (x :: M ++ [q])) with (ekv x :: kvs (M ++ [q])). rewrite kvs_app. exact H2.
Qed.

Lemma copy_spec (t : rbtree) a : inv cmp t a -> flata a <> [] ->
  let W := filter acc (flata a) in
  exists copy, RBTreeCopy cmp t filt = Ok copy /\
    holds copy (if Nat.odd (length W) && (1 <? length W) then removelast (kvs W) else kvs W).
Proof.
  intros I Ne W. unfold RBTreeCopy, RBTreeCopy_noverify. rewrite (iter_new_spec I). cbn [bind].
  assert (match flata a with [] => rroot t | e :: _ => eaddr e end = hda (flata a)) as -> by (destruct (flata a); [congruence|auto]).
  pose proof (@copy_collect_spec t a I (flata a) [] [] (S (S (rsize t))) eq_refl) as CC. simpl length in CC. cbn [map app] in CC.
  rewrite Nat.sub_0_r in CC. rewrite CC; [|rewrite (i_size I); lia|auto]. cbn zeta. cbn [bind]. fold W. clear CC.
  rewrite map_length.
  set (cells := map Some _ ++ _).
  assert (forall i, i < length W -> aget cells i = Ok (nth i (map (@eaddr K V) W) nil)) as HC.
  { intros i Hi. unfold aget, cells. rewrite nth_error_app1 by (rewrite !map_length; auto).
    rewrite nth_error_map. rewrite nth_error_nth' with (d := nil) by (rewrite map_length; auto). auto. }
  assert (asorted cmp W) as SW. { unfold asorted, W. rewrite kvs_filter. apply sorted_filter. apply (i_sorted I). }
  assert (forall e, In e W -> In e (flata a)) as InW by (intros e He; apply filter_In in He; tauto).
  assert (forall copy m, holds copy m -> VerifyTree copy = Ok tt) as VT by (intros copy m (ac & Ic & _); eapply VerifyTree_ok; eauto).
  assert (holds (@RBTreeNew K V) []) as H0 by (exists L; split; [apply inv_new|auto]).
  assert (Hmod : negb (length W mod 2 =? 0) = Nat.odd (length W)).
  { rewrite <- Nat.bit0_mod, Nat.bit0_odd. destruct (Nat.odd (length W)); auto. }
  rewrite Hmod. destruct (Nat.odd (length W)) eqn:EO; cbn [andb].
  - apply Nat.odd_spec in EO. destruct EO as [m Hm].
    assert (length W / 2 = m) as HD by (rewrite Hm; replace (2 * m + 1) with (1 + m * 2) by lia; rewrite Nat.div_add by lia; auto).
    rewrite HD. rewrite HC by lia.
    assert (exists P q Q, W = P ++ q :: Q /\ length P = m) as (P & q & Q & EW & HP).
    { exists (firstn m W). destruct (skipn m W) as [|q Q] eqn:ES.
      - apply (f_equal (@length _)) in ES. rewrite skipn_length in ES. simpl in ES. lia.
      - exists q, Q. rewrite <- ES, firstn_skipn, firstn_length. split; auto. lia. }
    assert (nth m (map (@eaddr K V) W) nil = eaddr q) as ->.
    { rewrite EW, map_app. rewrite <- HP, <- (map_length (@eaddr K V)). rewrite <- (Nat.add_0_r (length (map _ _))). rewrite app_nth2_plus. auto. }
    cbn [bind].
    assert (In q (flata a)) as Iq by (apply InW; rewrite EW, !in_app_iff; simpl; auto).
    pose proof Iq as Iq0. apply in_split in Iq. destruct Iq as (Bq & Aq & Eq_).
    destruct (@put_node_spec t a _ [] Bq q Aq I Eq_ H0) as (c1 & E1 & H1). rewrite E1. cbn [bind].
    change (sput cmp [] (snd (fst q)) (snd q)) with [ekv q] in H1.
    assert ((length W - 1) / 2 = m) as -> by (rewrite Hm; replace (2 * m + 1 - 1) with (m * 2) by lia; apply Nat.div_mul; lia).
    destruct m as [|m].
    + (* a single node *)
      cbn [copy_put bind]. rewrite (VT _ _ H1). cbn [bind].
      destruct P; [|simpl in HP; lia]. simpl in EW. assert (Q = []) as -> by (apply length_zero_iff_nil; rewrite EW in Hm; simpl in Hm; lia).
      exists c1. split; auto. rewrite EW. simpl. exact H1.
    + (* first iteration repeats the middle node *)
      cbn [copy_put]. rewrite HC by lia. rewrite Nat.add_0_r.
      assert (nth (S m) (map (@eaddr K V) W) nil = eaddr q) as ->.
      { rewrite EW, map_app. rewrite <- HP, <- (map_length (@eaddr K V)). rewrite <- (Nat.add_0_r (length (map _ _))). rewrite app_nth2_plus. auto. }
      cbn [bind]. destruct (@put_node_spec t a _ _ Bq q Aq I Eq_ H1) as (c2 & E2 & H2). rewrite E2. cbn [bind].
      unfold ekv in H2. rewrite sput_again in H2.
      destruct (exists_last (l := P)) as (P' & x & EP). { intros ->. simpl in HP. lia. }
      subst P. rewrite app_length in HP. simpl in HP.
      rewrite HC by lia.
      assert (nth (S m - 0 - 1) (map (@eaddr K V) W) nil = eaddr x) as ->.
      { rewrite EW. replace (S m - 0 - 1) with (length (map (@eaddr K V) P') + 0) by (rewrite map_length; lia).
        rewrite <- app_assoc, (map_app _ P'), app_nth2_plus. auto. }
      cbn [bind].
      assert (In x (flata a)) as Ix by (apply InW; rewrite EW, !in_app_iff; simpl; auto).
      apply in_split in Ix. destruct Ix as (Bx & Ax & Ex_).
      destruct (@put_node_spec t a c2 _ Bx x Ax I Ex_ H2) as (c3 & E3 & H3). rewrite E3. cbn [bind].
      rewrite sput_first in H3.
      2:{ unfold asorted in SW. rewrite EW in SW. replace ((P' ++ [x]) ++ q :: Q) with (P' ++ [x; q] ++ Q) in SW by (rewrite <- !app_assoc; simpl; auto).
          rewrite (kvs_app P'), (kvs_app [x; q]) in SW. apply sorted_sub in SW. exact SW. }
      assert (length W = length P' + 2 + length Q) as LW by (rewrite EW, !app_length; simpl; lia).
      destruct (@copy_put_spec t a W cells I SW InW HC m 1 c3 (S m) P' [x; q] Q) as (c4 & M' & Q' & E4 & EW' & HM' & H4); auto; try lia.
      { rewrite EW, <- !app_assoc. auto. }
      rewrite E4. cbn [bind]. rewrite (VT _ _ H4). cbn [bind]. exists c4. split; auto.
      replace (1 <? length W) with true by (symmetry; apply Nat.ltb_lt; lia).
      assert (exists w, Q' = [w]) as [w ->].
      { rewrite EW', app_length in Hm. destruct Q' as [|w [|w2 Q']]; simpl in Hm; [lia|exists w; auto|lia]. }
      rewrite EW', kvs_app. simpl. rewrite removelast_last. auto.
  - assert (exists m, length W = 2 * m) as [m Hm]. { apply Nat.even_spec. rewrite <- Nat.negb_odd, EO. auto. }
    cbn [bind].
    assert (length W / 2 = m) as -> by (rewrite Hm, Nat.mul_comm, Nat.div_mul; lia).
    destruct (@copy_put_spec t a W cells I SW InW HC m 0 (@RBTreeNew K V) m (firstn m W) [] (skipn m W)) as (c4 & M' & Q' & E4 & EW' & HM' & H4); auto; try lia.
    { simpl. rewrite firstn_skipn. auto. }
    { rewrite firstn_length. lia. }
    { rewrite skipn_length. lia. }
    rewrite E4. cbn [bind]. rewrite (VT _ _ H4). cbn [bind]. exists c4. split; auto.
    assert (Q' = []) as ->. { apply length_zero_iff_nil. rewrite EW', app_length in Hm. lia. }
    rewrite app_nil_r in EW'. rewrite EW'. auto.
Qed.
End B.
