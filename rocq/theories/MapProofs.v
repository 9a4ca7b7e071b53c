(** Proofs about the map model. *)
From Verif Require Import Prelude PreludeFacts MiscModel MiscProofs MapModel MapSpec.
Set Implicit Arguments.

Lemma Permutation_filter A (f : A -> bool) l l' : Permutation l l' -> Permutation (filter f l) (filter f l').
Proof.
  induction 1; simpl; auto.
  - destruct (f x); auto.
  - destruct (f x), (f y); auto. constructor.
  - etransitivity; eauto.
Qed.

Lemma existsb_perm A (f : A -> bool) l l' : Permutation l l' -> existsb f l = existsb f l'.
Proof.
  intros H. apply eq_iff_eq_true. rewrite !existsb_exists.
  split; intros (x & Hi & Hf); exists x; split; auto.
  - eapply Permutation_in; eauto.
  - eapply Permutation_in; [symmetry|]; eauto.
Qed.

Section P.
Variables K V : Type.
Variable equal : K -> K -> bool.
Variable hash : K -> N.
Notation kv := (K * V)%type.
Hypothesis EQ : equal_ok equal hash.

Notation hits k := (fun e : kv => equal (fst e) k).

Lemma eqk_comm a b : equal a b = equal b a.
Proof.
  destruct (equal a b) eqn:E1, (equal b a) eqn:E2; auto.
  - apply (eq_sym_k EQ) in E1; congruence.
  - apply (eq_sym_k EQ) in E2; congruence.
Qed.

Lemma eqk_trans_r a b k : equal a k = true -> equal b k = equal b a.
Proof.
  intros H. destruct (equal b a) eqn:E.
  - eapply (eq_trans_k EQ); eauto.
  - destruct (equal b k) eqn:E2; auto. rewrite eqk_comm in H.
    rewrite (eq_trans_k EQ b k a E2 H) in E. discriminate.
Qed.

(** *** uniq *)
Lemma uniq_perm l l' : Permutation l l' -> uniq equal (V:=V) l -> uniq equal l'.
Proof.
  induction 1; intros U; auto.
  - inversion U; subst. constructor; auto. intros y Hy. apply H2.
    eapply Permutation_in; [symmetry|]; eauto.
  - inversion U as [|? ? H1 U1]; subst. inversion U1 as [|? ? H2 U2]; subst.
    constructor.
    + intros z [<-|Hz]; auto. rewrite eqk_comm. apply H1. left; auto.
    + constructor; auto. intros z Hz. apply H1. right; auto.
Qed.

Lemma uniq_app_r l l' : uniq equal (V:=V) (l ++ l') -> uniq equal l'.
Proof. induction l; simpl; auto. inversion 1; auto. Qed.
Lemma uniq_app_l l l' : uniq equal (V:=V) (l ++ l') -> uniq equal l.
Proof. intros H. apply uniq_app_r with l'. eapply uniq_perm; [|eauto]. apply Permutation_app_comm. Qed.

(** every list either has no entry for k, or splits at the first one *)
Lemma split_at_key (c : list kv) k :
  (forall e, In e c -> equal (fst e) k = false) \/
  exists a e b, c = a ++ e :: b /\ (forall x, In x a -> equal (fst x) k = false) /\ equal (fst e) k = true.
Proof.
  induction c as [|e t IH].
  - left. intros ? [].
  - destruct (equal (fst e) k) eqn:E.
    + right. exists [], e, t. repeat split; auto. intros ? [].
    + destruct IH as [IH|(a & e' & b & -> & Ha & He)].
      * left. intros x [<-|Hx]; auto.
      * right. exists (e :: a), e', b. repeat split; auto. intros x [<-|Hx]; auto.
Qed.

Lemma filter_all A (f : A -> bool) l : (forall x, In x l -> f x = true) -> filter f l = l.
Proof. induction l; simpl; intros H; auto. rewrite H by auto. rewrite IHl; auto. Qed.
Lemma filter_none A (f : A -> bool) l : (forall x, In x l -> f x = false) -> filter f l = [].
Proof. induction l; simpl; intros H; auto. rewrite H by auto. apply IHl; auto. Qed.
Lemma existsb_none A (f : A -> bool) l : (forall x, In x l -> f x = false) -> existsb f l = false.
Proof. induction l; simpl; intros H; auto. rewrite H by auto. simpl. auto. Qed.
Lemma find_none' A (f : A -> bool) l : (forall x, In x l -> f x = false) -> find f l = None.
Proof. induction l; simpl; intros H; auto. rewrite H by auto. auto. Qed.

(** specification functions on a map given up to permutation *)
Lemma spec_miss (s : list kv) k : (forall e, In e s -> equal (fst e) k = false) ->
  srest equal s k = s /\ shits equal s k = [] /\ shas equal s k = false /\ sget equal s k = None.
Proof.
  intros H. unfold srest, shits, shas, sget. rewrite filter_all, filter_none, existsb_none, find_none'; auto.
  intros x Hx. rewrite H; auto.
Qed.

Lemma uniq_one (e : kv) rest k : uniq equal (e :: rest) -> equal (fst e) k = true ->
  forall x, In x rest -> equal (fst x) k = false.
Proof. intros U He x Hx. rewrite (eqk_trans_r _ He). inversion U; subst; auto. Qed.

Lemma spec_hit (s : list kv) k e rest :
  uniq equal s -> Permutation s (e :: rest) -> equal (fst e) k = true ->
  Permutation (srest equal s k) rest /\ shits equal s k = [e] /\ shas equal s k = true
  /\ sget equal s k = Some (snd e).
Proof.
  intros U P He. pose proof (uniq_perm P U) as U'.
  pose proof (uniq_one U' He) as Hr.
  assert (shits equal s k = [e]) as Hh.
  { assert (Permutation (shits equal s k) [e]) as Q.
    { unfold shits. rewrite (Permutation_filter _ P). simpl. rewrite He.
      rewrite filter_none; auto. }
    apply Permutation_length_1_inv. symmetry; auto. }
  split; [|split; [auto|split]].
  - unfold srest. rewrite (Permutation_filter _ P). simpl. rewrite He. simpl.
    rewrite filter_all; auto. intros x Hx. rewrite Hr; auto.
  - unfold shas. rewrite (existsb_perm _ P). simpl. rewrite He. auto.
  - unfold sget. destruct (find (hits k) s) as [x|] eqn:F.
    + apply find_some in F. destruct F as [Fi Fe].
      assert (In x (shits equal s k)) as Hx by (apply filter_In; auto).
      rewrite Hh in Hx. destruct Hx as [->|[]]. reflexivity.
    + assert (In e s) as Hi by (eapply Permutation_in; [symmetry; eauto|left; auto]).
      pose proof (find_none _ _ F _ Hi) as Q. simpl in Q. congruence.
Qed.

(** *** array map *)
Record ainv (a : amap K V) (l : list kv) : Prop := {
  ai_vals : exists j, avals a = map Some l ++ j;
  ai_len : length (avals a) = TINY_LIMIT;
  ai_size : asize a = length l
}.

Lemma ainv_new : ainv ArrayMapNew [].
Proof. constructor; auto. exists (repeat None TINY_LIMIT). reflexivity. Qed.

Lemma afind_miss l2 : forall l1 (j : cells kv) k, (forall e, In e l2 -> equal (fst e) k = false) ->
  afind equal (map Some (l1 ++ l2) ++ j) k (length l1) (length l2) = Ok None.
Proof.
  induction l2 as [|e t IH]; intros l1 j k H; simpl; auto.
  rewrite (@aget_rep _ (l1 ++ e :: t) j _ e) by (rewrite app_length; simpl; lia).
  rewrite app_nth2, Nat.sub_diag by lia. cbn [bind nth]. rewrite H by (left; auto).
  specialize (IH (l1 ++ [e]) j k). rewrite <- app_assoc in IH. simpl in IH.
  rewrite app_length in IH. simpl in IH. rewrite Nat.add_1_r in IH. apply IH.
  intros; apply H; right; auto.
Qed.

Lemma afind_hit a : forall l1 e b (j : cells kv) k, (forall e, In e a -> equal (fst e) k = false) ->
  equal (fst e) k = true ->
  afind equal (map Some (l1 ++ a ++ e :: b) ++ j) k (length l1) (length (a ++ e :: b)) =
  Ok (Some (length l1 + length a, e)).
Proof.
  induction a as [|x t IH]; intros l1 e b j k H He; simpl.
  - rewrite (@aget_rep _ (l1 ++ e :: b) j _ e) by (rewrite app_length; simpl; lia).
    rewrite app_nth2, Nat.sub_diag by lia. cbn [bind nth]. rewrite He, Nat.add_0_r. auto.
  - rewrite (@aget_rep _ (l1 ++ x :: t ++ e :: b) j _ x) by (rewrite app_length; simpl; lia).
    rewrite app_nth2, Nat.sub_diag by lia. cbn [bind nth]. rewrite H by (left; auto).
    specialize (IH (l1 ++ [x]) e b j k). rewrite <- app_assoc in IH. simpl in IH.
    rewrite app_length in IH. simpl in IH. rewrite Nat.add_1_r in IH.
    rewrite IH; auto; [f_equal; f_equal; f_equal; lia|]. intros; apply H; right; auto.
Qed.

Lemma amap_insert a l k v : ainv a l -> uniq equal l ->
  (length l = TINY_LIMIT /\ ArrayMapInsert equal a k v = Ok (a, 0, [])) \/
  (exists a' l', ArrayMapInsert equal a k v = Ok (a', 2, []) /\ ainv a' l' /\
     Permutation l' ((k, v) :: l) /\ forall e, In e l -> equal (fst e) k = false) \/
  (exists a' l' e rest, ArrayMapInsert equal a k v = Ok (a', 1, destroy_kv e) /\ ainv a' l' /\
     Permutation l (e :: rest) /\ equal (fst e) k = true /\ Permutation l' ((k, v) :: rest)).
Proof.
  intros [[j Hv] Hl Hs] U. unfold ArrayMapInsert. rewrite Hs.
  destruct (Nat.eqb_spec (length l) TINY_LIMIT) as [E|E]; [left; auto|right].
  rewrite Hv in *. rewrite app_length, map_length in Hl.
  destruct (split_at_key l k) as [M|(p & e & b & -> & Hp & He)].
  - left. pose proof (@afind_miss l [] j k M) as F. simpl in F. rewrite F. cbn [bind].
    destruct j as [|c j]; [simpl in Hl; lia|].
    rewrite aset_rep_end. cbn [bind].
    exists (mkA (map Some (l ++ [(k, v)]) ++ j) (S (length l))), (l ++ [(k, v)]). split; auto. split.
    + constructor; simpl.
      * eexists; reflexivity.
      * rewrite app_length, map_length, app_length. simpl in *. lia.
      * rewrite app_length; simpl; lia.
    + split; auto. symmetry. apply Permutation_cons_append.
  - right. pose proof (@afind_hit p [] e b j k Hp He) as F. simpl in F. rewrite F. cbn [bind].
    rewrite aset_rep by (rewrite app_length; simpl; lia). cbn [bind].
    rewrite upd_app_r, Nat.sub_diag by lia. simpl upd.
    exists (mkA (map Some (p ++ (k, v) :: b) ++ j) (length (p ++ e :: b))), (p ++ (k, v) :: b), e, (p ++ b).
    split; auto. split; [|split; [|split]]; auto.
    + constructor; simpl.
      * eexists; reflexivity.
      * rewrite app_length, map_length, app_length. rewrite app_length in Hl. simpl in *. lia.
      * rewrite !app_length; simpl; lia.
    + symmetry. apply Permutation_middle.
    + symmetry. apply Permutation_middle.
Qed.

Lemma amap_remove a l k : ainv a l -> uniq equal l ->
  (ArrayMapRemove equal a k = Ok (a, false, []) /\ forall e, In e l -> equal (fst e) k = false) \/
  (exists a' l' e, ArrayMapRemove equal a k = Ok (a', true, destroy_kv e) /\ ainv a' l' /\
     Permutation l (e :: l') /\ equal (fst e) k = true).
Proof.
  intros [[j Hv] Hl Hs] U. unfold ArrayMapRemove. rewrite Hs, Hv.
  rewrite Hv in Hl. rewrite app_length, map_length in Hl.
  destruct (split_at_key l k) as [M|(p & e & b & -> & Hp & He)].
  - left. pose proof (@afind_miss l [] j k M) as F. simpl in F. rewrite F. auto.
  - right. pose proof (@afind_hit p [] e b j k Hp He) as F. simpl in F. rewrite F. cbn [bind].
    unfold amove. rewrite !app_length, !map_length, !app_length. simpl length. rewrite app_length in Hl. simpl in Hl.
    replace (length p + S (length b) - length p - 1) with (length b) by lia.
    destruct (Nat.leb_spec (length p + length b) (length p + S (length b) + length j)); [|lia].
    destruct (Nat.leb_spec (length p + 1 + length b) (length p + S (length b) + length j)); [|lia].
    cbn [andb bind].
    assert (firstn (length p) (map Some (p ++ e :: b) ++ j) = map Some p) as E1.
    { rewrite map_app, <- app_assoc, firstn_app_le, firstn_all2 by (rewrite map_length; lia). auto. }
    assert (firstn (length b) (skipn (length p + 1) (map Some (p ++ e :: b) ++ j)) = map Some b) as E2.
    { rewrite map_app, <- app_assoc, skipn_app_ge by (rewrite map_length; lia).
      rewrite map_length. replace (length p + 1 - length p) with 1 by lia. simpl.
      rewrite firstn_app_le, firstn_all2 by (rewrite map_length; lia). auto. }
    assert (exists c, skipn (length p + length b) (map Some (p ++ e :: b) ++ j) = c :: j) as [c E3].
    { exists (nth (length p + length b) (map Some (p ++ e :: b) ++ j) None).
      rewrite (@skipn_cons_nth _ _ _ None) by (rewrite app_length, map_length, app_length; simpl; lia).
      f_equal. rewrite skipn_app_ge by (rewrite map_length, app_length; simpl; lia).
      rewrite map_length, app_length. cbn [length].
      replace (S (length p + length b) - (length p + S (length b))) with 0 by lia. reflexivity. }
    rewrite E1, E2, E3.
    exists (mkA (map Some p ++ map Some b ++ c :: j) (length p + S (length b) - 1)), (p ++ b), e.
    split; [|split; [|split]]; auto.
    + constructor; simpl.
      * exists (c :: j). rewrite map_app, <- app_assoc. auto.
      * rewrite !app_length, !map_length. simpl. lia.
      * rewrite app_length. lia.
    + symmetry. apply Permutation_middle.
Qed.

Lemma find_app_miss (p q : list kv) k : (forall e, In e p -> equal (fst e) k = false) ->
  find (hits k) (p ++ q) = find (hits k) q.
Proof. induction p; simpl; intros H; auto. rewrite H by auto. auto. Qed.

Lemma amap_get a l k : ainv a l ->
  ArrayMapGet equal a k = Ok (find (hits k) l).
Proof.
  intros [[j Hv] Hl Hs]. unfold ArrayMapGet. rewrite Hs, Hv.
  destruct (split_at_key l k) as [M|(p & e & b & -> & Hp & He)].
  - pose proof (@afind_miss l [] j k M) as F. simpl in F. rewrite F. simpl.
    rewrite find_none'; auto.
  - pose proof (@afind_hit p [] e b j k Hp He) as F. simpl in F. rewrite F. simpl.
    rewrite find_app_miss by auto. simpl. rewrite He. auto.
Qed.

Lemma dkeys_app (a b : list (ev K V)) : dkeys (a ++ b) = dkeys a ++ dkeys b.
Proof. apply flat_map_app. Qed.
Lemma dvals_app (a b : list (ev K V)) : dvals (a ++ b) = dvals a ++ dvals b.
Proof. apply flat_map_app. Qed.

(** the events destroy exactly the entries of l *)
Definition destroys (evs : list (ev K V)) (l : list kv) : Prop :=
  Permutation (dkeys evs) (map fst l) /\ Permutation (dvals evs) (map snd l).
Definition destroys_keys (evs : list (ev K V)) (l : list kv) : Prop :=
  Permutation (dkeys evs) (map fst l) /\ dvals evs = [].

Lemma destroys_nil : destroys [] [].
Proof. split; simpl; auto. Qed.
Lemma destroys_one e : destroys (destroy_kv e) [e].
Proof. split; simpl; auto. Qed.
Lemma destroys_app a b l l' : destroys a l -> destroys b l' -> destroys (a ++ b) (l ++ l').
Proof.
  intros [H1 H2] [H3 H4]. split; rewrite ?dkeys_app, ?dvals_app, map_app; apply Permutation_app; auto.
Qed.
Lemma destroysk_app a b l l' : destroys_keys a l -> destroys_keys b l' -> destroys_keys (a ++ b) (l ++ l').
Proof.
  intros [H1 H2] [H3 H4]. split; rewrite ?dkeys_app, ?dvals_app, ?map_app.
  - apply Permutation_app; auto.
  - rewrite H2, H4. auto.
Qed.
Lemma destroys_perm a l l' : Permutation l l' -> destroys a l -> destroys a l'.
Proof. intros P [H1 H2]. split; rewrite <- P; auto. Qed.
Lemma destroysk_perm a l l' : Permutation l l' -> destroys_keys a l -> destroys_keys a l'.
Proof. intros P [H1 H2]. split; auto. rewrite <- P; auto. Qed.

Lemma aclear_spec l2 : forall l1 (j : cells kv), exists evs,
  aclear_loop (map Some (l1 ++ l2) ++ j) (length l1) (length l2) = Ok evs /\ destroys evs l2.
Proof.
  induction l2 as [|e t IH]; intros l1 j; simpl.
  - eexists; split; eauto using destroys_nil.
  - rewrite (@aget_rep _ (l1 ++ e :: t) j _ e) by (rewrite app_length; simpl; lia).
    rewrite app_nth2, Nat.sub_diag by lia. cbn [bind nth].
    destruct (IH (l1 ++ [e]) j) as (evs & E & D). rewrite <- app_assoc in E. simpl in E.
    rewrite app_length in E. simpl in E. rewrite Nat.add_1_r in E. rewrite E. simpl.
    eexists; split; eauto. apply (destroys_app (destroys_one e) D).
Qed.

Lemma asoft_spec l2 : forall l1 (j : cells kv), exists evs,
  asoft_loop (map Some (l1 ++ l2) ++ j) (length l1) (length l2) = Ok evs /\ destroys_keys evs l2.
Proof.
  induction l2 as [|e t IH]; intros l1 j; simpl.
  - eexists; split; eauto. split; auto.
  - rewrite (@aget_rep _ (l1 ++ e :: t) j _ e) by (rewrite app_length; simpl; lia).
    rewrite app_nth2, Nat.sub_diag by lia. cbn [bind nth].
    destruct (IH (l1 ++ [e]) j) as (evs & E & [D1 D2]). rewrite <- app_assoc in E. simpl in E.
    rewrite app_length in E. simpl in E. rewrite Nat.add_1_r in E. rewrite E. simpl.
    eexists; split; eauto. split; simpl; auto.
Qed.

(** *** hash map *)
Definition bucket_of (size : N) (k : K) : nat := N.to_nat (N.land (hash k) (size - 1)).
Definition placed (size : N) (cs : list (list kv)) : Prop :=
  forall i c e, nth_error cs i = Some c -> In e c -> bucket_of size (fst e) = i.

Record hinv (h : hmap K V) (cs : list (list kv)) : Prop := {
  hi_bs : hbuckets h = map Some cs;
  hi_size : exists j, hsize h = (2 ^ j)%N /\ (j <= 30)%N;
  hi_len : length cs = N.to_nat (hsize h);
  hi_placed : placed (hsize h) cs;
  hi_load : hload h = N.of_nat (length (concat cs));
  hi_init : exists j, hinit h = (2 ^ j)%N;
  hi_initle : (hinit h <= hsize h)%N
}.

Lemma pow2_lt_64 j : (j <= 30)%N -> (2 ^ j < 2 ^ 64)%N.
Proof. intros. apply N.pow_lt_mono_r; lia. Qed.

Lemma get_bucket j k : (j <= 31)%N ->
  GetBucket hash (2 ^ j) k = Ok (bucket_of (2 ^ j) k) /\ bucket_of (2 ^ j) k < N.to_nat (2 ^ j).
Proof.
  intros Hj. unfold GetBucket, massert.
  assert ((2 ^ j < 2 ^ 64)%N) by (apply N.pow_lt_mono_r; lia).
  replace (ISPOW2 (2 ^ j)) with true
    by (symmetry; apply ispow2_spec; auto; eauto).
  split; auto. unfold bucket_of.
  replace (2 ^ j - 1)%N with (N.ones j) by (rewrite N.ones_equiv; lia).
  rewrite N.land_ones.
  assert ((hash k mod 2 ^ j < 2 ^ j)%N) by (apply N.mod_lt, N.pow_nonzero; lia). lia.
Qed.

Lemma bucket_equal size a b : equal a b = true -> bucket_of size a = bucket_of size b.
Proof. intros H. unfold bucket_of. rewrite (eq_hash_k EQ _ _ H). auto. Qed.

Definition others (cs : list (list kv)) (b : nat) := concat (firstn b cs) ++ concat (skipn (S b) cs).

Lemma concat_split (cs : list (list kv)) b : b < length cs ->
  Permutation (concat cs) (nth b cs [] ++ others cs b).
Proof.
  intros H. rewrite (@firstn_skipn_split _ cs b []) at 1 by auto.
  rewrite concat_app. simpl. unfold others.
  rewrite !app_assoc. apply Permutation_app_tail. apply Permutation_app_comm.
Qed.

Lemma others_upd (cs : list (list kv)) b c : b < length cs -> others (upd cs b c) b = others cs b.
Proof.
  intros H. unfold others. rewrite (@upd_spec _ cs b c) by auto.
  rewrite firstn_app_le by (rewrite firstn_length; lia).
  rewrite firstn_all2 by (rewrite firstn_length; lia).
  rewrite skipn_app_ge by (rewrite firstn_length; lia).
  rewrite firstn_length. replace (S b - Nat.min b (length cs)) with 1 by lia. simpl. auto.
Qed.

Lemma concat_upd (cs : list (list kv)) b c : b < length cs ->
  Permutation (concat (upd cs b c)) (c ++ others cs b).
Proof.
  intros H. rewrite (@concat_split (upd cs b c) b) by (rewrite length_upd; auto).
  rewrite others_upd by auto. rewrite upd_nth by auto. rewrite Nat.eqb_refl. auto.
Qed.

Lemma others_placed size (cs : list (list kv)) b k : placed size cs -> bucket_of size k = b ->
  forall e, In e (others cs b) -> equal (fst e) k = false.
Proof.
  intros P Hb e He. destruct (equal (fst e) k) eqn:E; auto. exfalso.
  pose proof (bucket_equal size E) as B. rewrite Hb in B.
  unfold others in He. rewrite in_app_iff, !in_concat in He.
  destruct He as [(c & Hc & He)|(c & Hc & He)].
  - apply In_nth_error in Hc. destruct Hc as [i Hi].
    assert (i < length (firstn b cs)) by (apply nth_error_Some; congruence).
    rewrite firstn_length in H.
    assert (nth_error cs i = Some c) as Q.
    { rewrite <- Hi. rewrite <- (firstn_skipn b cs) at 1. rewrite nth_error_app1; auto. rewrite firstn_length; auto. }
    pose proof (P _ _ _ Q He). lia.
  - apply In_nth_error in Hc. destruct Hc as [i Hi].
    assert (nth_error cs (S b + i) = Some c) as Q.
    { destruct (Nat.le_gt_cases (S b) (length cs)).
      - rewrite <- Hi. rewrite <- (firstn_skipn (S b) cs) at 1.
        rewrite nth_error_app2 by (rewrite firstn_length; lia). f_equal.
        rewrite firstn_length. lia.
      - rewrite skipn_all2 in Hi by lia. destruct i; discriminate. }
    pose proof (P _ _ _ Q He). lia.
Qed.

Lemma placed_upd size (cs : list (list kv)) b c : placed size cs -> b < length cs ->
  (forall e, In e c -> bucket_of size (fst e) = b) -> placed size (upd cs b c).
Proof.
  intros P Hb Hc i c' e Hi He. rewrite upd_nth_error in Hi.
  destruct ((b =? i) && (b <? length cs)) eqn:E.
  - apply andb_true_iff in E. destruct E as [E _]. apply Nat.eqb_eq in E. inversion Hi; subst. auto.
  - eapply P; eauto.
Qed.

Lemma placed_nth size (cs : list (list kv)) b e : placed size cs -> b < length cs ->
  In e (nth b cs []) -> bucket_of size (fst e) = b.
Proof. intros P Hb He. eapply P; eauto. apply nth_error_nth'. auto. Qed.

Lemma aset_map A (l : list A) i x : i < length l -> aset (map Some l) i x = Ok (map Some (upd l i x)).
Proof. intros H. rewrite <- (app_nil_r (map Some l)), aset_rep by auto. rewrite app_nil_r. auto. Qed.

Lemma rehash_chain_spec j chain : (j <= 31)%N -> forall cs,
  length cs = N.to_nat (2 ^ j) -> placed (2 ^ j) cs ->
  exists cs', rehash_chain hash (2 ^ j) (map Some cs) chain = Ok (map Some cs') /\
    length cs' = length cs /\ placed (2 ^ j) cs' /\
    Permutation (concat cs') (chain ++ concat cs).
Proof.
  intros Hj. induction chain as [|e t IH]; intros cs Hl P; simpl.
  - eauto.
  - destruct (get_bucket (fst e) Hj) as [Hg Hb]. rewrite Hg. cbn [bind].
    set (b := bucket_of (2 ^ j) (fst e)) in *.
    rewrite (@aget_rep0 _ cs b []) by lia. cbn [bind].
    rewrite aset_map by lia. cbn [bind].
    destruct (IH (upd cs b (e :: nth b cs []))) as (cs' & E & L & P' & Q).
    + rewrite length_upd; auto.
    + apply placed_upd; auto; [lia|]. intros x [<-|Hx]; auto. eapply placed_nth; eauto. lia.
    + exists cs'. rewrite length_upd in L. split; [auto|split; [auto|split; auto]].
      rewrite Q. rewrite (@concat_upd cs b (e :: nth b cs [])) by lia.
      rewrite (@concat_split cs b) by lia. simpl. symmetry. apply Permutation_middle.
Qed.

Lemma rehash_loop_spec j n : (j <= 31)%N -> forall (old cs : list (list kv)) i,
  i + n = length old ->
  length cs = N.to_nat (2 ^ j) -> placed (2 ^ j) cs ->
  exists cs', rehash_loop hash (2 ^ j) (map Some old) (map Some cs) i n = Ok (map Some cs') /\
    length cs' = length cs /\ placed (2 ^ j) cs' /\
    Permutation (concat cs') (concat (skipn i old) ++ concat cs).
Proof.
  intros Hj. induction n as [|n IH]; intros old cs i Hi Hl P; cbn [rehash_loop].
  - exists cs. rewrite skipn_all2 by lia. auto.
  - rewrite (@aget_rep0 _ old i []) by lia. cbn [bind].
    destruct (@rehash_chain_spec j (nth i old []) Hj cs Hl P) as (cs1 & E1 & L1 & P1 & Q1).
    rewrite E1. cbn [bind].
    destruct (IH old cs1 (S i)) as (cs2 & E2 & L2 & P2 & Q2); auto; try lia.
    exists cs2. split; [auto|split; [lia|split; auto]].
    rewrite Q2, Q1. rewrite (@skipn_cons_nth _ old i []) by lia. simpl.
    rewrite !app_assoc. apply Permutation_app_tail. apply Permutation_app_comm.
Qed.

Lemma map_repeat A B (f : A -> B) x n : map f (repeat x n) = repeat (f x) n.
Proof. induction n; simpl; congruence. Qed.
Lemma concat_repeat_nil A n : concat (repeat (@nil A) n) = [].
Proof. induction n; simpl; auto. Qed.

Lemma placed_empty size n : placed size (repeat [] n).
Proof. intros i c e Hi He. apply nth_error_In in Hi. apply repeat_spec in Hi. subst. destruct He. Qed.

Lemma resize_spec h cs j : hinv h cs -> (j <= 30)%N -> (hinit h <= 2 ^ j)%N ->
  exists h' cs', HashMapResize hash h (2 ^ j) = Ok h' /\ hinv h' cs' /\ hsize h' = (2 ^ j)%N /\
    Permutation (concat cs') (concat cs).
Proof.
  intros [Hb [j0 [Hs Hj0]] Hl Hp Hld Hin Hle] Hj Hi. unfold HashMapResize.
  replace (repeat (Some []) (N.to_nat (2 ^ j))) with (map Some (repeat (@nil kv) (N.to_nat (2 ^ j))))
    by apply map_repeat.
  rewrite Hb.
  destruct (@rehash_loop_spec j (N.to_nat (hsize h)) ltac:(lia) cs (repeat [] (N.to_nat (2 ^ j))) 0)
    as (cs' & E & L & P & Q); auto using placed_empty.
  { apply repeat_length. }
  rewrite E. cbn [bind]. rewrite repeat_length in L. simpl skipn in Q.
  rewrite concat_repeat_nil, app_nil_r in Q.
  eexists _, cs'. split; [reflexivity|]. split; [|split; auto].
  constructor; simpl; eauto. rewrite Q. auto.
Qed.

Lemma chain_replace_miss c k v : (forall e : kv, In e c -> equal (fst e) k = false) ->
  chain_replace equal c k v = None.
Proof. induction c; simpl; intros H; auto. rewrite H by auto. rewrite IHc; auto. Qed.
Lemma chain_replace_hit (a : list kv) e b k v : (forall e, In e a -> equal (fst e) k = false) ->
  equal (fst e) k = true -> chain_replace equal (a ++ e :: b) k v = Some (a ++ (k, v) :: b, e).
Proof. induction a; simpl; intros H He; [rewrite He; auto|]. rewrite H by auto. rewrite IHa; auto. Qed.
Lemma chain_remove_miss c k : (forall e : kv, In e c -> equal (fst e) k = false) ->
  chain_remove equal c k = None.
Proof. induction c; simpl; intros H; auto. rewrite H by auto. rewrite IHc; auto. Qed.
Lemma chain_remove_hit (a : list kv) e b k : (forall e, In e a -> equal (fst e) k = false) ->
  equal (fst e) k = true -> chain_remove equal (a ++ e :: b) k = Some (a ++ b, e).
Proof. induction a; simpl; intros H He; [rewrite He; auto|]. rewrite H by auto. rewrite IHa; auto. Qed.

Lemma hmap_insert h cs k v : hinv h cs ->
  (exists h' cs', HashMapInsert equal hash h k v = Ok (h', false, []) /\ hinv h' cs' /\
     Permutation (concat cs') ((k, v) :: concat cs) /\
     forall e, In e (concat cs) -> equal (fst e) k = false) \/
  (exists h' cs' e rest, HashMapInsert equal hash h k v = Ok (h', true, destroy_kv e) /\ hinv h' cs' /\
     Permutation (concat cs) (e :: rest) /\ equal (fst e) k = true /\
     Permutation (concat cs') ((k, v) :: rest)).
Proof.
  intros H. pose proof H as [Hb [j [Hs Hj]] Hl Hp Hld Hin Hle]. unfold HashMapInsert.
  destruct (@get_bucket j k ltac:(lia)) as [Hg Hk]. rewrite Hs in *. rewrite Hg. cbn [bind].
  set (b := bucket_of (2 ^ j) k) in *.
  rewrite Hb. rewrite (@aget_rep0 _ cs b []) by lia. cbn [bind].
  pose proof (@others_placed (2 ^ j) cs b k Hp eq_refl) as Ho.
  assert (b < length cs) as Hbl by lia.
  pose proof (concat_split cs Hbl) as Hc.
  destruct (split_at_key (nth b cs []) k) as [M|(p & e & q & E & Ha & He)].
  - left. rewrite chain_replace_miss by auto. rewrite aset_map by auto. cbn [bind].
    set (cs1 := upd cs b ((k, v) :: nth b cs [])).
    assert (Permutation (concat cs1) ((k, v) :: concat cs)) as Q1.
    { unfold cs1. rewrite concat_upd by auto. rewrite Hc. auto. }
    assert (forall h1, h1 = mkH (map Some cs1) (2 ^ j) (hinit h) (hload h + 1) (hmax h) (hmin h) -> hinv h1 cs1) as I1.
    { intros h1 ->. constructor; simpl; eauto.
      - unfold cs1. rewrite length_upd. auto.
      - unfold cs1. apply placed_upd; auto. intros x [<-|Hx]; auto. eapply placed_nth; eauto.
      - rewrite (Permutation_length Q1). simpl. lia. }
    set (h1 := mkH _ _ _ _ _ _) in *. specialize (I1 h1 eq_refl).
    assert (forall e, In e (concat cs) -> equal (fst e) k = false) as HM.
    { intros e He. apply (Permutation_in _ Hc) in He. apply in_app_iff in He. destruct He; auto. }
    destruct ((hmax h1 <? hload h1) && (hsize h1 <? MAX_HASHMAP_BUCKETS))%N eqn:T.
    + apply andb_true_iff in T. destruct T as [_ T]. apply N.ltb_lt in T. simpl in T.
      assert (N.shiftl (hsize h1) 1 = 2 ^ (j + 1))%N as Esh.
      { simpl. rewrite N.shiftl_mul_pow2. rewrite N.pow_add_r. reflexivity. }
      rewrite Esh.
      assert (j < 30)%N.
      { apply N.nle_gt. intros C. assert (2 ^ 30 <= 2 ^ j)%N by (apply N.pow_le_mono_r; lia).
        unfold MAX_HASHMAP_BUCKETS in T. change (2 ^ 30)%N with 1073741824%N in *. lia. }
      destruct (@resize_spec h1 cs1 (j + 1)%N I1) as (h2 & cs2 & E2 & I2 & S2 & Q2); [lia| |].
      { simpl. rewrite N.pow_add_r. lia. }
      rewrite E2. cbn [bind]. exists h2, cs2. split; auto. split; auto. split; auto.
      rewrite Q2. auto.
    + cbn [bind]. exists h1, cs1. auto.
  - right. rewrite E. rewrite chain_replace_hit by auto. rewrite aset_map by auto. cbn [bind].
    eexists _, (upd cs b (p ++ (k, v) :: q)), e, (p ++ q ++ others cs b). split; [reflexivity|].
    rewrite E in Hc.
    assert (Permutation (concat (upd cs b (p ++ (k, v) :: q))) ((k, v) :: p ++ q ++ others cs b)) as Q1.
    { rewrite concat_upd by auto. rewrite <- app_assoc. simpl. symmetry. apply Permutation_middle. }
    assert (Permutation (concat cs) (e :: p ++ q ++ others cs b)) as Q2.
    { rewrite Hc. rewrite <- app_assoc. simpl. symmetry. apply Permutation_middle. }
    split; [|auto].
    constructor; simpl; eauto.
    + rewrite length_upd. auto.
    + apply placed_upd; auto. intros x Hx. apply in_app_iff in Hx. destruct Hx as [Hx|[<-|Hx]]; auto.
      * eapply placed_nth; eauto. rewrite E. apply in_app_iff; auto.
      * eapply placed_nth; eauto. rewrite E. apply in_app_iff; right; right; auto.
    + rewrite Hld, (Permutation_length Q1), (Permutation_length Q2). reflexivity.
Qed.

Lemma hmap_remove h cs k : hinv h cs ->
  (HashMapRemove equal hash h k = Ok (h, false, []) /\
     forall e, In e (concat cs) -> equal (fst e) k = false) \/
  (exists h' cs' e, HashMapRemove equal hash h k = Ok (h', true, destroy_kv e) /\ hinv h' cs' /\
     Permutation (concat cs) (e :: concat cs') /\ equal (fst e) k = true).
Proof.
  intros H. pose proof H as [Hb [j [Hs Hj]] Hl Hp Hld Hin Hle]. unfold HashMapRemove.
  destruct (@get_bucket j k ltac:(lia)) as [Hg Hk]. rewrite Hs in *. rewrite Hg. cbn [bind].
  set (b := bucket_of (2 ^ j) k) in *.
  rewrite Hb. rewrite (@aget_rep0 _ cs b []) by lia. cbn [bind].
  pose proof (@others_placed (2 ^ j) cs b k Hp eq_refl) as Ho.
  assert (b < length cs) as Hbl by lia.
  pose proof (concat_split cs Hbl) as Hc.
  destruct (split_at_key (nth b cs []) k) as [M|(p & e & q & E & Ha & He)].
  - left. rewrite chain_remove_miss by auto. split; auto.
    intros e He. apply (Permutation_in _ Hc) in He. apply in_app_iff in He. destruct He; auto.
  - right. rewrite E. rewrite chain_remove_hit by auto. rewrite aset_map by auto. cbn [bind].
    rewrite E in Hc.
    set (cs1 := upd cs b (p ++ q)).
    assert (Permutation (concat cs) (e :: concat cs1)) as Q2.
    { rewrite Hc. unfold cs1. rewrite concat_upd by auto. rewrite <- !app_assoc. simpl. symmetry. apply Permutation_middle. }
    set (h1 := mkH _ _ _ _ _ _).
    assert (hinv h1 cs1) as I1.
    { constructor; simpl; eauto.
      - unfold cs1. rewrite length_upd. auto.
      - unfold cs1. apply placed_upd; auto. intros x Hx. eapply placed_nth; eauto. rewrite E.
        apply in_app_iff in Hx. apply in_app_iff. destruct Hx; simpl; auto.
      - rewrite Hld, (Permutation_length Q2). unfold dec64. simpl length.
        destruct (N.eqb_spec (N.of_nat (S (length (concat cs1)))) 0); lia. }
    destruct ((hload h1 <? hmin h1) && (hinit h1 <? hsize h1))%N eqn:T.
    + apply andb_true_iff in T. destruct T as [_ T]. apply N.ltb_lt in T. simpl in T.
      destruct Hin as [i0 Hi0].
      assert (1 <= j)%N as J1.
      { apply N.nlt_ge. intros C. assert (j = 0)%N by lia. subst j. simpl in T.
        rewrite Hi0 in T. assert (2 ^ i0 <> 0)%N by (apply N.pow_nonzero; lia). lia. }
      assert (N.shiftr (hsize h1) 1 = 2 ^ (j - 1))%N as Esh.
      { unfold h1. cbn [hsize]. rewrite N.shiftr_div_pow2. replace j with (j - 1 + 1)%N at 1 by lia.
        rewrite N.pow_add_r. rewrite N.div_mul; auto. discriminate. }
      rewrite Esh.
      destruct (@resize_spec h1 cs1 (j - 1)%N I1) as (h2 & cs2 & E2 & I2 & S2 & P2); [lia| |].
      { simpl. rewrite Hi0 in *. assert (i0 < j)%N by (apply N.pow_lt_mono_r_iff with 2%N; lia).
        apply N.pow_le_mono_r; lia. }
      rewrite E2. cbn [bind]. exists h2, cs2, e. split; auto. split; auto. split; auto.
      rewrite P2. auto.
    + cbn [bind]. exists h1, cs1, e. auto.
Qed.

Lemma hmap_get h cs k : hinv h cs -> uniq equal (concat cs) ->
  HashMapGet equal hash h k = Ok (find (hits k) (concat cs)).
Proof.
  intros H U. pose proof H as [Hb [j [Hs Hj]] Hl Hp Hld Hin Hle]. unfold HashMapGet.
  destruct (@get_bucket j k ltac:(lia)) as [Hg Hk]. rewrite Hs in *. rewrite Hg. cbn [bind].
  set (b := bucket_of (2 ^ j) k) in *.
  rewrite Hb. rewrite (@aget_rep0 _ cs b []) by lia. cbn [bind]. f_equal.
  pose proof (@others_placed (2 ^ j) cs b k Hp eq_refl) as Ho. unfold others in Ho.
  rewrite (@firstn_skipn_split _ cs b []) at 2 by lia. rewrite concat_app. simpl.
  rewrite find_app_miss by (intros; apply Ho, in_app_iff; auto).
  destruct (split_at_key (nth b cs []) k) as [M|(p & e & q & E & Ha & He)].
  - rewrite find_app_miss by auto. rewrite !find_none'; auto. intros; apply Ho, in_app_iff; auto.
  - rewrite E, <- app_assoc. rewrite !find_app_miss by auto. simpl. rewrite He. auto.
Qed.

(** clearing *)
Lemma iter_dec n : forall m, Nat.iter n dec64 (N.of_nat (n + m)) = N.of_nat m.
Proof.
  induction n as [|n IH]; intros m; auto.
  change (Nat.iter (S n) dec64 (N.of_nat (S n + m))) with (dec64 (Nat.iter n dec64 (N.of_nat (S n + m)))).
  replace (S n + m) with (n + S m) by lia. rewrite IH. unfold dec64.
  destruct (N.eqb_spec (N.of_nat (S m)) 0); lia.
Qed.

Lemma hclear_spec (free : list kv -> list (ev K V)) (D : list (ev K V) -> list kv -> Prop) :
  D [] [] -> (forall a b l l', D a l -> D b l' -> D (a ++ b) (l ++ l')) -> (forall c, D (free c) c) ->
  forall n cs i, i + n = length cs ->
  exists evs, hclear_loop free (map Some cs) (N.of_nat (length (concat (skipn i cs)))) i n =
    Ok (map Some (firstn i cs ++ repeat [] n), 0%N, evs) /\ D evs (concat (skipn i cs)).
Proof.
  intros D0 DA DF. induction n as [|n IH]; intros cs i Hi; cbn [hclear_loop].
  - rewrite skipn_all2, firstn_all2 by lia. simpl. rewrite app_nil_r. eexists; split; eauto.
  - rewrite (@aget_rep0 _ cs i []) by lia. cbn [bind]. rewrite aset_map by lia. cbn [bind].
    rewrite (@skipn_cons_nth _ cs i []) by lia. simpl concat. rewrite app_length, iter_dec.
    assert (skipn (S i) (upd cs i []) = skipn (S i) cs) as ES.
    { rewrite upd_spec by lia. rewrite skipn_app_ge by (rewrite firstn_length; lia).
      rewrite firstn_length. replace (S i - Nat.min i (length cs)) with 1 by lia. reflexivity. }
    assert (firstn (S i) (upd cs i []) = firstn i cs ++ [[]]) as EF.
    { rewrite upd_spec by lia. rewrite firstn_app_ge by (rewrite firstn_length; lia).
      rewrite firstn_length. replace (S i - Nat.min i (length cs)) with 1 by lia. reflexivity. }
    destruct (IH (upd cs i []) (S i)) as (evs & E & Dv); [rewrite length_upd; lia|].
    rewrite ES in *. rewrite E. cbn [bind]. rewrite EF, <- app_assoc. simpl.
    eexists; split; eauto.
Qed.

Lemma free_destroys c : destroys (@FreeChain K V c) c.
Proof.
  induction c as [|e t IH]; simpl; auto using destroys_nil.
  eapply destroys_perm; [|apply (destroys_app IH (destroys_one e))].
  symmetry. apply Permutation_cons_append.
Qed.
Lemma freesoft_destroys c : destroys_keys (@FreeChainSoft K V c) c.
Proof.
  induction c as [|e t IH]; simpl; [split; auto|].
  eapply destroysk_perm; [|apply (@destroysk_app _ [DKey V (fst e)] _ [e] IH)].
  - symmetry. apply Permutation_cons_append.
  - split; simpl; auto.
Qed.

Lemma hmap_clear h cs : hinv h cs -> exists h' evs,
  HashMapClear h = Ok (h', evs) /\ hinv h' (repeat [] (length cs)) /\ destroys evs (concat cs).
Proof.
  intros [Hb Hs Hl Hp Hld Hin Hle]. unfold HashMapClear. rewrite Hb, Hld.
  destruct (@hclear_spec (@FreeChain K V) destroys destroys_nil destroys_app free_destroys
              (N.to_nat (hsize h)) cs 0) as (evs & E & D); auto.
  simpl skipn in *. rewrite E. cbn [bind massert N.eqb]. simpl firstn. simpl.
  eexists _, _. split; [reflexivity|]. split; auto.
  rewrite Hl. constructor; simpl; auto.
  - apply repeat_length.
  - apply placed_empty.
  - rewrite concat_repeat_nil. auto.
Qed.

Lemma hmap_soft h cs : hinv h cs -> exists evs,
  HashMapSoftDestroy h = Ok evs /\ destroys_keys evs (concat cs).
Proof.
  intros [Hb Hs Hl Hp Hld Hin Hle]. unfold HashMapSoftDestroy. rewrite Hb, Hld.
  destruct (@hclear_spec (@FreeChainSoft K V) destroys_keys (conj (Permutation_refl _) eq_refl) destroysk_app
              freesoft_destroys (N.to_nat (hsize h)) cs 0) as (evs & E & D); auto.
  simpl skipn in *. rewrite E. cbn [bind]. eauto.
Qed.

(** *** maps *)
Definition minv (m : map_t K V) (l : list kv) : Prop :=
  match m with
  | MArr a => ainv a l
  | MHash h => exists cs, hinv h cs /\ l = concat cs
  end.
Definition rep (m : map_t K V) (s : list kv) : Prop :=
  exists l, minv m l /\ Permutation l s /\ uniq equal s.

Lemma hnew_inv n : (n <= 2 ^ 30)%N -> exists cs, hinv (HashMapNew n) cs /\ concat cs = [].
Proof.
  intros Hn. unfold HashMapNew.
  set (i := N.min (N.max n MIN_HASHMAP_BUCKETS) MAX_HASHMAP_BUCKETS).
  assert (32 <= i <= 2 ^ 30)%N as Hi.
  { unfold i, MIN_HASHMAP_BUCKETS, MAX_HASHMAP_BUCKETS. change (2 ^ 30)%N with 1073741824%N in *. lia. }
  assert (exists j, (if ISPOW2 i then i else UpperPowerOfTwo i) = 2 ^ j /\ j <= 30)%N as (j & E & Hj).
  { destruct (ISPOW2 i) eqn:P.
    - apply ispow2_spec in P; [|change (2 ^ 30)%N with 1073741824%N in *; change (2^64)%N with 18446744073709551616%N; lia].
      destruct P as [j P]. exists j. split; auto. apply N.pow_le_mono_r_iff with 2%N; lia.
    - destruct (@upper_pow2_spec i) as (j & E & _ & L); try lia.
      exists j. split; auto. apply N.pow_le_mono_r_iff with 2%N; [lia|]. apply L. lia. }
  exists (repeat [] (N.to_nat (2 ^ j))). split; [|apply concat_repeat_nil].
  set (sz := if ISPOW2 i then i else UpperPowerOfTwo i) in *.
  constructor; cbn [hbuckets hsize hinit hload].
  - rewrite E. symmetry. apply map_repeat.
  - eauto.
  - rewrite repeat_length, E. auto.
  - apply placed_empty.
  - rewrite concat_repeat_nil. auto.
  - eauto.
  - lia.
Qed.

Lemma convert_spec l2 : forall l1 (j : cells kv) h cs, hinv h cs ->
  uniq equal (l2 ++ concat cs) ->
  exists h' cs', convert_loop equal hash h (map Some (l1 ++ l2) ++ j) (length l1) (length l2) = Ok (h', []) /\
    hinv h' cs' /\ Permutation (concat cs') (l2 ++ concat cs).
Proof.
  induction l2 as [|e t IH]; intros l1 j h cs H U; simpl.
  - eauto.
  - rewrite (@aget_rep _ (l1 ++ e :: t) j _ e) by (rewrite app_length; simpl; lia).
    rewrite app_nth2, Nat.sub_diag by lia. cbn [bind nth].
    simpl in U. inversion U as [|? ? U1 U2]; subst.
    destruct (@hmap_insert h cs (fst e) (snd e) H) as [(h1 & cs1 & E1 & I1 & P1 & M1)|(h1 & cs1 & e1 & r1 & E1 & I1 & P1 & M1 & Q1)].
    + rewrite E1. cbn [bind]. rewrite <- surjective_pairing in P1.
      destruct (IH (l1 ++ [e]) j h1 cs1 I1) as (h2 & cs2 & E2 & I2 & P2).
      { eapply uniq_perm; [|exact U]. rewrite P1. apply Permutation_middle. }
      rewrite <- app_assoc in E2. simpl in E2. rewrite app_length in E2. simpl in E2.
      rewrite Nat.add_1_r in E2. rewrite E2. cbn [bind]. exists h2, cs2. split; auto. split; auto.
      rewrite P2, P1. symmetry. apply Permutation_middle.
    + exfalso. assert (In e1 (concat cs)) as Hi by (eapply Permutation_in; [symmetry; eauto|left; auto]).
      specialize (U1 e1). rewrite M1 in U1. discriminate U1. apply in_app_iff; auto.
Qed.

Lemma rep_new : rep MapNew [].
Proof. exists []. split; [apply ainv_new|]. split; auto. constructor. Qed.

Lemma uniq_insert (s : list kv) k v : uniq equal s -> uniq equal ((k, v) :: srest equal s k).
Proof.
  intros U. constructor; simpl.
  - intros x Hx. unfold srest in Hx. apply filter_In in Hx. destruct Hx as [_ Hx].
    apply negb_true_iff in Hx. auto.
  - unfold srest. clear v. induction U; simpl; [constructor|].
    destruct (negb (equal (fst e) k)); auto. constructor; auto.
    intros x Hx. apply filter_In in Hx. destruct Hx; auto.
Qed.
Lemma uniq_srest (s : list kv) k : uniq equal s -> uniq equal (srest equal s k).
Proof.
  unfold srest. induction 1; simpl; [constructor|].
  destruct (negb (equal (fst e) k)); auto. constructor; auto.
  intros x Hx. apply filter_In in Hx. destruct Hx; auto.
Qed.

Lemma miss_perm (l s : list kv) k : Permutation l s -> (forall e, In e l -> equal (fst e) k = false) ->
  forall e, In e s -> equal (fst e) k = false.
Proof. intros P M e He. apply M. eapply Permutation_in; [symmetry|]; eauto. Qed.

Lemma rep_insert m s k v : rep m s -> exists m' evs,
  MapInsert equal hash m k v = Ok (m', shas equal s k, evs) /\
  rep m' ((k, v) :: srest equal s k) /\ destroys evs (shits equal s k).
Proof.
  intros (l & Hm & P & U). destruct m as [a|h]; simpl in Hm; unfold MapInsert.
  - assert (uniq equal l) as Ul by (eapply uniq_perm; [symmetry|]; eauto).
    destruct (@amap_insert a l k v Hm Ul) as [[Hfull E]|[(a' & l' & E & I & P' & M)|(a' & l' & e & rest & E & I & P1 & He & P2)]];
      rewrite E; cbn [bind Nat.eqb negb].
    + (* converted *)
      unfold ConvertToHashMap. destruct Hm as [[j Hv] _ Hs]. rewrite Hv, Hs.
      destruct (@hnew_inv DEFAULT_HASHMAP_INIT_SIZE) as (cs0 & I0 & C0); [vm_compute; discriminate|].
      destruct (@convert_spec l [] j _ cs0 I0) as (h1 & cs1 & E1 & I1 & P1).
      { rewrite C0, app_nil_r. auto. }
      simpl in E1. rewrite E1. cbn [bind]. rewrite C0, app_nil_r in P1.
      assert (Permutation (concat cs1) s) as P1' by (rewrite P1; auto).
      destruct (@hmap_insert h1 cs1 k v I1) as [(h2 & cs2 & E2 & I2 & P2 & M2)|(h2 & cs2 & e2 & r2 & E2 & I2 & P2 & M2 & Q2)];
        rewrite E2; cbn [bind].
      * destruct (@spec_miss s k) as (R1 & R2 & R3 & _); [eapply miss_perm; eauto|].
        rewrite R1, R2, R3. eexists _, _. split; [reflexivity|]. split; [|apply destroys_nil].
        exists (concat cs2). split; [simpl; eauto|]. split; [rewrite P2, P1'; auto|].
        rewrite <- R1. apply uniq_insert; auto.
      * destruct (@spec_hit s k e2 r2 U) as (R1 & R2 & R3 & _); auto; [rewrite <- P1'; auto|].
        rewrite R2, R3. eexists _, _. split; [reflexivity|]. split; [|apply destroys_one].
        exists (concat cs2). split; [simpl; eauto|]. split; [rewrite Q2, R1; auto|].
        apply uniq_insert; auto.
    + destruct (@spec_miss s k) as (R1 & R2 & R3 & _); [eapply miss_perm; eauto|].
      rewrite R1, R2, R3. eexists _, _. split; [reflexivity|]. split; [|apply destroys_nil].
      exists l'. split; auto. split; [rewrite P', P; auto|]. rewrite <- R1. apply uniq_insert; auto.
    + destruct (@spec_hit s k e rest U) as (R1 & R2 & R3 & _); auto; [rewrite <- P; auto|].
      rewrite R2, R3. eexists _, _. split; [reflexivity|]. split; [|apply destroys_one].
      exists l'. split; auto. split; [rewrite P2, R1; auto|]. apply uniq_insert; auto.
  - destruct Hm as (cs & Hm & ->).
    destruct (@hmap_insert h cs k v Hm) as [(h2 & cs2 & E2 & I2 & P2 & M2)|(h2 & cs2 & e2 & r2 & E2 & I2 & P2 & M2 & Q2)];
      rewrite E2; cbn [bind].
    + destruct (@spec_miss s k) as (R1 & R2 & R3 & _); [eapply miss_perm; eauto|].
      rewrite R1, R2, R3. eexists _, _. split; [reflexivity|]. split; [|apply destroys_nil].
      exists (concat cs2). split; [simpl; eauto|]. split; [rewrite P2, P; auto|].
      rewrite <- R1. apply uniq_insert; auto.
    + destruct (@spec_hit s k e2 r2 U) as (R1 & R2 & R3 & _); auto; [rewrite <- P; auto|].
      rewrite R2, R3. eexists _, _. split; [reflexivity|]. split; [|apply destroys_one].
      exists (concat cs2). split; [simpl; eauto|]. split; [rewrite Q2, R1; auto|].
      apply uniq_insert; auto.
Qed.

Lemma rep_remove m s k : rep m s -> exists m' evs,
  MapRemove equal hash m k = Ok (m', shas equal s k, evs) /\
  rep m' (srest equal s k) /\ destroys evs (shits equal s k).
Proof.
  intros (l & Hm & P & U).
  assert (uniq equal l) as Ul by (eapply uniq_perm; [symmetry|]; eauto).
  destruct m as [a|h]; simpl in Hm; unfold MapRemove.
  - destruct (@amap_remove a l k Hm Ul) as [[E M]|(a' & l' & e & E & I & P1 & He)]; rewrite E; cbn [bind].
    + destruct (@spec_miss s k) as (R1 & R2 & R3 & _); [eapply miss_perm; eauto|].
      rewrite R1, R2, R3. eexists _, _. split; [reflexivity|]. split; [|apply destroys_nil].
      exists l. auto.
    + destruct (@spec_hit s k e l' U) as (R1 & R2 & R3 & _); auto; [rewrite <- P; auto|].
      rewrite R2, R3. eexists _, _. split; [reflexivity|]. split; [|apply destroys_one].
      exists l'. split; auto. split; [symmetry; auto|]. apply uniq_srest; auto.
  - destruct Hm as (cs & Hm & ->).
    destruct (@hmap_remove h cs k Hm) as [[E M]|(h' & cs' & e & E & I & P1 & He)]; rewrite E; cbn [bind].
    + destruct (@spec_miss s k) as (R1 & R2 & R3 & _); [eapply miss_perm; eauto|].
      rewrite R1, R2, R3. eexists _, _. split; [reflexivity|]. split; [|apply destroys_nil].
      exists (concat cs). split; auto. simpl; eauto.
    + destruct (@spec_hit s k e (concat cs') U) as (R1 & R2 & R3 & _); auto; [rewrite <- P; auto|].
      rewrite R2, R3. eexists _, _. split; [reflexivity|]. split; [|apply destroys_one].
      exists (concat cs'). split; [simpl; eauto|]. split; [symmetry; auto|]. apply uniq_srest; auto.
Qed.

Lemma find_perm (l s : list kv) k : Permutation l s -> uniq equal s ->
  find (hits k) l = find (hits k) s.
Proof.
  intros P U. destruct (split_at_key s k) as [M|(a & e & b & E & Ha & He)].
  - rewrite !find_none'; auto. intros e He. eapply M. eapply Permutation_in; eauto.
  - assert (Permutation s (e :: a ++ b)) as Q by (subst; symmetry; apply Permutation_middle).
    assert (find (hits k) s = Some e) as -> by (subst; rewrite find_app_miss by auto; simpl; rewrite He; auto).
    assert (uniq equal l) as Ul by (eapply uniq_perm; [symmetry|]; eauto).
    destruct (split_at_key l k) as [M|(a' & e' & b' & -> & Ha' & He')].
    + rewrite (M e) in He; [discriminate|]. eapply Permutation_in; [symmetry; eauto|].
      subst. apply in_app_iff; right; left; auto.
    + rewrite find_app_miss by auto. simpl. rewrite He'. f_equal.
      assert (In e' (e :: a ++ b)) as [<-|Hi]; auto.
      { eapply Permutation_in; [exact Q|]. eapply Permutation_in; [exact P|]. apply in_app_iff; right; left; auto. }
      pose proof (uniq_perm Q U) as UQ. pose proof (uniq_one UQ He _ Hi). congruence.
Qed.

Lemma rep_getraw m s k : rep m s -> MapGetRaw equal hash m k = Ok (find (hits k) s).
Proof.
  intros (l & Hm & P & U).
  assert (uniq equal l) as Ul by (eapply uniq_perm; [symmetry|]; eauto).
  rewrite <- (find_perm k P U). destruct m as [a|h]; simpl in *.
  - apply amap_get; auto.
  - destruct Hm as (cs & Hm & ->). apply hmap_get; auto.
Qed.

Lemma find_existsb A (f : A -> bool) l : (match find f l with Some _ => true | None => false end) = existsb f l.
Proof. induction l; simpl; auto. destruct (f a); auto. Qed.

Lemma rep_clear m s : rep m s -> exists m' evs, MapClear m = Ok (m', evs) /\ rep m' [] /\ destroys evs s.
Proof.
  intros (l & Hm & P & U). destruct m as [a|h]; simpl in Hm; unfold MapClear.
  - destruct Hm as [[j Hv] Hl Hs]. unfold ArrayMapClear. rewrite Hv, Hs.
    destruct (@aclear_spec l [] j) as (evs & E & D). simpl in E. rewrite E. cbn [bind].
    eexists _, _. split; [reflexivity|]. split.
    + exists []. split; [|split; [auto|constructor]]. constructor; simpl; auto; [|rewrite <- Hv; auto]. eauto.
    + eapply destroys_perm; eauto.
  - destruct Hm as (cs & Hm & ->). destruct (hmap_clear Hm) as (h' & evs & E & I & D).
    rewrite E. cbn [bind]. eexists _, _. split; [reflexivity|]. split.
    + exists []. split; [|split; [auto|constructor]]. simpl. eexists. split; eauto. rewrite concat_repeat_nil. auto.
    + eapply destroys_perm; eauto.
Qed.

Lemma rep_destroy m s : rep m s -> exists evs, MapDestroy m = Ok evs /\ destroys evs s.
Proof.
  intros R. destruct (rep_clear R) as (m' & evs & E & _ & D).
  destruct m as [a|h]; simpl in *.
  - unfold ArrayMapDestroy. destruct (ArrayMapClear a) as [[a' l]| | |]; try discriminate.
    simpl in *. inversion E; subst. eauto.
  - unfold HashMapDestroy. destruct (HashMapClear h) as [[a' l]| | |]; try discriminate.
    simpl in *. inversion E; subst. eauto.
Qed.

Lemma rep_soft m s : rep m s -> exists evs, MapSoftDestroy m = Ok evs /\ destroys_keys evs s.
Proof.
  intros (l & Hm & P & U). destruct m as [a|h]; simpl in Hm; unfold MapSoftDestroy.
  - destruct Hm as [[j Hv] Hl Hs]. unfold ArrayMapSoftDestroy. rewrite Hv, Hs.
    destruct (@asoft_spec l [] j) as (evs & E & D). simpl in E. rewrite E.
    eexists; split; eauto. eapply destroysk_perm; eauto.
  - destruct Hm as (cs & Hm & ->). destruct (hmap_soft Hm) as (evs & E & D).
    rewrite E. eexists; split; eauto. eapply destroysk_perm; eauto.
Qed.

(** iteration *)
Definition remaining (m : map_t K V) (l : list kv) (cs : list (list kv)) (it : miter K V) : list kv :=
  match it with
  | IArr _ _ p => skipn p l
  | IHash i => icur i ++ concat (skipn (S (ibucket i)) cs)
  end.

Lemma hnext_spec fuel : forall h cs it, hinv h cs -> length cs - ibucket it < fuel ->
  match icur it ++ concat (skipn (S (ibucket it)) cs) with
  | [] => HashMapIteratorNext fuel h it = Ok None
  | e :: r => exists it', HashMapIteratorNext fuel h it = Ok (Some (e, it')) /\
      icur it' ++ concat (skipn (S (ibucket it')) cs) = r
  end.
Proof.
  induction fuel as [|f IH]; intros h cs it H Hf; [lia|].
  destruct it as [[|e t] b]; cbn [HashMapIteratorNext icur ibucket] in *.
  - simpl app. pose proof H as [Hb [j [Hs Hj]] Hl Hp Hld Hin Hle].
    destruct (N.leb_spec (hsize h) (N.of_nat (S b))).
    + rewrite skipn_all2 by lia. reflexivity.
    + rewrite Hb. rewrite (@aget_rep0 _ cs (S b) []) by lia. cbn [bind].
      rewrite (@skipn_cons_nth _ cs (S b) []) by lia. cbn [concat].
      apply (IH h cs (mkHI (nth (S b) cs []) (S b)) H). simpl. lia.
  - simpl. eexists; split; reflexivity.
Qed.

Definition miter_ok (m : map_t K V) (l : list kv) (it : miter K V) (rem : list kv) : Prop :=
  match m, it with
  | MArr a, IArr _ _ p => ainv a l /\ rem = skipn p l
  | MHash h, IHash i => exists cs, hinv h cs /\ l = concat cs /\ rem = icur i ++ concat (skipn (S (ibucket i)) cs)
  | _, _ => False
  end.

Lemma mnext_spec m l it rem : miter_ok m l it rem ->
  match rem with
  | [] => MapIteratorNext m it = Ok None
  | e :: r => exists it', MapIteratorNext m it = Ok (Some (e, it')) /\ miter_ok m l it' r
  end.
Proof.
  destruct m as [a|h], it as [p|i]; unfold miter_ok, MapIteratorNext; try tauto.
  - intros [[[j Hv] Hl Hs] ->]. rewrite Hs. destruct (Nat.leb_spec (length l) p).
    + rewrite skipn_all2 by lia. auto.
    + destruct l as [|d l0] eqn:El; [simpl in *; lia|]. rewrite <- El in *.
      rewrite Hv. rewrite (@aget_rep _ l j p d) by lia.
      rewrite (@skipn_cons_nth _ l p d) by lia. cbn [bind].
      exists (IArr K V (S p)). split; auto. split; [|reflexivity].
      constructor; eauto.
  - intros (cs & H & -> & ->).
    pose proof (@hnext_spec (S (N.to_nat (hsize h))) h cs i H) as Q.
    destruct (icur i ++ concat (skipn (S (ibucket i)) cs)) as [|e r].
    + rewrite Q; auto. destruct H. lia.
    + destruct Q as (it' & E & R); [destruct H; lia|]. rewrite E. simpl.
      exists (IHash it'). split; auto. exists cs. auto.
Qed.

Lemma minit_spec m l : minv m l -> exists it, MapIteratorInit m = Ok it /\ miter_ok m l it l.
Proof.
  destruct m as [a|h]; simpl.
  - intros H. eexists. split; eauto. simpl. auto.
  - intros (cs & H & ->). unfold HashMapIteratorInit. pose proof H as [Hb [j [Hs Hj]] Hl Hp Hld Hin Hle].
    assert (0 < length cs) as Hlc. { assert (hsize h <> 0)%N; [|lia]. rewrite Hs. assert (2 ^ j <> 0)%N by (apply N.pow_nonzero; lia). lia. }
    rewrite Hb. rewrite (@aget_rep0 _ cs 0 []) by lia. cbn [bind].
    eexists; split; [reflexivity|]. simpl. exists cs. split; [auto|split; [auto|]].
    clear - Hlc. destruct cs; [inversion Hlc|]. reflexivity.
Qed.

Lemma iter_loop_spec rem : forall fuel m l it, miter_ok m l it rem -> length rem < fuel ->
  iter_loop fuel m it = Ok rem.
Proof.
  induction rem as [|e r IH]; intros [|f] m l it H Hf; simpl in Hf; try lia; cbn [iter_loop];
    pose proof (@mnext_spec _ _ _ _ H) as Q; simpl in Q.
  - rewrite Q. auto.
  - destruct Q as (it' & E & H'). rewrite E. cbn [bind]. erewrite IH; eauto. lia.
Qed.

Lemma entry_count_ok m l : minv m l -> entry_count m = length l.
Proof.
  destruct m as [a|h]; simpl.
  - intros [_ _ H]. auto.
  - intros (cs & H & ->). destruct H. rewrite hi_bs0, map_map, map_id. auto.
Qed.

Lemma iterate_spec m l : minv m l -> MapIterate m = Ok l.
Proof.
  intros H. unfold MapIterate. destruct (@minit_spec _ _ H) as (it & E & I). rewrite E. cbn [bind].
  eapply iter_loop_spec; eauto. rewrite (@entry_count_ok _ _ H). lia.
Qed.

Lemma size_spec m l : minv m l -> MapSize m = Ok (length l).
Proof.
  intros H. pose proof (@iterate_spec _ _ H) as E. destruct m as [a|h]; unfold MapSize.
  - destruct H as [_ _ H]. congruence.
  - rewrite E. auto.
Qed.

Lemma step_refines m s o : rep m s -> exists m' out evs,
  mapi_step equal hash m o = Ok (m', out, evs) /\
  let '(s', out', d) := mspec_step equal s o in
  rep m' s' /\ mout_ok out out' /\ destroys evs d.
Proof.
  intros R. destruct o as [k v|k| |k|k| |]; cbn [mapi_step mspec_step].
  - destruct (rep_insert k v R) as (m' & evs & E & R' & D). rewrite E. cbn [bind].
    eexists _, _, _. split; [reflexivity|]. simpl; auto.
  - destruct (rep_remove k R) as (m' & evs & E & R' & D). rewrite E. cbn [bind].
    eexists _, _, _. split; [reflexivity|]. simpl; auto.
  - destruct (rep_clear R) as (m' & evs & E & R' & D). rewrite E. cbn [bind].
    eexists _, _, _. split; [reflexivity|]. simpl; auto.
  - unfold MapGet. rewrite (rep_getraw k R). cbn [bind].
    eexists _, _, _. split; [reflexivity|]. split; auto. split; [reflexivity|apply destroys_nil].
  - unfold MapHasKey. rewrite (rep_getraw k R). cbn [bind]. rewrite find_existsb.
    eexists _, _, _. split; [reflexivity|]. split; auto. split; [reflexivity|apply destroys_nil].
  - pose proof R as (l & Hm & P & U). rewrite (@size_spec _ _ Hm). cbn [bind].
    eexists _, _, _. split; [reflexivity|]. split; auto. split; [|apply destroys_nil].
    simpl. rewrite (Permutation_length P). auto.
  - pose proof R as (l & Hm & P & U). rewrite (@iterate_spec _ _ Hm). cbn [bind].
    eexists _, _, _. split; [reflexivity|]. split; auto. split; [exact P|apply destroys_nil].
Qed.

Lemma run_refines ops : forall m s, rep m s -> exists m' outs evs,
  mapi_run equal hash m ops = Ok (m', outs, evs) /\
  let '(s', outs', d) := mspec_run equal s ops in
  rep m' s' /\ Forall2 (@mout_ok K V) outs outs' /\ destroys evs d.
Proof.
  induction ops as [|o os IH]; intros m s R; cbn [mapi_run mspec_run].
  - eexists _, _, _. split; [reflexivity|]. split; auto. split; auto using destroys_nil.
  - destruct (step_refines o R) as (m1 & out & evs & E & H). rewrite E. cbn [bind].
    destruct (mspec_step equal s o) as [[s1 out1] d1]. destruct H as (R1 & O1 & D1).
    destruct (IH m1 s1 R1) as (m2 & outs & evs2 & E2 & H2). rewrite E2. cbn [bind].
    destruct (mspec_run equal s1 os) as [[s2 outs2] d2]. destruct H2 as (R2 & O2 & D2).
    eexists _, _, _. split; [reflexivity|]. split; auto. split; auto.
    apply destroys_app; auto.
Qed.

(** the specification neither loses nor duplicates an inserted entry *)
Lemma filter_partition_perm A (f : A -> bool) (l : list A) :
  Permutation (filter f l ++ filter (fun x => negb (f x)) l) l.
Proof.
  induction l as [|x t IH]; simpl; auto. destruct (f x); simpl; auto.
  rewrite <- IH at 3. symmetry. apply Permutation_middle.
Qed.

Definition ins_entries (ops : list (mop K V)) : list kv :=
  flat_map (fun o => match o with MOInsert k v => [(k, v)] | _ => [] end) ops.

Lemma spec_conserves ops : forall s, let '(s', _, d) := mspec_run equal s ops in
  Permutation (d ++ s') (ins_entries ops ++ s).
Proof.
  induction ops as [|o os IH]; intros s; cbn [mspec_run]; auto.
  destruct (mspec_step equal s o) as [[s1 o1] d1] eqn:E1. specialize (IH s1).
  destruct (mspec_run equal s1 os) as [[s2 o2] d2]. rewrite <- app_assoc, IH.
  unfold ins_entries at 2. cbn [flat_map]. fold (ins_entries os).
  destruct o; simpl in E1; inversion E1; subst; simpl; auto.
  - rewrite <- (Permutation_middle (ins_entries os) _ (k, v)).
    rewrite <- Permutation_middle. apply perm_skip.
    rewrite !app_assoc. rewrite (Permutation_app_comm _ (ins_entries os)). rewrite <- app_assoc.
    apply Permutation_app_head. apply filter_partition_perm.
  - rewrite !app_assoc. rewrite (Permutation_app_comm _ (ins_entries os)). rewrite <- app_assoc.
    apply Permutation_app_head. apply filter_partition_perm.
  - rewrite app_nil_r. apply Permutation_app_comm.
Qed.

Lemma ins_keys_entries ops : ins_keys ops = map fst (ins_entries ops).
Proof. induction ops as [|o os IH]; simpl; auto. rewrite map_app, <- IH. destruct o; auto. Qed.
Lemma ins_vals_entries ops : ins_vals ops = map snd (ins_entries ops).
Proof. induction ops as [|o os IH]; simpl; auto. rewrite map_app, <- IH. destruct o; auto. Qed.

(** MapContainsSameKeys *)
Lemma csk_spec rem : forall fuel m1 m2 l1 s2 it count, miter_ok m1 l1 it rem -> rep m2 s2 ->
  length rem < fuel ->
  csk_loop equal hash fuel m1 m2 it count =
  Ok (forallb (fun e => shas equal s2 (fst e)) rem && (count + length rem =? length s2)).
Proof.
  induction rem as [|e r IH]; intros [|f] m1 m2 l1 s2 it count H R Hf; simpl in Hf; try lia; cbn [csk_loop];
    pose proof (@mnext_spec _ _ _ _ H) as Q; simpl in Q.
  - rewrite Q. cbn [bind]. destruct R as (l & Hm & P & U). rewrite (@size_spec _ _ Hm). cbn [bind].
    rewrite (Permutation_length P). simpl. rewrite Nat.add_0_r. auto.
  - destruct Q as (it' & E & H'). rewrite E. cbn [bind].
    unfold MapHasKey. rewrite (rep_getraw (fst e) R). cbn [bind]. rewrite find_existsb.
    cbn [forallb length]. fold (shas equal s2 (fst e)). destruct (shas equal s2 (fst e)) eqn:Hh; cbn [negb].
    + erewrite IH; eauto; [|lia]. simpl. rewrite <- plus_n_Sm. auto.
    + reflexivity.
Qed.

Lemma In_split_perm A (x : A) l : In x l -> exists r, Permutation l (x :: r).
Proof. intros H. apply in_split in H. destruct H as (a & b & ->). exists (a ++ b). symmetry. apply Permutation_middle. Qed.

(** pigeonhole up to [equal] *)
Lemma pigeon (s1 : list kv) : forall s2 : list kv, uniq equal s1 -> uniq equal s2 ->
  (forall e, In e s1 -> shas equal s2 (fst e) = true) ->
  length s1 <= length s2 /\
  (length s1 = length s2 -> forall e, In e s2 -> shas equal s1 (fst e) = true).
Proof.
  induction s1 as [|x t IH]; intros s2 U1 U2 H.
  - split; [simpl; lia|]. destruct s2; simpl; [intros _ ? []|discriminate].
  - pose proof (H x (or_introl eq_refl)) as Hx. unfold shas in Hx. apply existsb_exists in Hx.
    destruct Hx as (y & Hy & Ey). destruct (In_split_perm _ _ Hy) as [r P].
    inversion U1 as [|? ? U1a U1b]; subst.
    pose proof (uniq_perm P U2) as U2'. inversion U2' as [|? ? U2a U2b]; subst.
    destruct (IH r) as [L1 L2]; auto.
    { intros e He. pose proof (H e (or_intror He)) as Q. unfold shas in Q.
      rewrite (existsb_perm _ P) in Q. simpl in Q. apply orb_true_iff in Q. destruct Q as [Q|Q]; auto.
      exfalso. assert (equal (fst e) (fst x) = true).
      { apply (eq_trans_k EQ) with (fst y); auto. apply (eq_sym_k EQ); auto. }
      rewrite U1a in H0; auto. discriminate. }
    rewrite (Permutation_length P). simpl. split; [clear - L1; lia|]. intros Hl e He.
    apply (Permutation_in _ P) in He. destruct He as [<-|He].
    + unfold shas. simpl. rewrite (eq_sym_k EQ _ _ Ey). auto.
    + unfold shas in *. simpl. rewrite L2; [apply orb_true_r|lia|auto].
Qed.

Lemma shas_equal s a b : equal a b = true -> shas equal (V:=V) s a = shas equal s b.
Proof.
  intros H. unfold shas. induction s; simpl; auto. rewrite IHs. f_equal.
  symmetry. rewrite (eqk_comm (fst a0) a), (eqk_comm (fst a0) b).
  rewrite eqk_comm. rewrite (eqk_comm a (fst a0)). apply eqk_trans_r; auto.
Qed.

Lemma contains_same_keys m1 m2 s1 s2 : rep m1 s1 -> rep m2 s2 -> exists b,
  MapContainsSameKeys equal hash m1 m2 = Ok b /\
  (b = true <-> forall k, shas equal s1 k = shas equal s2 k).
Proof.
  intros R1 R2. pose proof R1 as (l1 & Hm1 & P1 & U1). pose proof R2 as (l2 & Hm2 & P2 & U2).
  unfold MapContainsSameKeys. destruct (@minit_spec _ _ Hm1) as (it & E & I). rewrite E. cbn [bind].
  erewrite csk_spec; eauto; [|rewrite (@entry_count_ok _ _ Hm1); lia].
  eexists; split; [reflexivity|]. simpl "+".
  assert (forall l l' : list kv, (forall k, shas equal l k = shas equal l' k) ->
            forall e, In e l -> shas equal l' (fst e) = true) as Sub.
  { intros l l' H e He. rewrite <- H. unfold shas. apply existsb_exists. exists e. split; auto. apply (eq_refl_k EQ). }
  assert (forall k, shas equal l1 k = shas equal s1 k) as L1.
  { intros k. unfold shas. apply existsb_perm. auto. }
  split.
  - intros H. apply andb_true_iff in H. destruct H as [H1 H2]. apply Nat.eqb_eq in H2.
    rewrite (Permutation_length P1) in H2.
    assert (forall e, In e s1 -> shas equal s2 (fst e) = true) as I1.
    { intros e He. rewrite forallb_forall in H1. apply H1. eapply Permutation_in; [symmetry|]; eauto. }
    destruct (@pigeon s1 s2 U1 U2 I1) as [_ I2]. specialize (I2 H2).
    intros k. apply eq_iff_eq_true. unfold shas. rewrite !existsb_exists.
    split; intros (e & He & Ek).
    + specialize (I1 e He). rewrite (shas_equal _ Ek) in I1. unfold shas in I1. apply existsb_exists in I1. auto.
    + specialize (I2 e He). rewrite (shas_equal _ Ek) in I2. unfold shas in I2. apply existsb_exists in I2. auto.
  - intros H. apply andb_true_iff. split.
    + apply forallb_forall. intros e He. apply (Sub l1 s2); auto. intros k. rewrite L1. auto.
    + apply Nat.eqb_eq. rewrite (Permutation_length P1).
      destruct (@pigeon s1 s2) as [A _]; auto. { apply Sub; auto. }
      destruct (@pigeon s2 s1) as [B _]; auto. { apply Sub; auto. } lia.
Qed.
End P.
