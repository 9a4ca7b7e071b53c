(** Searching, successor and iteration; RBTreePut refines the sorted map. *)
From Verif Require Import Prelude PreludeFacts RBModel RBSpec RBHeap RBInv RBPut.
From Coq Require Import Sorting.Sorted.
Set Implicit Arguments.

Section S.
Variables K V : Type.
Variable cmp : K -> K -> Z.
Hypothesis CO : cmp_ok cmp.
Notation heap := (heap K V).
Notation atree := (atree K V).
Notation ctx := (ctx K V).
Notation rbtree := (rbtree K V).
Notation L := (@L K V).
Local Open Scope Z_scope.

Lemma cmp_refl a : cmp a a = 0.
Proof.
  destruct (Z.lt_trichotomy (cmp a a) 0) as [H|[H|H]]; auto.
  - pose proof (proj1 (cmp_opp CO a a) H). lia.
  - pose proof (proj2 (cmp_opp CO a a) H). lia.
Qed.
Lemma cmp_gt a b : 0 < cmp a b <-> cmp b a < 0.
Proof. split; intros H; apply (cmp_opp CO b a); auto. Qed.
Lemma cmp_eq0 a b : cmp a b = 0 <-> cmp b a = 0.
Proof.
  pose proof (cmp_opp CO a b). pose proof (cmp_opp CO b a). lia.
Qed.
Lemma cmp_lt_le a b c : cmp a b < 0 -> cmp b c <= 0 -> cmp a c < 0.
Proof.
  intros H1 H2. destruct (Z.lt_ge_cases (cmp a c) 0); auto.
  assert (cmp c a <= 0) by (pose proof (cmp_opp CO c a); pose proof (cmp_opp CO a c); lia).
  assert (cmp b a <= 0) by (eapply (cmp_trans CO); eauto).
  pose proof (cmp_opp CO a b). lia.
Qed.
Lemma cmp_le_lt a b c : cmp a b <= 0 -> cmp b c < 0 -> cmp a c < 0.
Proof.
  intros H1 H2. destruct (Z.lt_ge_cases (cmp a c) 0); auto.
  assert (cmp c a <= 0) by (pose proof (cmp_opp CO c a); pose proof (cmp_opp CO a c); lia).
  assert (cmp c b <= 0) by (eapply (cmp_trans CO); eauto).
  pose proof (cmp_opp CO b c). lia.
Qed.
Lemma cmp_lt_lt a b c : cmp a b < 0 -> cmp b c < 0 -> cmp a c < 0.
Proof. intros. eapply cmp_lt_le; eauto. lia. Qed.
Local Close Scope Z_scope.

Definition kvs (l : list (addr * K * V)) : list (K * V) := map (fun e => (snd (fst e), snd e)) l.
Definition asorted (l : list (addr * K * V)) : Prop := sorted cmp (kvs l).

Definition keyof (e : K * V) := fst e.
Lemma sorted_app (l1 l2 : list (K * V)) : sorted cmp (l1 ++ l2) <->
  sorted cmp l1 /\ sorted cmp l2 /\ forall a b, In a l1 -> In b l2 -> (cmp (fst a) (fst b) < 0)%Z.
Proof.
  unfold sorted. induction l1 as [|x l1 IH]; simpl.
  - split; [intros H; split; [constructor|split; [auto|intros ? ? []]]|tauto].
  - split.
    + intros H. inversion H as [|? ? H1 H2]; subst. apply IH in H1. destruct H1 as (A & B & C).
      rewrite Forall_app in H2. destruct H2 as [F1 F2]. split; [constructor; auto|split; auto].
      intros a b [->|Ha] Hb; auto. rewrite Forall_forall in F2. auto.
    + intros (A & B & C). inversion A as [|? ? A1 A2]; subst. constructor.
      * apply IH. auto.
      * apply Forall_app. split; auto. apply Forall_forall. intros b Hb. auto.
Qed.

(** the search path of [key] is consistent with the frames *)
Definition onpath (key : K) (f : frame K V) : Prop :=
  match f with FL _ _ k _ _ => (cmp key k < 0)%Z | FR _ _ k _ _ => (0 < cmp key k)%Z end.

Lemma put_search_spec key fuel : forall h rt c t,
  rep h rt (plug c t) -> Forall (onpath key) c -> (forall n, length (flata t) <= n -> n < fuel -> True) ->
  length (flata t) < fuel ->
  (exists a c' c0 k v l r, put_search cmp fuel h key (pa rt c) (ad t) = Ok (true, a) /\
      plug c t = plug c' (T a c0 k v l r) /\ Forall (onpath key) c' /\ cmp key k = 0%Z) \/
  (exists c', put_search cmp fuel h key (pa rt c) (ad t) = Ok (false, pa rt c') /\
      plug c t = plug c' L /\ Forall (onpath key) c').
Proof.
  induction fuel as [|fuel IH]; intros h rt c t R P _ Hf; [lia|].
  destruct t as [|a c0 k v l r]; cbn [put_search ad].
  - right. rewrite Nat.eqb_refl. exists c. auto.
  - destruct (rep_neq_nil _ _ _ _ _ _ _ R) as [Na Nr]. apply Nat.eqb_neq in Na. rewrite Na.
    unfold compare_at. rewrite (@rep_read K V h rt c a c0 k v l r R). cbn [bind nkey].
    simpl in Hf. rewrite app_length in Hf. simpl in Hf.
    destruct (Z.eqb_spec (cmp key k) 0) as [E|E].
    + left. exists a, c, c0, k, v, l, r. auto.
    + destruct (Z.ltb_spec (cmp key k) 0) as [E1|E1].
      * rewrite (@rep_left K V h rt c a c0 k v l r R). cbn [bind].
        apply (IH h rt (FL a c0 k v r :: c) l); auto. lia.
      * rewrite (@rep_right K V h rt c a c0 k v l r R). cbn [bind].
        apply (IH h rt (FR a c0 k v l :: c) r); auto; [|lia]. constructor; auto. simpl. lia.
Qed.

Lemma Get_loop_spec key fuel : forall h rt c t,
  rep h rt (plug c t) -> Forall (onpath key) c -> 
  length (flata t) < fuel ->
  (exists a c' c0 k v l r, Get_loop cmp fuel h key (ad t) = Ok a /\
      plug c t = plug c' (T a c0 k v l r) /\ Forall (onpath key) c' /\ cmp key k = 0%Z) \/
  (exists c', Get_loop cmp fuel h key (ad t) = Ok nil /\
      plug c t = plug c' L /\ Forall (onpath key) c').
Proof.
  induction fuel as [|fuel IH]; intros h rt c t R P Hf; [lia|].
  destruct t as [|a c0 k v l r]; cbn [Get_loop ad].
  - right. rewrite Nat.eqb_refl. exists c. auto.
  - destruct (rep_neq_nil _ _ _ _ _ _ _ R) as [Na Nr]. apply Nat.eqb_neq in Na. rewrite Na.
    unfold compare_at. rewrite (@rep_read K V h rt c a c0 k v l r R). cbn [bind nkey].
    simpl in Hf. rewrite app_length in Hf. simpl in Hf.
    destruct (Z.eqb_spec (cmp key k) 0) as [E|E].
    + left. exists a, c, c0, k, v, l, r. auto.
    + destruct (Z.ltb_spec (cmp key k) 0) as [E1|E1].
      * rewrite (@rep_left K V h rt c a c0 k v l r R). cbn [bind].
        apply (IH h rt (FL a c0 k v r :: c) l); auto. lia.
      * rewrite (@rep_right K V h rt c a c0 k v l r R). cbn [bind].
        apply (IH h rt (FR a c0 k v l :: c) r); auto; [|lia]. constructor; auto. simpl. lia.
Qed.

(** keys around a hole reached by searching *)
Lemma kvs_app l1 l2 : kvs (l1 ++ l2) = kvs l1 ++ kvs l2.
Proof. apply map_app. Qed.
Lemma path_split key c : Forall (onpath key) c -> asorted (before c ++ after c) ->
  (forall e, In e (kvs (before c)) -> (0 < cmp key (fst e))%Z) /\
  (forall e, In e (kvs (after c)) -> (cmp key (fst e) < 0)%Z).
Proof.
  induction 1 as [|f c Hf Hc IH]; intros S.
  - split; intros e [].
  - unfold asorted in *. rewrite kvs_app in *. destruct f as [a c0 k v s|a c0 k v s]; simpl in *.
    + rewrite kvs_app in S.
      apply sorted_app in S. destruct S as (S1 & S2 & S3).
      inversion S2 as [|? ? S4 S5]; subst. apply sorted_app in S4. destruct S4 as (S6 & S7 & S8).
      destruct IH as [I1 I2].
      { apply sorted_app. split; auto. split; auto. intros x y Hx Hy. apply S3; auto. right. apply in_app_iff; auto. }
      split; auto. intros e [<-|He]; [simpl; auto|]. rewrite kvs_app in He.
      rewrite Forall_forall in S5. simpl in S5. apply S5 in He. eapply cmp_lt_lt; eauto.
    + rewrite !kvs_app in S. simpl in S.
      rewrite <- !app_assoc in S. apply sorted_app in S. destruct S as (S1 & S2 & S3).
      apply sorted_app in S2. destruct S2 as (S4 & S5 & S6).
      inversion S5 as [|? ? S7 S8]; subst. 
      destruct IH as [I1 I2].
      { apply sorted_app. split; auto. split; auto. intros x y Hx Hy. apply S3; auto. apply in_app_iff; right; right; auto. }
      split; auto. intros e. rewrite !kvs_app. simpl. rewrite !in_app_iff.
      intros [He|[He|[<-|[]]]]; [auto| |simpl; lia].
      apply cmp_gt. specialize (S6 e (k, v) He). simpl in S6.
      eapply cmp_lt_lt; [apply S6; auto|]. apply cmp_gt. auto.
Qed.

(** splitting of the specification map at a key *)
Section Split.
Variables (B A : list (K * V)) (key : K).
Hypothesis HB : forall e, In e B -> (0 < cmp key (fst e))%Z.
Hypothesis HA : forall e, In e A -> (cmp key (fst e) < 0)%Z.
Lemma filter_all X (f : X -> bool) l : (forall x, In x l -> f x = true) -> filter f l = l.
Proof. induction l; simpl; intros H; auto. rewrite H by auto. f_equal. apply IHl. auto. Qed.
Lemma filter_none X (f : X -> bool) l : (forall x, In x l -> f x = false) -> filter f l = [].
Proof. induction l; simpl; intros H; auto. rewrite H by auto. apply IHl. auto. Qed.
Lemma existsb_none X (f : X -> bool) l : (forall x, In x l -> f x = false) -> existsb f l = false.
Proof. induction l; simpl; intros H; auto. rewrite H by auto. apply IHl. auto. Qed.
Lemma find_none_app X (f : X -> bool) l l2 : (forall x, In x l -> f x = false) -> find f (l ++ l2) = find f l2.
Proof. induction l; simpl; intros H; auto. rewrite H by auto. apply IHl. auto. Qed.
Lemma sameB e : In e B -> same cmp key e = false.
Proof. intros H. apply HB in H. unfold same. apply Z.eqb_neq. lia. Qed.
Lemma sameA e : In e A -> same cmp key e = false.
Proof. intros H. apply HA in H. unfold same. apply Z.eqb_neq. lia. Qed.
Lemma sput_miss v : sput cmp (B ++ A) key v = B ++ (key, v) :: A.
Proof.
  unfold sput. rewrite !filter_app.
  rewrite (@filter_all _ _ B), (@filter_none _ (fun e => 0 <? cmp key (fst e))%Z A), (@filter_none _ _ B), (@filter_all _ _ A); try rewrite app_nil_r; auto.
  - intros e He. apply HA in He. apply Z.ltb_lt. auto.
  - intros e He. apply HB in He. apply Z.ltb_ge. lia.
  - intros e He. apply HA in He. apply Z.ltb_ge. lia.
  - intros e He. apply HB in He. apply Z.ltb_lt. auto.
Qed.
Lemma shas_miss : shas cmp (B ++ A) key = false.
Proof. unfold shas. rewrite existsb_app, (@existsb_none _ _ B), (@existsb_none _ _ A); auto using sameA, sameB. Qed.
Lemma sget_miss : sget cmp (B ++ A) key = None.
Proof.
  unfold sget. rewrite find_none_app by auto using sameB.
  rewrite <- (app_nil_r A), find_none_app by auto using sameA. auto.
Qed.
Lemma shits_miss : shits cmp (B ++ A) key = [].
Proof. unfold shits. rewrite filter_app, (@filter_none _ _ B), (@filter_none _ _ A); auto using sameA, sameB. Qed.
Lemma sremove_miss : sremove cmp (B ++ A) key = B ++ A.
Proof.
  unfold sremove. apply filter_all. intros e. rewrite in_app_iff. intros [H|H]; [rewrite sameB|rewrite sameA]; auto.
Qed.
Variable k' : K. Variable v' : V.
Hypothesis HK : cmp key k' = 0%Z.
Lemma sameK : same cmp key (k', v') = true.
Proof. unfold same. simpl. rewrite HK. auto. Qed.
Lemma sput_hit v : sput cmp (B ++ (k', v') :: A) key v = B ++ (key, v) :: A.
Proof.
  unfold sput. rewrite !filter_app. simpl. rewrite HK. simpl.
  rewrite (@filter_all _ _ B), (@filter_none _ (fun e => 0 <? cmp key (fst e))%Z A), (@filter_none _ _ B), (@filter_all _ _ A); try rewrite app_nil_r; auto.
  - intros e He. apply HA in He. apply Z.ltb_lt. auto.
  - intros e He. apply HB in He. apply Z.ltb_ge. lia.
  - intros e He. apply HA in He. apply Z.ltb_ge. lia.
  - intros e He. apply HB in He. apply Z.ltb_lt. auto.
Qed.
Lemma shas_hit : shas cmp (B ++ (k', v') :: A) key = true.
Proof. unfold shas. rewrite existsb_app. simpl. rewrite sameK. rewrite orb_true_r. auto. Qed.
Lemma sget_hit : sget cmp (B ++ (k', v') :: A) key = Some v'.
Proof. unfold sget. rewrite find_none_app by auto using sameB. simpl. rewrite sameK. auto. Qed.
Lemma shits_hit : shits cmp (B ++ (k', v') :: A) key = [(k', v')].
Proof. unfold shits. rewrite filter_app. simpl. rewrite sameK, (@filter_none _ _ B), (@filter_none _ _ A); auto using sameA, sameB. Qed.
Lemma sremove_hit : sremove cmp (B ++ (k', v') :: A) key = B ++ A.
Proof.
  unfold sremove. rewrite filter_app. simpl. rewrite sameK. simpl.
  rewrite !filter_all; auto; intros e H; [rewrite sameA|rewrite sameB]; auto.
Qed.
End Split.

Lemma sorted_mid (B A : list (K * V)) k v k' : cmp k' k = 0%Z -> sorted cmp (B ++ (k, v) :: A) ->
  (forall e, In e B -> (0 < cmp k' (fst e))%Z) /\ (forall e, In e A -> (cmp k' (fst e) < 0)%Z) /\
  sorted cmp (B ++ A) /\ forall v', sorted cmp (B ++ (k', v') :: A).
Proof.
  intros E S. apply sorted_app in S. destruct S as (S1 & S2 & S3).
  inversion S2 as [|? ? S4 S5]; subst. rewrite Forall_forall in S5. simpl in S5.
  assert (forall e, In e B -> (0 < cmp k' (fst e))%Z) as HB.
  { intros e He. apply cmp_gt. eapply cmp_lt_le; [apply (S3 e (k, v)); simpl; auto|]. simpl.
    apply cmp_eq0 in E. lia. }
  assert (forall e, In e A -> (cmp k' (fst e) < 0)%Z) as HA.
  { intros e He. eapply cmp_le_lt; [|apply S5; auto]. lia. }
  split; auto. split; auto. split.
  - apply sorted_app. split; auto. split; auto. intros a b Ha Hb. apply S3; simpl; auto.
  - intros v'. apply sorted_app. split; auto. split.
    + constructor; auto. apply Forall_forall. simpl. auto.
    + intros a b Ha [<-|Hb]; simpl.
      * apply cmp_gt. auto.
      * apply S3; simpl; auto.
Qed.

(** *** the representation invariant of a tree *)
Record inv (t : rbtree) (a : atree) : Prop := {
  i_rep : rep (rheap t) (rroot t) a;
  i_rb : exists N, rbt a false N;
  i_size : rsize t = length (flata a);
  i_sorted : asorted (flata a);
  i_fresh : forall x, rnext t <= x -> rheap t x = None;
  i_live : forall x, rheap t x <> None -> x = nil \/ x = rroot t \/ 0 < cnt x a
}.

Lemma treeh_some h t : forall p x, treeh h p t -> 0 < cnt x t -> h x <> None (A:=node K V).
Proof.
  induction t as [|a c k v l IHl r IHr]; intros p x; simpl; [lia|].
  intros (H1 & H2 & H3) H. destruct (Nat.eq_dec x a) as [->|N]; [congruence|].
  apply eqn_0 in N. destruct (cnt x l) eqn:E; [eapply IHr; eauto; lia|eapply IHl; eauto; lia].
Qed.
Lemma inv_fresh t a : inv t a -> cnt (rnext t) a = 0 /\ rnext t <> rroot t /\ rnext t <> nil.
Proof.
  intros I. pose proof (i_fresh I (le_n _)) as F. pose proof (i_rep I) as R.
  destruct (rep_whole R) as [W1 W2]. destruct (rep_nil R) as [p Hp]. split; [|split].
  - destruct (cnt (rnext t) a) eqn:E; auto. exfalso. eapply treeh_some; eauto. lia.
  - congruence.
  - unfold nilok in Hp. congruence.
Qed.
Lemma inv_left t a : inv t a -> left_of (rheap t) (rroot t) = Ok (ad a).
Proof. intros I. unfold left_of. rewrite (rep_root (i_rep I)). auto. Qed.

Lemma Get_spec t a key : inv t a ->
  (exists x c c0 k v l r, Get_ cmp t key = Ok x /\ a = plug c (T x c0 k v l r) /\ cmp key k = 0%Z /\ Forall (onpath key) c) \/
  (exists c, Get_ cmp t key = Ok nil /\ a = plug c L /\ Forall (onpath key) c).
Proof.
  intros I. unfold Get_. rewrite (rep_rednil (i_rep I)). cbn [bind negb massert]. rewrite (inv_left I). cbn [bind].
  destruct (@Get_loop_spec key (S (S (rsize t))) (rheap t) (rroot t) [] a (i_rep I)) as [(x & c & c0 & k & v & l & r & E & P & F & C)|(c & E & P & F)]; auto.
  - rewrite (i_size I). lia.
  - left. exists x, c, c0, k, v, l, r. auto.
  - right. exists c. auto.
Qed.

Lemma asorted_path key c : Forall (onpath key) c -> asorted (flata (plug c L)) ->
  (forall e, In e (kvs (before c)) -> (0 < cmp key (fst e))%Z) /\
  (forall e, In e (kvs (after c)) -> (cmp key (fst e) < 0)%Z).
Proof. intros F S. apply path_split; auto. rewrite flata_plug in S. auto. Qed.

Lemma RBTreeGet_spec t a key : inv t a -> RBTreeGet cmp t key = Ok (sget cmp (kvs (flata a)) key).
Proof.
  intros I. unfold RBTreeGet. destruct (Get_spec key I) as [(x & c & c0 & k & v & l & r & E & -> & C & F)|(c & E & -> & F)]; rewrite E; cbn [bind].
  - destruct (rep_neq_nil _ _ _ _ _ _ _ (i_rep I)) as [Nx _]. apply Nat.eqb_neq in Nx. rewrite Nx. cbn [negb].
    rewrite (rep_read _ _ _ _ _ _ _ (i_rep I)). cbn [bind nval]. f_equal.
    pose proof (i_sorted I) as S. unfold asorted in S. rewrite flata_plug in *. simpl in *.
    rewrite <- !app_assoc in *. simpl in *. rewrite !kvs_app in *. simpl in *. rewrite !kvs_app in *.
    rewrite !app_assoc in *. destruct (sorted_mid _ _ _ C S) as (HB & HA & _).
    erewrite sget_hit; eauto.
  - rewrite Nat.eqb_refl. simpl. f_equal. destruct (asorted_path F (i_sorted I)) as [HB HA].
    rewrite flata_plug. simpl. rewrite kvs_app, sget_miss; auto.
Qed.

Lemma plug_length c (t : atree) : length c + length (flata t) <= length (flata (plug c t)).
Proof.
  revert t. induction c as [|[a c0 k v s|a c0 k v s] c IH]; intros t; simpl; auto;
    (etransitivity; [|apply IH]); simpl; rewrite app_length; simpl; lia.
Qed.

Lemma kvs_length l : length (kvs l) = length l.
Proof. apply map_length. Qed.

Definition evs_of (l : list (K * V)) : list (rev_ K V) := flat_map (fun e => [RKey V (Some (fst e)); RVal K (Some (snd e))]) l.

Lemma RBTreePut_spec t a key v : inv t a -> exists t' a',
  RBTreePut cmp t key v = Ok (t', shas cmp (kvs (flata a)) key) /\ inv t' a' /\
  kvs (flata a') = sput cmp (kvs (flata a)) key v /\
  rlog t' = rlog t ++ evs_of (shits cmp (kvs (flata a)) key).
Proof.
  intros I. unfold RBTreePut. rewrite (inv_left I). cbn [bind].
  destruct (@put_search_spec key (S (S (rsize t))) (rheap t) (rroot t) [] a (i_rep I)) as [(x & c & c0 & k & v0 & l & r & E & P & F & C)|(c & E & P & F)]; auto.
  { rewrite (i_size I). lia. }
  - cbn [pa] in E. rewrite E. cbn [bind]. clear E. simpl in P. subst a.
    rewrite (rep_read _ _ _ _ _ _ _ (i_rep I)). cbn [bind nkey nval].
    destruct (set_kv_rep _ _ _ _ _ _ _ key v (i_rep I)) as (h' & E' & R' & P'). rewrite E'. cbn [bind].
    pose proof (i_sorted I) as S. unfold asorted in S. rewrite flata_plug in S. simpl in S.
    rewrite <- !app_assoc in S. simpl in S. rewrite !kvs_app in S. simpl in S. rewrite !kvs_app, app_assoc in S.
    destruct (sorted_mid _ _ _ C S) as (HB & HA & _ & S').
    assert (kvs (flata (plug c (T x c0 k v0 l r))) = (kvs (before c) ++ kvs (flata l)) ++ (k, v0) :: kvs (flata r) ++ kvs (after c)) as EF.
    { rewrite flata_plug. simpl. rewrite <- !app_assoc. simpl. rewrite !kvs_app. simpl. rewrite !kvs_app. auto. }
    assert (kvs (flata (plug c (T x c0 key v l r))) = (kvs (before c) ++ kvs (flata l)) ++ (key, v) :: kvs (flata r) ++ kvs (after c)) as EF'.
    { rewrite flata_plug. simpl. rewrite <- !app_assoc. simpl. rewrite !kvs_app. simpl. rewrite !kvs_app. auto. }
    eexists. exists (plug c (T x c0 key v l r)). split; [|split; [|split]].
    + rewrite EF, shas_hit; auto.
    + constructor; cbn [rheap rroot rsize rnext]; auto.
      * destruct (i_rb I) as [N HN]. apply rbt_unplug in HN. destruct HN as (mb & n & H1 & H2 & H3).
        eapply rbt_plug; eauto. simpl in *. inversion H2; subst; constructor || econstructor; eauto.
      * rewrite (i_size I). rewrite <- !(kvs_length (flata _)), EF, EF', !app_length. auto.
      * unfold asorted. rewrite EF'. auto.
      * intros y Hy. rewrite P'; [apply (i_fresh I); auto| |].
        -- destruct (cnt y (plug c (T x c0 k v0 l r))) eqn:Z; auto. exfalso. pose proof (i_fresh I Hy) as X. revert X.
           eapply treeh_some; [apply (rep_whole (i_rep I))|lia].
        -- intros ->. pose proof (i_fresh I Hy) as X. destruct (rep_whole (i_rep I)) as [_ W]. congruence.
      * intros y Hy. destruct (Nat.eq_dec y (rroot t)); auto.
        destruct (cnt y (plug c (T x c0 k v0 l r))) eqn:Z.
        -- rewrite P' in Hy by auto. destruct (i_live I y Hy) as [?|[?|?]]; auto. lia.
        -- right. right. rewrite cnt_plug in *. simpl in *. lia.
    + rewrite EF, EF'. symmetry. apply sput_hit; auto.
    + cbn [rlog]. rewrite EF, (@shits_hit _ _ _ HB HA); auto.
  - cbn [pa] in E. rewrite E. cbn [bind]. clear E. simpl in P. subst a.
    destruct (inv_fresh I) as (Z1 & Z2 & Z3). rewrite cnt_plug in Z1. simpl in Z1. rewrite Nat.add_0_r in Z1.
    set (z := rnext t) in *.
    destruct (@leaf_rep K V (rheap t) (rroot t) c z key v (i_rep I) Z1 Z2 Z3) as (h1 & E1 & R1 & P1).
    set (h0 := hupd (rheap t) z _) in *.
    assert ((let* goleft := if pa (rroot t) c =? rroot t then Ok true
             else let* c0 := compare_at cmp h0 key (pa (rroot t) c) in Ok (c0 <? 0)%Z in
             (if goleft then set_left h0 (pa (rroot t) c) z else set_right h0 (pa (rroot t) c) z)) = Ok h1) as E2.
    { rewrite <- E1. destruct c as [|f c]; cbn [pa].
      - rewrite Nat.eqb_refl. auto.
      - assert (fa f <> rroot t /\ fa f <> z) as [N1 N2].
        { pose proof (rep_cntr (i_rep I)) as X. rewrite cnt_plug in X. simpl in X, Z1.
          split; apply not_eq_sym, eqn_0; lia. }
        apply Nat.eqb_neq in N1. rewrite N1. unfold compare_at.
        destruct (rep_whole (i_rep I)) as [W1 _]. 
        pose proof (proj1 (whole_plug _ _ _ _) (rep_whole (i_rep I))) as [_ W]. 
        assert (getn h0 (fa f) = getn (rheap t) (fa f)) as EG by (unfold getn, h0; rewrite hupd_other; auto).
        rewrite EG. unfold getn. inversion F as [|? ? F1 F2]; subst.
        destruct f as [b cb kb vb s|b cb kb vb s]; simpl in W, F1; destruct W as (W & _); cbn [fa]; rewrite W; cbn [bind nkey link_at].
        + apply Z.ltb_lt in F1. rewrite F1. auto.
        + assert ((cmp key kb <? 0)%Z = false) as -> by (apply Z.ltb_ge; lia). auto. }
    match goal with |- context [bind ?X ?Y] => match X with context [compare_at] =>
      assert (bind X Y = bind (let* g := X in (if g then set_left h0 (pa (rroot t) c) z else set_right h0 (pa (rroot t) c) z)) 
         (fun h => let* h2 := PutFix (S (S (rsize t))) h (rroot t) z in Ok (mkT h2 (rroot t) (S (rsize t)) (S z) (rlog t), false))) as ->
    end end.
    { destruct (if pa (rroot t) c =? rroot t then Ok true else let* c0 := compare_at cmp h0 key (pa (rroot t) c) in Ok (c0 <? 0)%Z); auto. }
    rewrite E2. cbn [bind].
    destruct (i_rb I) as [N HN]. apply rbt_unplug in HN. destruct HN as (mb & n & H1 & H2 & H3). simpl in H2. inversion H2; subst.
    destruct (@PutFix_spec K V (S (S (rsize t))) h1 (rroot t) c z key v mb) as (h2 & t' & E3 & W & N' & HN'); auto.
    { rewrite (i_size I). pose proof (plug_length c L). lia. }
    rewrite E3. cbn [bind]. destruct W as (R2 & P2 & F2).
    destruct (asorted_path F (i_sorted I)) as [HB HA].
    assert (kvs (flata t') = kvs (before c) ++ (key, v) :: kvs (after c)) as EF'.
    { rewrite F2, flata_plug. simpl. rewrite kvs_app. auto. }
    assert (kvs (flata (plug c L)) = kvs (before c) ++ kvs (after c)) as EF.
    { rewrite flata_plug. simpl. rewrite kvs_app. auto. }
    assert (forall y, cnt y t' = cntc y c + eqn y z) as EC.
    { intros y. rewrite (cnt_flata_eq _ _ F2), cnt_plug. simpl. lia. }
    eexists. exists t'. split; [|split; [|split]].
    + rewrite EF, shas_miss; auto.
    + constructor; cbn [rheap rroot rsize rnext]; eauto.
      * rewrite (i_size I), <- !(kvs_length (flata _)), EF', EF, !app_length. simpl. lia.
      * unfold asorted. rewrite EF'. apply sorted_app.
        pose proof (i_sorted I) as S. unfold asorted in S. rewrite EF in S. apply sorted_app in S. destruct S as (S1 & S2 & S3).
        split; auto. split.
        -- constructor; auto. apply Forall_forall. simpl. auto.
        -- intros e1 e2 He [<-|He2]; [apply cmp_gt; auto|auto].
      * intros y Hy. fold z in Hy. assert (y <> z) as Nyz by lia.
        assert (rheap t y = None) as X by (apply (i_fresh I); lia).
        assert (cntc y c = 0) as Cy.
        { destruct (cntc y c) eqn:Z; auto. exfalso. revert X. eapply treeh_some; [apply (rep_whole (i_rep I))|]. rewrite cnt_plug. lia. }
        assert (y <> rroot t). { intros ->. destruct (rep_whole (i_rep I)) as [_ W]. congruence. }
        rewrite P2; auto; [rewrite P1; auto|]. rewrite cnt_plug. simpl. apply eqn_0 in Nyz. lia.
      * intros y Hy. destruct (Nat.eq_dec y (rroot t)); auto. rewrite EC. unfold eqn. destruct (Nat.eqb_spec y z); [right; right; lia|].
        destruct (cntc y c) eqn:Z; [|right; right; lia].
        rewrite P2 in Hy; auto; [rewrite P1 in Hy; auto|].
        -- destruct (i_live I y Hy) as [?|[?|X]]; auto. rewrite cnt_plug in X. simpl in X. lia.
        -- rewrite cnt_plug. simpl. rewrite Z. assert (eqn y z = 0) by (apply eqn_0; auto). lia.
    + rewrite EF, EF'. symmetry. apply sput_miss; auto.
    + cbn [rlog]. rewrite EF, shits_miss; auto. simpl. rewrite app_nil_r. auto.
Qed.
End S.
