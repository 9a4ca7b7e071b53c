(** Proofs about the model of sequence.c *)
From Verif Require Import Prelude PreludeFacts SeqModel SeqSpec.
Set Implicit Arguments.

Section P.
Variable A : Type.
Notation ptr := (option A).
Implicit Types (l : list ptr) (s : seq A).

(** representation: the first [slen] cells hold the list [l] *)
Definition rep s l : Prop :=
  exists j, sdata s = map Some l ++ j /\ slen s = length l /\
            scap s = length l + length j /\ 0 < scap s.

Lemma rep_new c d : rep (SeqNew A c d) [].
Proof.
  unfold rep, SeqNew; destruct (Nat.leb_spec c 0); simpl.
  - exists [None]; simpl; repeat split; lia.
  - exists (repeat None c); simpl; rewrite repeat_length; repeat split; lia.
Qed.

Lemma rep_len s l : rep s l -> slen s = length l.
Proof. intros (j & _ & H & _); exact H. Qed.

Lemma aget_of s l i : rep s l -> i < length l -> aget (sdata s) i = Ok (nth i l None).
Proof. intros (j & -> & _) H. apply aget_rep; auto. Qed.

Lemma SeqAt_rep s l i : rep s l -> i < length l -> SeqAt s i = Ok (nth i l None).
Proof.
  intros R H. unfold SeqAt, massert. rewrite (rep_len R).
  destruct (Nat.ltb_spec i (length l)); [|lia]. apply aget_of; auto.
Qed.

Lemma expand_rep s l : rep s l ->
  exists s' c j, ExpandIfNeccessary s = Ok s' /\ sdata s' = map Some l ++ c :: j /\
    slen s' = length l /\ scap s' = length l + S (length j) /\
    sdtor s' = sdtor s /\ slog s' = slog s.
Proof.
  intros (j & Hd & Hl & Hc & Hp). unfold ExpandIfNeccessary, massert.
  destruct (Nat.leb_spec (slen s) (scap s)); [|lia].
  destruct (Nat.eqb_spec (slen s) (scap s)) as [E|E].
  - assert (j = []) as -> by (destruct j; simpl in *; [auto|lia]). simpl in *.
    rewrite arealloc_grow by (rewrite Hd, app_length, map_length; simpl; lia).
    destruct (scap s * 2 - length (sdata s)) as [|k] eqn:Ek.
    { rewrite Hd, app_length, map_length in Ek; simpl in Ek; lia. }
    eexists _, None, (repeat None k). split; [reflexivity|]. cbn [sdata slen scap sdtor slog].
    rewrite Hd, app_nil_r. simpl. rewrite repeat_length.
    rewrite Hd, app_length, map_length in Ek; simpl in Ek.
    repeat split; try lia.
  - destruct j as [|c j]; [simpl in *; lia|].
    exists s, c, j. simpl in *. repeat split; auto; lia.
Qed.

Lemma append_rep s l x : rep s l ->
  exists s', SeqAppend s x = Ok s' /\ rep s' (l ++ [x]) /\
             sdtor s' = sdtor s /\ slog s' = slog s.
Proof.
  intros R. destruct (expand_rep R) as (s' & c & j & He & Hd & Hl & Hc & Hdt & Hlog).
  unfold SeqAppend. rewrite He. simpl. rewrite Hd, Hl, aset_rep_end. simpl.
  eexists; split; [reflexivity|]. split; [|simpl; auto].
  exists j; simpl. rewrite app_length; simpl. repeat split; lia.
Qed.

Lemma append_list_rep xs : forall s l, rep s l ->
  exists s', append_list s xs = Ok s' /\ rep s' (l ++ xs) /\
             sdtor s' = sdtor s /\ slog s' = slog s.
Proof.
  induction xs as [|x xs IH]; intros s l R; simpl.
  - exists s. rewrite app_nil_r. auto.
  - destruct (append_rep x R) as (s1 & H1 & R1 & D1 & L1). rewrite H1; simpl.
    destruct (IH _ _ R1) as (s2 & H2 & R2 & D2 & L2).
    exists s2. rewrite <- app_assoc in R2. simpl in R2. repeat split; auto; congruence.
Qed.

(** copying a range [i, i+n) of one sequence to the end of another *)
Lemma getrange_loop_rep n : forall s l t m i, rep s l -> rep t m -> i + n <= length l ->
  exists t', getrange_loop t s i n = Ok t' /\ rep t' (m ++ firstn n (skipn i l)) /\
             sdtor t' = sdtor t /\ slog t' = slog t.
Proof.
  induction n as [|n IH]; intros s l t m i Rs Rt H; simpl.
  - exists t. rewrite app_nil_r. auto.
  - rewrite (SeqAt_rep Rs) by lia. simpl.
    destruct (append_rep (nth i l None) Rt) as (t1 & H1 & R1 & D1 & L1). rewrite H1; simpl.
    destruct (IH s l t1 _ (S i) Rs R1) as (t2 & H2 & R2 & D2 & L2); [lia|].
    exists t2. rewrite (skipn_cons_nth l (i:=i) None) by lia. simpl.
    rewrite <- app_assoc in R2; simpl in R2. repeat split; auto; congruence.
Qed.

Lemma appendseq_loop_getrange n : forall s t i, appendseq_loop t s i n = getrange_loop t s i n.
Proof.
  reflexivity.
Qed.

Lemma getrange_rep s l i j : rep s l ->
  if (i <=? j) && (j <? length l)
  then exists t, SeqGetRange s i j = Ok (Some t) /\ rep t (slice l i j) /\
                 sdtor t = sdtor s /\ slog t = []
  else SeqGetRange s i j = Ok None.
Proof.
  intros R. unfold SeqGetRange. rewrite (rep_len R).
  destruct (Nat.leb_spec i j), (Nat.ltb_spec j i), (Nat.leb_spec (length l) i),
    (Nat.leb_spec (length l) j), (Nat.ltb_spec j (length l)); cbn [orb andb]; try lia; auto.
  destruct (@getrange_loop_rep (S j - i) s l _ _ i R (rep_new (j - i + 1) (sdtor s)))
    as (t & Ht & Rt & D & L); [lia|].
  rewrite Ht. simpl. exists t. repeat split; auto.
Qed.

Lemma items_loop_rep n : forall s l i, rep s l -> i + n <= length l ->
  items_loop s i n = Ok (firstn n (skipn i l)).
Proof.
  induction n as [|n IH]; intros s l i R H; simpl; auto.
  rewrite (SeqAt_rep R) by lia; simpl. rewrite (IH s l (S i)) by (auto; lia). simpl.
  rewrite (skipn_cons_nth l (i:=i) None) by lia. reflexivity.
Qed.

Lemma items_rep s l : rep s l -> items s = Ok l.
Proof.
  intros R. unfold items, SeqLength. rewrite (rep_len R).
  rewrite (@items_loop_rep _ s l) by (auto; lia). simpl. rewrite firstn_all. reflexivity.
Qed.

Lemma destroy_loop_rep n : forall d l j i, d = map Some l ++ j -> i + n <= length l ->
  destroy_loop d i n = Ok (firstn n (skipn i l)).
Proof.
  induction n as [|n IH]; intros d l j i -> H; simpl; auto.
  rewrite (@aget_rep _ l j i None) by lia; simpl.
  rewrite (IH _ l j (S i)) by (auto; lia). simpl.
  rewrite (skipn_cons_nth l (i:=i) None) by lia. reflexivity.
Qed.

(** log growth: destroyed items are recorded only when there is a destructor *)
Definition dlog (b : bool) l := if b then l else [].

Lemma DestroyRange_rep s l i j : rep s l -> i <= j -> j < length l ->
  DestroyRange s i j =
  Ok (mkSeq (sdata s) (slen s) (scap s) (sdtor s) (slog s ++ dlog (sdtor s) (slice l i j))).
Proof.
  intros (jk & Hd & _) Hij Hj. unfold DestroyRange, dlog.
  destruct (sdtor s) eqn:E.
  - rewrite (@destroy_loop_rep (S j - i) _ l jk) by (auto; lia). simpl. reflexivity.
  - rewrite app_nil_r. rewrite <- E. destruct s; reflexivity.
Qed.

Lemma move_rep (d : cells ptr) l jk i j : d = map Some l ++ jk -> i <= j -> j < length l ->
  exists jk', (if 0 <? length l - j - 1 then amove d i (j + 1) (length l - j - 1) else Ok d)
   = Ok (map Some (without l i j) ++ jk') /\
   length (without l i j) + length jk' = length l + length jk.
Proof.
  intros -> Hij Hj. unfold without.
  destruct (Nat.ltb_spec 0 (length l - j - 1)) as [Hr|Hr].
  - unfold amove. rewrite app_length, map_length.
    set (r := length l - j - 1) in *.
    replace ((i + r <=? length l + length jk) && (j + 1 + r <=? length l + length jk)) with true
      by (symmetry; apply andb_true_iff; split; apply Nat.leb_le; lia).
    exists (skipn (i + r) (map Some l) ++ jk). split.
    + f_equal. rewrite firstn_app_le by (rewrite map_length; lia).
      rewrite skipn_app_le by (rewrite map_length; lia).
      rewrite firstn_app_le by (rewrite skipn_length, map_length; lia).
      rewrite (skipn_app_le (map Some l)) by (rewrite map_length; lia).
      rewrite (firstn_all2 (n:=r)) by (rewrite skipn_length, map_length; lia).
      replace (j + 1) with (S j) by lia.
      rewrite map_app, firstn_map, skipn_map, <- app_assoc. reflexivity.
    + rewrite !app_length, !skipn_length, firstn_length, map_length. lia.
  - exists (skipn i (map Some l) ++ jk). split.
    + f_equal. rewrite (skipn_all2 (n:=S j) l) by lia. rewrite app_nil_r.
      rewrite <- firstn_map, app_assoc, firstn_skipn. reflexivity.
    + rewrite !app_length, !skipn_length, firstn_length, map_length. lia.
Qed.

Lemma without_length l i j : i <= j -> j < length l -> length (without l i j) = length l - (j - i + 1).
Proof. intros. unfold without. rewrite app_length, firstn_length, skipn_length. lia. Qed.

Lemma softremove_rep s l i j : rep s l -> i <= j -> j < length l ->
  exists s', SeqSoftRemoveRange s i j = Ok s' /\ rep s' (without l i j) /\
             sdtor s' = sdtor s /\ slog s' = slog s.
Proof.
  intros (jk & Hd & Hl & Hc & Hp) Hij Hj. unfold SeqSoftRemoveRange, massert. rewrite Hl.
  destruct (Nat.ltb_spec j (length l)); [|lia]. destruct (Nat.leb_spec i j); [|lia].
  destruct (@move_rep _ _ _ _ _ Hd Hij Hj) as (jk' & Hm & Hlen). rewrite Hm. simpl.
  eexists; split; [reflexivity|]. split; [|auto].
  exists jk'. simpl. rewrite without_length in * by auto. repeat split; lia.
Qed.

Lemma remove_rep s l i j : rep s l -> i <= j -> j < length l ->
  exists s', SeqRemoveRange s i j = Ok s' /\ rep s' (without l i j) /\
             sdtor s' = sdtor s /\ slog s' = slog s ++ dlog (sdtor s) (slice l i j).
Proof.
  intros R Hij Hj. unfold SeqRemoveRange, massert. rewrite (rep_len R).
  destruct (Nat.ltb_spec j (length l)); [|lia]. destruct (Nat.leb_spec i j); [|lia].
  rewrite (DestroyRange_rep R) by auto. simpl. rewrite (rep_len R).
  destruct R as (jk & Hd & Hl & Hc & Hp).
  destruct (@move_rep _ _ _ _ _ Hd Hij Hj) as (jk' & Hm & Hlen). rewrite Hm. simpl.
  eexists; split; [reflexivity|]. split; [|auto].
  exists jk'. simpl. rewrite without_length in * by auto. repeat split; lia.
Qed.

Lemma without_all l : without l 0 (length l - 1) = [].
Proof. unfold without. rewrite (skipn_all2 (n := S (length l - 1))) by lia. reflexivity. Qed.
Lemma slice_all l : slice l 0 (length l - 1) = l.
Proof. unfold slice. rewrite firstn_all2 by (rewrite skipn_length; lia). reflexivity. Qed.

Lemma clear_rep s l : rep s l ->
  exists s', SeqClear s = Ok s' /\ rep s' [] /\
             sdtor s' = sdtor s /\ slog s' = slog s ++ dlog (sdtor s) l.
Proof.
  intros R. unfold SeqClear, SeqLength. rewrite (rep_len R).
  destruct (Nat.ltb_spec 0 (length l)).
  - destruct (@remove_rep s l 0 (length l - 1) R) as (s' & H1 & H2 & H3 & H4); try lia.
    rewrite without_all in H2. rewrite slice_all in H4. eauto.
  - destruct l; simpl in *; [|lia]. exists s. unfold dlog.
    destruct (sdtor s); rewrite app_nil_r; auto.
Qed.

Lemma set_rep s l i x : rep s l -> i < length l ->
  exists s', SeqSet s i x = Ok s' /\ rep s' (firstn i l ++ [x] ++ skipn (S i) l) /\
             sdtor s' = sdtor s /\ slog s' = slog s ++ dlog (sdtor s) (slice l i i).
Proof.
  intros R H. unfold SeqSet, massert. rewrite (rep_len R).
  destruct (Nat.ltb_spec i (length l)); [|lia].
  rewrite (aget_of R) by auto. simpl.
  assert (E : slice l i i = [nth i l None]).
  { unfold slice. replace (S i - i) with 1 by lia.
    rewrite (skipn_cons_nth l (i:=i) None) by lia. reflexivity. }
  rewrite E. destruct R as (jk & Hd & Hl & Hc & Hp). rewrite Hd, aset_rep by auto.
  unfold dlog. destruct (sdtor s); simpl; eexists; (split; [reflexivity|]); (split; [|auto]);
    exists jk; simpl; (change (x :: skipn (S i) l) with ([x] ++ skipn (S i) l));
    simpl; rewrite <- upd_spec by auto; rewrite length_upd; auto.
Qed.

(** ** search *)
Section Cmp.
Variable cmp : ptr -> ptr -> Z.

Lemma lookup_loop_rep n : forall d l jk key i, d = map Some l ++ jk -> i + n = length l ->
  lookup_loop cmp d key i n =
  Ok (match find (fun y => (cmp key y =? 0)%Z) (skipn i l) with Some x => x | None => None end).
Proof.
  induction n as [|n IH]; intros d l jk key i -> H; simpl.
  - rewrite skipn_all2 by lia. reflexivity.
  - rewrite (@aget_rep _ l jk i None) by lia; simpl.
    rewrite (skipn_cons_nth l (i:=i) None) by lia. simpl.
    destruct (Z.eqb_spec (cmp key (nth i l None)) 0); auto.
    apply IH with (jk := jk); auto; lia.
Qed.

Lemma lookup_rep s l key : rep s l ->
  SeqLookup cmp s key =
  Ok (match find (fun y => (cmp key y =? 0)%Z) l with Some x => x | None => None end).
Proof.
  intros R. unfold SeqLookup. rewrite (rep_len R). destruct R as (jk & Hd & _).
  rewrite (@lookup_loop_rep (length l) _ l jk) by (auto; lia). reflexivity.
Qed.

Lemma appendonce_rep s l x : rep s l ->
  exists s', SeqAppendOnce cmp s x = Ok s' /\ sdtor s' = sdtor s /\
  match find (fun y => (cmp x y =? 0)%Z) l with
  | Some (Some _) => rep s' l /\ slog s' = slog s ++ dlog (sdtor s) [x]
  | _ => rep s' (l ++ [x]) /\ slog s' = slog s
  end.
Proof.
  intros R. unfold SeqAppendOnce. rewrite (lookup_rep _ R). simpl.
  destruct (append_rep x R) as (s' & H1 & R1 & D1 & L1).
  destruct (find _ l) as [[y|]|]; try (exists s'; repeat split; auto; fail).
  eexists; split; [reflexivity|]. unfold dlog. destruct (sdtor s) eqn:E; simpl; rewrite ?app_nil_r; auto.
Qed.

(** first index of a matching item *)
Fixpoint find_idx (f : ptr -> bool) l : option nat :=
  match l with
  | [] => None
  | x :: t => if f x then Some 0 else option_map S (find_idx f t)
  end.

Lemma indexof_loop_rep n : forall d l jk key i, d = map Some l ++ jk -> i + n = length l ->
  indexof_loop cmp d key i n =
  Ok (option_map (Nat.add i) (find_idx (fun y => (cmp key y =? 0)%Z) (skipn i l))).
Proof.
  induction n as [|n IH]; intros d l jk key i -> H; simpl.
  - rewrite skipn_all2 by lia. reflexivity.
  - rewrite (@aget_rep _ l jk i None) by lia; simpl.
    rewrite (skipn_cons_nth l (i:=i) None) by lia. simpl.
    destruct (Z.eqb_spec (cmp key (nth i l None)) 0); simpl.
    + do 2 f_equal. lia.
    + rewrite (IH _ l jk) by (auto; lia). f_equal.
      destruct (find_idx _ (skipn (S i) l)); simpl; auto.
Qed.

Lemma find_idx_spec f l :
  match find_idx f l with
  | Some i => i < length l /\ f (nth i l None) = true /\ forall k, k < i -> f (nth k l None) = false
  | None => forall x, In x l -> f x = false
  end.
Proof.
  induction l as [|x t IH]; simpl; [tauto|].
  destruct (f x) eqn:E.
  - repeat split; auto; try lia. 
  - destruct (find_idx f t) as [i|]; simpl.
    + destruct IH as (H1 & H2 & H3). repeat split; try lia; auto.
      intros [|k] Hk; simpl; auto. apply H3; lia.
    + intros y [->|H]; auto.
Qed.

Lemma indexof_rep s l key : rep s l ->
  exists r, SeqIndexOf cmp s key = Ok r /\
  match r with
  | Some i => i < length l /\ cmp key (nth i l None) = 0%Z /\
              forall k, k < i -> cmp key (nth k l None) <> 0%Z
  | None => forall x, In x l -> cmp key x <> 0%Z
  end.
Proof.
  intros R. unfold SeqIndexOf. rewrite (rep_len R). destruct R as (jk & Hd & _).
  rewrite (@indexof_loop_rep (length l) _ l jk) by (auto; lia).
  eexists; split; [reflexivity|]. simpl skipn.
  pose proof (find_idx_spec (fun y => (cmp key y =? 0)%Z) l) as H.
  destruct (find_idx _ l) as [i|]; simpl.
  - destruct H as (H1 & H2 & H3). split; [exact H1|]. split; [lia|]. intros k Hk. specialize (H3 k Hk). simpl in H3. lia.
  - intros x Hx. specialize (H x Hx). simpl in H. lia.
Qed.

(** bisection: [key] splits the list into a part it is above, one it equals,
    one it is below *)
Definition split_by (key : ptr) l : Prop :=
  forall i j, i <= j -> j < length l ->
    ((cmp key (nth i l None) <= 0)%Z -> (cmp key (nth j l None) <= 0)%Z) /\
    ((cmp key (nth j l None) >= 0)%Z -> (cmp key (nth i l None) >= 0)%Z) /\
    ((cmp key (nth i l None) < 0)%Z -> (cmp key (nth j l None) < 0)%Z).

Lemma bisect_rep fuel : forall d l jk key low high,
  d = map Some l ++ jk -> low <= high -> high <= length l -> high - low < fuel ->
  split_by key l ->
  (forall k, k < low -> (cmp key (nth k l None) > 0)%Z) ->
  (forall k, high <= k -> k < length l -> (cmp key (nth k l None) < 0)%Z) ->
  exists r, bisect cmp fuel d key low high = Ok r /\
  match r with
  | Some i => i < length l /\ cmp key (nth i l None) = 0%Z
  | None => forall x, In x l -> cmp key x <> 0%Z
  end.
Proof.
  induction fuel as [|f IH]; intros d l jk key low high Hd Hlh Hh Hf Hs Hlo Hhi; [lia|].
  cbn [bisect]. destruct (Nat.ltb_spec low high) as [Hlt|Hge].
  - set (m := low + (high - low) / 2).
    assert (Hm : low <= m < high) by (unfold m; lia).
    subst d. rewrite (@aget_rep _ l jk m None) by lia. cbn [bind].
    destruct (Z.eqb_spec (cmp key (nth m l None)) 0) as [E|E].
    + eexists; split; [reflexivity|]. simpl; split; [lia|auto].
    + destruct (Z.ltb_spec 0 (cmp key (nth m l None))) as [G|G].
      * apply (IH _ l jk key (m + 1) high); auto; try lia.
        intros k Hk. destruct (Nat.eq_dec k m) as [->|]; [lia|].
        destruct (Hs k m) as (S1 & S2 & S3); try lia.
      * apply (IH _ l jk key low m); auto; try lia.
        intros k Hk1 Hk2. destruct (Hs m k) as (S1 & S2 & S3); try lia.
  - eexists; split; [reflexivity|]. simpl. intros x Hx.
    destruct (In_nth _ _ None Hx) as (k & Hk & <-).
    destruct (Nat.lt_ge_cases k low) as [H|H].
    + specialize (Hlo k H); lia.
    + specialize (Hhi k ltac:(lia) Hk); lia.
Qed.

Lemma binary_rep s l key : rep s l -> split_by key l ->
  exists r, SeqBinaryIndexOf cmp s key = Ok r /\
  match r with
  | Some i => i < length l /\ cmp key (nth i l None) = 0%Z
  | None => forall x, In x l -> cmp key x <> 0%Z
  end.
Proof.
  intros R Hs. unfold SeqBinaryIndexOf. rewrite (rep_len R).
  destruct (Nat.eqb_spec (length l) 0) as [E|E].
  - eexists; split; [reflexivity|]. destruct l; simpl in *; [tauto|lia].
  - destruct R as (jk & Hd & _).
    apply (@bisect_rep _ _ l jk); auto; try lia.
Qed.
End Cmp.

(** ** swaps, reversal and shuffle *)
Definition swapl l i j : list ptr := upd (upd l i (nth j l None)) j (nth i l None).

Lemma swap_rep (d : cells ptr) l jk i j : d = map Some l ++ jk -> i < length l -> j < length l ->
  Swap d i j = Ok (map Some (swapl l i j) ++ jk).
Proof.
  intros -> Hi Hj. unfold Swap.
  rewrite !(@aget_rep _ l jk _ None) by auto. simpl.
  rewrite aset_rep by auto. simpl. rewrite aset_rep by (rewrite length_upd; auto). reflexivity.
Qed.

Lemma swapl_length l i j : length (swapl l i j) = length l.
Proof. unfold swapl. rewrite !length_upd. reflexivity. Qed.

Lemma swapl_nth l i j k : i < length l -> j < length l ->
  nth k (swapl l i j) None = if k =? j then nth i l None else if k =? i then nth j l None else nth k l None.
Proof.
  intros Hi Hj. unfold swapl. rewrite upd_nth by (rewrite length_upd; auto).
  rewrite upd_nth by auto. rewrite (Nat.eqb_sym j k), (Nat.eqb_sym i k). reflexivity.
Qed.

Lemma swapl_perm l i j : i < length l -> j < length l -> Permutation l (swapl l i j).
Proof.
  intros Hi Hj. apply (Permutation_nth l (swapl l i j) None).
  split; [apply swapl_length|].
  exists (fun k => if k =? j then i else if k =? i then j else k). split; [|split].
  - intros k Hk. destruct (Nat.eqb_spec k j), (Nat.eqb_spec k i); lia.
  - intros a b Ha Hb. repeat (match goal with |- context [?x =? ?y] => destruct (Nat.eqb_spec x y) end); try lia.
  - intros k Hk. rewrite swapl_nth by auto.
    destruct (Nat.eqb_spec k j), (Nat.eqb_spec k i); auto.
Qed.

Lemma reverse_loop_rep n : forall d l jk i, d = map Some l ++ jk -> i + n <= length l / 2 ->
  exists l', reverse_loop d (length l) i n = Ok (map Some l' ++ jk) /\ length l' = length l /\
  forall k, k < length l ->
    nth k l' None = if ((i <=? k) && (k <? i + n)) || ((length l - i - n <=? k) && (k <? length l - i))
                    then nth (length l - 1 - k) l None else nth k l None.
Proof.
  induction n as [|n IH]; intros d l jk i Hd H; cbn [reverse_loop].
  - exists l. rewrite Hd. split; [auto|]. split; [auto|]. intros k Hk.
    destruct (((i <=? k) && (k <? i + 0)) || ((length l - i - 0 <=? k) && (k <? length l - i))) eqn:E; auto; lia.
  - rewrite (@swap_rep d l jk) by (auto; lia). simpl.
    destruct (IH _ (swapl l i (length l - 1 - i)) jk (S i) eq_refl) as (l' & H1 & H2 & H3).
    { rewrite swapl_length. lia. }
    rewrite swapl_length in *. exists l'. split; [auto|]. split; [auto|].
    intros k Hk. rewrite H3 by auto. rewrite !swapl_nth by lia.
    repeat match goal with
    | |- context [if ?b then _ else _] => destruct b eqn:?
    end; try lia; f_equal; lia.
Qed.

Lemma reverse_rep s l : rep s l ->
  exists s', SeqReverse s = Ok s' /\ rep s' (rev l) /\ sdtor s' = sdtor s /\ slog s' = slog s.
Proof.
  intros (jk & Hd & Hl & Hc & Hp). unfold SeqReverse. rewrite Hl.
  destruct (@reverse_loop_rep (length l / 2) _ l jk 0 Hd) as (l' & H1 & H2 & H3); [lia|].
  rewrite H1; simpl. eexists; split; [reflexivity|]. split; [|auto].
  assert (l' = rev l) as ->.
  { apply nth_ext_lt with (d := None); [rewrite rev_length; auto|].
    intros k Hk. rewrite H2 in Hk. rewrite H3 by auto. rewrite rev_nth by auto.
    replace (length l - S k) with (length l - 1 - k) by lia.
    match goal with |- context [if ?b then _ else _] => destruct b eqn:E end; auto.
    f_equal. lia. }
  exists jk; simpl. rewrite rev_length. auto.
Qed.

Lemma shuffle_loop_rep rnd i : forall d l jk, d = map Some l ++ jk -> i < length l ->
  exists l', shuffle_loop d rnd i = Ok (map Some l' ++ jk) /\ Permutation l l'.
Proof.
  induction i as [|i IH]; intros d l jk Hd H; cbn [shuffle_loop].
  - exists l. rewrite Hd. auto.
  - assert (Hm : rnd (S i) mod (S i + 1) < length l).
    { pose proof (Nat.mod_upper_bound (rnd (S i)) (S i + 1)). lia. }
    rewrite (@swap_rep d l jk) by (auto; lia). cbn [bind].
    destruct (IH _ (swapl l (S i) (rnd (S i) mod (S i + 1))) jk eq_refl) as (l' & H1 & H2).
    { rewrite swapl_length. lia. }
    exists l'. split; auto. eapply Permutation_trans; [|exact H2]. apply swapl_perm; lia.
Qed.

Lemma shuffle_rep s l rnd : rep s l ->
  exists s' l', SeqShuffle s rnd = Ok s' /\ rep s' l' /\ Permutation l l' /\
                sdtor s' = sdtor s /\ slog s' = slog s.
Proof.
  intros R. pose proof R as (jk & Hd & Hl & Hc & Hp). unfold SeqShuffle, SeqLength. rewrite Hl.
  destruct (Nat.eqb_spec (length l) 0).
  - exists s, l. auto.
  - destruct (@shuffle_loop_rep rnd (length l - 1) _ l jk Hd) as (l' & H1 & H2); [lia|].
    rewrite H1; simpl. eexists _, l'. split; [reflexivity|]. split; [|auto].
    exists jk; simpl. pose proof (Permutation_length H2). repeat split; lia.
Qed.

(** every permutation is reached by some random stream *)
Lemma shuffle_loop_ext rnd rnd' i : forall d : cells ptr,
  (forall k, 0 < k <= i -> rnd k = rnd' k) -> shuffle_loop d rnd i = shuffle_loop d rnd' i.
Proof.
  induction i as [|i IH]; intros d H; cbn [shuffle_loop]; auto.
  rewrite (H (S i)) by lia.
  destruct (Swap d (S i) (rnd' (S i) mod (S i + 1))); cbn [bind]; auto.
  apply IH. intros k Hk; apply H; lia.
Qed.

Lemma shuffle_loop_onto i : forall l tgt jk,
  i < length l -> Permutation (firstn (S i) l) (firstn (S i) tgt) ->
  skipn (S i) l = skipn (S i) tgt -> length tgt = length l ->
  exists rnd, shuffle_loop (map Some l ++ jk) rnd i = Ok (map Some tgt ++ jk).
Proof.
  induction i as [|i IH]; intros l tgt jk Hi HP HS HL.
  - exists (fun _ => 0). simpl. destruct l as [|x l]; simpl in *; [lia|].
    destruct tgt as [|y tgt]; simpl in *; [lia|].
    rewrite HS. apply Permutation_length_1 in HP. subst. reflexivity.
  - (* find where tgt[i+1] sits among the first i+2 cells *)
    assert (Hin : In (nth (S i) tgt None) (firstn (S (S i)) l)).
    { eapply Permutation_in; [apply Permutation_sym, HP|].
      rewrite (@firstn_S_nth _ tgt (S i) None) by lia. apply in_or_app; right; left; reflexivity. }
    destruct (In_nth _ _ None Hin) as (j & Hj & Ej).
    rewrite firstn_length in Hj. rewrite nth_firstn in Ej by lia.
    set (l1 := swapl l (S i) j).
    assert (L1 : length l1 = length l) by apply swapl_length.
    assert (N1 : nth (S i) l1 None = nth (S i) tgt None).
    { unfold l1. rewrite swapl_nth by lia.
      destruct (Nat.eqb_spec (S i) j) as [E|E]; [congruence|]. rewrite Nat.eqb_refl. auto. }
    assert (S1 : skipn (S (S i)) l1 = skipn (S (S i)) tgt).
    { rewrite <- HS. apply nth_ext_lt with (d := None); rewrite !skipn_length; [lia|].
      intros k Hk. rewrite !nth_skipn. unfold l1. rewrite swapl_nth by lia.
      destruct (Nat.eqb_spec (S (S i) + k) j); [lia|].
      destruct (Nat.eqb_spec (S (S i) + k) (S i)); [lia|]. reflexivity. }
    assert (P1 : Permutation (firstn (S (S i)) l1) (firstn (S (S i)) tgt)).
    { eapply Permutation_trans; [|apply HP].
      assert (PL : Permutation l1 l) by (apply Permutation_sym, swapl_perm; lia).
      rewrite <- (firstn_skipn (S (S i)) l1), <- (firstn_skipn (S (S i)) l) in PL.
      rewrite S1, <- HS in PL. eapply Permutation_app_inv_r; exact PL. }
    destruct (IH l1 tgt jk) as (rnd & HR).
    + lia.
    + rewrite !(@firstn_S_nth _ _ (S i) None) in P1 by lia.
      rewrite N1 in P1. eapply Permutation_app_inv_r; exact P1.
    + rewrite !(@skipn_cons_nth _ _ (S i) None) by lia. rewrite N1, S1. reflexivity.
    + lia.
    + exists (fun k => if k =? S i then j else rnd k).
      cbn [shuffle_loop]. rewrite Nat.eqb_refl.
      rewrite Nat.mod_small by lia.
      rewrite (@swap_rep _ l jk) by (auto; lia). cbn [bind]. fold l1.
      rewrite <- HR. apply shuffle_loop_ext. intros k Hk.
      destruct (Nat.eqb_spec k (S i)); [lia|auto].
Qed.

Lemma shuffle_onto s l l' : rep s l -> Permutation l l' ->
  exists rnd s', SeqShuffle s rnd = Ok s' /\ rep s' l'.
Proof.
  intros R HP. pose proof R as (jk & Hd & Hl & Hc & Hp).
  pose proof (Permutation_length HP) as HL.
  unfold SeqShuffle, SeqLength. rewrite Hl. destruct (Nat.eqb_spec (length l) 0) as [E|E].
  - exists (fun _ => 0), s. split; auto.
    destruct l; [|simpl in E; lia]. apply Permutation_nil in HP. subst. auto.
  - destruct (@shuffle_loop_onto (length l - 1) l l' jk) as (rnd & H); try lia.
    + rewrite !firstn_all2 by lia. auto.
    + rewrite !skipn_all2 by lia. reflexivity.
    + exists rnd. rewrite Hd, H. simpl. eexists; split; [reflexivity|].
      exists jk; simpl. repeat split; lia.
Qed.

(** ** SeqRemoveNulls *)
Definition nonnull (p : ptr) : bool := match p with Some _ => true | None => false end.
Definition isnull (p : ptr) : bool := match p with Some _ => false | None => true end.

Lemma removenulls_loop_rep n : forall pre post jk from to,
  n = length post -> from = length pre -> to <= from ->
  exists rest, removenulls_loop (map Some (pre ++ post) ++ jk) from to n =
     Ok (map Some (firstn to pre ++ filter nonnull post ++ rest) ++ jk, to + length (filter nonnull post))
   /\ length (firstn to pre ++ filter nonnull post ++ rest) = length (pre ++ post).
Proof.
  induction n as [|n IH]; intros pre post jk from to Hn Hf Ht; cbn [removenulls_loop].
  - destruct post; simpl in Hn; [|lia]. exists (skipn to pre). simpl.
    rewrite app_nil_r, firstn_skipn, Nat.add_0_r. auto.
  - destruct post as [|x post]; simpl in Hn; [lia|].
    rewrite (@aget_rep _ (pre ++ x :: post) jk from None) by (rewrite app_length; simpl; lia).
    rewrite app_nth2 by lia. rewrite Hf, Nat.sub_diag. cbn [nth bind].
    destruct x as [x|].
    + rewrite aset_rep by (rewrite app_length; simpl; lia). cbn [bind].
      assert (E : upd (pre ++ Some x :: post) to (Some x) =
                  (upd (pre ++ [Some x]) to (Some x)) ++ post).
      { rewrite <- upd_app_l by (rewrite app_length; simpl; lia).
        rewrite <- app_assoc. reflexivity. }
      rewrite E.
      destruct (IH (upd (pre ++ [Some x]) to (Some x)) post jk (S (length pre)) (S to)) as (rest & H1 & H2); try lia.
      { rewrite length_upd, app_length; simpl; lia. }
      rewrite H1. exists rest. simpl.
      assert (E2 : firstn (S to) (upd (pre ++ [Some x]) to (Some x)) = firstn to pre ++ [Some x]).
      { rewrite (@firstn_S_nth _ _ to None) by (rewrite length_upd, app_length; simpl; lia).
        rewrite upd_nth by (rewrite app_length; simpl; lia). rewrite Nat.eqb_refl.
        f_equal. rewrite upd_spec by (rewrite app_length; simpl; lia).
        rewrite firstn_app_le by (rewrite firstn_length, app_length; simpl; lia).
        rewrite firstn_firstn, Nat.min_id. apply firstn_app_le; lia. }
      rewrite E2. rewrite <- !app_assoc. simpl. split.
      * do 2 f_equal. lia.
      * rewrite E2, <- app_assoc in H2. simpl in H2. rewrite H2.
        rewrite !app_length, length_upd, app_length; simpl; lia.
    + destruct (IH (pre ++ [None]) post jk (S (length pre)) to) as (rest & H1 & H2); try lia.
      { rewrite app_length; simpl; lia. }
      rewrite <- app_assoc in H1, H2. simpl in H1, H2.
      rewrite firstn_app_le in H1, H2 by lia. exists rest. simpl. auto.
Qed.

Lemma removenulls_rep s l : rep s l ->
  exists s', SeqRemoveNulls s = Ok s' /\ rep s' (filter nonnull l) /\
             sdtor s' = sdtor s /\ slog s' = slog s.
Proof.
  intros (jk & Hd & Hl & Hc & Hp). unfold SeqRemoveNulls. rewrite Hl, Hd.
  destruct (@removenulls_loop_rep (length l) [] l jk 0 0) as (rest & H1 & H2); auto.
  simpl in H1, H2. rewrite H1; simpl. eexists; split; [reflexivity|]. split; [|auto].
  exists (map Some rest ++ jk); simpl. rewrite map_app, <- app_assoc.
  rewrite app_length in *. rewrite map_length. repeat split; lia.
Qed.

(** ** one API step refines the specification step *)
Lemma step_refines cmp s l o e : rep s l -> spec_step cmp l o = Some e ->
  exists s', api_step cmp s o = Ok (s', ret e) /\ rep s' (after e) /\ sdtor s' = sdtor s /\
             slog s' = slog s ++ dlog (sdtor s) (destroyed e).
Proof.
  intros R H. assert (N : dlog (sdtor s) [] = []) by (unfold dlog; destruct (sdtor s); auto).
  destruct o; cbn [spec_step] in H; cbn [api_step].
  - injection H as <-. destruct (append_rep x R) as (s' & H1 & R1 & D & L).
    rewrite H1; simpl. rewrite N, app_nil_r. eauto.
  - destruct (appendonce_rep cmp x R) as (s' & H1 & D & M). rewrite H1; simpl. exists s'.
    destruct (find _ l) as [[y|]|]; injection H as <-; simpl; destruct M as [M1 M2];
      rewrite ?N, ?app_nil_r; auto.
  - injection H as <-.
    destruct (append_list_rep xs (rep_new 0 false)) as (t & Ht & Rt & _). simpl in Rt.
    rewrite Ht. simpl. unfold SeqAppendSeq. rewrite (rep_len Rt), appendseq_loop_getrange.
    destruct (@getrange_loop_rep (length xs) t xs s l 0 Rt R) as (s' & H1 & R1 & D & L); [lia|].
    rewrite H1; simpl. simpl in R1. rewrite firstn_all in R1. rewrite N, app_nil_r. eauto.
  - destruct (Nat.ltb_spec i (length l)); [|discriminate]. injection H as <-.
    destruct (set_rep x R H0) as (s' & H1 & R1 & D & L). rewrite H1; simpl. eauto.
  - destruct (Nat.ltb_spec i (length l)); [|discriminate]. injection H as <-. unfold SeqRemove.
    destruct (@remove_rep s l i i R) as (s' & H1 & R1 & D & L); try lia. rewrite H1; simpl. eauto.
  - destruct (Nat.leb_spec i j); [|discriminate]. destruct (Nat.ltb_spec j (length l)); [|discriminate].
    injection H as <-.
    destruct (@remove_rep s l i j R) as (s' & H1' & R1 & D & L); try lia. rewrite H1'; simpl. eauto.
  - destruct (Nat.ltb_spec i (length l)); [|discriminate]. injection H as <-. unfold SeqSoftRemove.
    destruct (@softremove_rep s l i i R) as (s' & H1 & R1 & D & L); try lia.
    rewrite H1; simpl. rewrite N, app_nil_r. eauto.
  - destruct (Nat.leb_spec i j); [|discriminate]. destruct (Nat.ltb_spec j (length l)); [|discriminate].
    injection H as <-.
    destruct (@softremove_rep s l i j R) as (s' & H1' & R1 & D & L); try lia.
    rewrite H1'; simpl. rewrite N, app_nil_r. eauto.
  - injection H as <-. destruct (clear_rep R) as (s' & H1 & R1 & D & L). rewrite H1; simpl. eauto.
  - injection H as <-. destruct (reverse_rep R) as (s' & H1 & R1 & D & L).
    rewrite H1; simpl. rewrite N, app_nil_r. eauto.
  - destruct (Nat.leb_spec i (length l)); [|discriminate]. injection H as <-.
    unfold SeqSplit, SeqLength, massert. rewrite (rep_len R).
    destruct (Nat.leb_spec i (length l)); [|lia]. destruct (Nat.leb_spec (length l) i).
    + simpl. exists s. unfold items. simpl. rewrite skipn_all2, firstn_all2 by lia.
      rewrite N, app_nil_r. auto.
    + pose proof (getrange_rep i (length l - 1) R) as G.
      destruct (Nat.leb_spec i (length l - 1)); [|lia].
      destruct (Nat.ltb_spec (length l - 1) (length l)); [|lia]. simpl in G.
      destruct G as (t & Ht & Rt & _). rewrite Ht. cbn [bind].
      destruct (@softremove_rep s l i (length l - 1) R) as (s' & H1' & R1 & D & L); try lia.
      rewrite H1'. cbn [bind]. rewrite (items_rep Rt). simpl. exists s'.
      unfold slice, without in *. replace (S (length l - 1) - i) with (length l - i) by lia.
      rewrite firstn_all2 by (rewrite skipn_length; lia).
      rewrite (skipn_all2 (n := S (length l - 1))), app_nil_r in R1 by lia.
      rewrite N, app_nil_r. auto.
  - injection H as <-. pose proof (getrange_rep i j R) as G.
    destruct ((i <=? j) && (j <? length l)).
    + destruct G as (t & Ht & Rt & _). rewrite Ht. cbn [bind].
      rewrite (items_rep Rt). simpl. exists s. rewrite N, app_nil_r. auto.
    + rewrite G. simpl. exists s. rewrite N, app_nil_r. auto.
  - injection H as <-. destruct (removenulls_rep R) as (s' & H1 & R1 & D & L).
    rewrite H1; simpl. rewrite N, app_nil_r. eauto.
  - destruct (Nat.ltb_spec i (length l)); [|discriminate]. injection H as <-.
    rewrite (SeqAt_rep R) by auto. simpl. exists s. rewrite N, app_nil_r. auto.
  - injection H as <-. unfold SeqLength. rewrite (rep_len R). simpl. exists s. rewrite N, app_nil_r. auto.
Qed.

(** a call outside its precondition never returns normally *)
Lemma step_guard cmp s l o : rep s l -> spec_step cmp l o = None -> api_step cmp s o = Abort.
Proof.
  intros R H. destruct o; cbn [spec_step] in H; try discriminate; cbn [api_step].
  - destruct (find _ l) as [[?|]|]; discriminate.
  - unfold SeqSet, massert. rewrite (rep_len R). destruct (i <? length l); [discriminate|auto].
  - unfold SeqRemove, SeqRemoveRange, massert. rewrite (rep_len R). destruct (i <? length l); [discriminate|auto].
  - unfold SeqRemoveRange, massert. rewrite (rep_len R).
    destruct (j <? length l), (i <=? j); try discriminate; auto.
  - unfold SeqSoftRemove, SeqSoftRemoveRange, massert. rewrite (rep_len R). destruct (i <? length l); [discriminate|auto].
  - unfold SeqSoftRemoveRange, massert. rewrite (rep_len R).
    destruct (j <? length l), (i <=? j); try discriminate; auto.
  - unfold SeqSplit, SeqLength, massert. rewrite (rep_len R). destruct (i <=? length l); [discriminate|auto].
  - unfold SeqAt, massert. rewrite (rep_len R). destruct (i <? length l); [discriminate|auto].
Qed.

Lemma dlog_app b l1 l2 : dlog b (l1 ++ l2) = dlog b l1 ++ dlog b l2.
Proof. destruct b; auto. Qed.

Lemma run_refines cmp ops : forall s l l' outs d r, rep s l ->
  spec_run cmp l ops = Some (l', outs, d, r) ->
  exists s', api_run cmp s ops = Ok (s', outs) /\ rep s' l' /\ sdtor s' = sdtor s /\
             slog s' = slog s ++ dlog (sdtor s) d.
Proof.
  induction ops as [|o ops IH]; intros s l l' outs d r R H; simpl in H |- *.
  - injection H as <- <- <- <-. exists s. unfold dlog. destruct (sdtor s); rewrite app_nil_r; auto.
  - destruct (spec_step cmp l o) as [e|] eqn:E; [|discriminate].
    destruct (spec_run cmp (after e) ops) as [[[[l1 o1] d1] r1]|] eqn:E1; [|discriminate].
    injection H as <- <- <- <-.
    destruct (step_refines cmp o R E) as (s1 & H1 & R1 & D1 & L1). rewrite H1. simpl.
    destruct (IH s1 _ _ _ _ _ R1 E1) as (s2 & H2 & R2 & D2 & L2). rewrite H2. simpl.
    exists s2. rewrite dlog_app. repeat split; auto; [congruence|].
    rewrite L2, L1, D1, app_assoc. reflexivity.
Qed.

Lemma destroy_rep s l : rep s l -> SeqDestroy s = Ok (slog s ++ dlog (sdtor s) l).
Proof.
  intros R. unfold SeqDestroy. rewrite (rep_len R).
  destruct (Nat.ltb_spec 0 (length l)).
  - rewrite (DestroyRange_rep R) by lia. simpl. rewrite slice_all. reflexivity.
  - destruct l; simpl in *; [|lia]. unfold dlog. destruct (sdtor s); rewrite app_nil_r; auto.
Qed.

(** ** ownership accounting on the specification *)
Lemma slice_without_perm l i j : i <= j -> j < length l -> Permutation l (slice l i j ++ without l i j).
Proof.
  intros Hij Hj. unfold slice, without.
  rewrite <- (firstn_skipn i l) at 1. rewrite <- (firstn_skipn (S j - i) (skipn i l)) at 1.
  rewrite skipn_skipn. replace (S j - i + i) with (S j) by lia.
  apply Permutation_app_swap_app.
Qed.

Lemma filter_perm l : Permutation l (filter isnull l ++ filter nonnull l).
Proof.
  induction l as [|[x|] t IH]; simpl; auto.
  - apply Permutation_cons_app. auto.
Qed.

Lemma spec_step_account cmp l o e : spec_step cmp l o = Some e ->
  Permutation (given o ++ l) (destroyed e ++ released e ++ after e).
Proof.
  intros H. destruct o; cbn [spec_step given] in *.
  - injection H as <-; simpl. apply Permutation_cons_append.
  - destruct (find _ l) as [[y|]|]; injection H as <-; simpl; auto; apply Permutation_cons_append.
  - injection H as <-; simpl. apply Permutation_app_comm.
  - destruct (Nat.ltb_spec i (length l)); [|discriminate]. injection H as <-; simpl.
    pose proof (@slice_without_perm l i i ltac:(lia) ltac:(lia)) as P.
    eapply Permutation_trans; [apply perm_skip, P|]. unfold without. rewrite !app_assoc.
    apply Permutation_cons_app.  apply Permutation_refl.
  - destruct (Nat.ltb_spec i (length l)); [|discriminate]. injection H as <-; simpl.
    apply slice_without_perm; lia.
  - destruct (Nat.leb_spec i j); [|discriminate]. destruct (Nat.ltb_spec j (length l)); [|discriminate].
    injection H as <-; simpl. apply slice_without_perm; lia.
  - destruct (Nat.ltb_spec i (length l)); [|discriminate]. injection H as <-; simpl.
    apply slice_without_perm; lia.
  - destruct (Nat.leb_spec i j); [|discriminate]. destruct (Nat.ltb_spec j (length l)); [|discriminate].
    injection H as <-; simpl. apply slice_without_perm; lia.
  - injection H as <-; simpl. rewrite app_nil_r. auto.
  - injection H as <-; simpl. apply Permutation_rev.
  - destruct (i <=? length l); [|discriminate]. injection H as <-; simpl.
    rewrite <- (firstn_skipn i l) at 1. apply Permutation_app_comm.
  - injection H as <-; simpl; auto.
  - injection H as <-; simpl. apply filter_perm.
  - destruct (i <? length l); [|discriminate]. injection H as <-; simpl; auto.
  - injection H as <-; simpl; auto.
Qed.

Lemma spec_run_account cmp ops : forall l l' outs d r,
  spec_run cmp l ops = Some (l', outs, d, r) ->
  Permutation (flat_map (@given A) ops ++ l) (d ++ r ++ l').
Proof.
  induction ops as [|o ops IH]; intros l l' outs d r H; simpl in *.
  - injection H as <- <- <- <-. auto.
  - destruct (spec_step cmp l o) as [e|] eqn:E; [|discriminate].
    destruct (spec_run cmp (after e) ops) as [[[[l1 o1] d1] r1]|] eqn:E1; [|discriminate].
    injection H as <- <- <- <-.
    specialize (IH _ _ _ _ _ E1). apply spec_step_account in E.
    rewrite <- app_assoc.
    rewrite (Permutation_app_swap_app (given o)), E.
    rewrite (Permutation_app_swap_app (flat_map _ ops) (destroyed e)).
    rewrite (Permutation_app_swap_app (flat_map _ ops) (released e)).
    rewrite IH. rewrite <- !app_assoc. apply Permutation_app_head.
    rewrite (Permutation_app_swap_app (released e) d1). reflexivity.
Qed.
End P.
