(** Proofs for ContModel.v *)
From Verif Require Import Prelude PreludeFacts ContModel ContSpec.
Set Implicit Arguments.

Section Ring.
Variable A : Type.
Notation ptr := (option A).
Implicit Types (l r X Y : list ptr) (b : ring A).

(** the ring holds the retained items [r] *)
Inductive ringI (n : nat) (b : ring A) : list ptr -> Prop :=
| RI_part r rest : rbdata b = map Some (r ++ rest) -> length (r ++ rest) = n -> length r < n ->
    rbcap b = n -> rbend b = length r -> rblen b = length r ->
    (rbdtor b = true -> nonnull rest = []) -> ringI n b r
| RI_full X Y : rbdata b = map Some (X ++ Y) -> length (X ++ Y) = n -> Y <> [] ->
    rbcap b = n -> rbend b = length X -> rblen b = n -> ringI n b (Y ++ X).

Lemma nonnull_app l r : nonnull (l ++ r) = nonnull l ++ nonnull r.
Proof. apply filter_app. Qed.

Definition keep n r (x : ptr) : list ptr := if length r <? n then r ++ [x] else tl (r ++ [x]).

Lemma aset_mid (X : list ptr) y Y x : aset (map Some (X ++ y :: Y)) (length X) x = Ok (map Some (X ++ x :: Y)).
Proof.
  unfold aset. rewrite map_length, app_length. simpl. destruct (Nat.ltb_spec (length X) (length X + S (length Y))); [|lia].
  rewrite map_app. rewrite upd_app_r by (rewrite map_length; lia). rewrite map_length, Nat.sub_diag. simpl.
  rewrite map_app. reflexivity.
Qed.
Lemma aget_mid (X : list ptr) y Y : aget (map Some (X ++ y :: Y)) (length X) = Ok y.
Proof. rewrite (aget_rep0 _ None) by (rewrite app_length; simpl; lia). rewrite app_nth2, Nat.sub_diag by lia. reflexivity. Qed.

Lemma append_spec n b r x : 0 < n -> ringI n b r -> exists b', RingBufferAppend b x = Ok b' /\ ringI n b' (keep n r x) /\
  rbdtor b' = rbdtor b /\
  rblog b' = rblog b ++ (if rbdtor b then nonnull (if length r <? n then [] else [hd None r]) else []).
Proof.
  intros Hn I. unfold RingBufferAppend, keep. destruct I as [r rest D L Lr C En Ln Nn|X Y D L NY C En Ln].
  - rewrite app_length in L. destruct rest as [|z rest]; simpl in L; [lia|].
    rewrite D, En, aget_mid, aset_mid. cbn [bind]. rewrite C, Ln.
    destruct (Nat.ltb_spec (length r) n); [|lia]. eexists. split; [reflexivity|]. cbn [rbdtor rblog].
    split; [|split; auto].
    + destruct rest as [|z' rest]; simpl in L.
      * replace ((length r + 1) mod n) with 0. 2:{ replace (length r + 1) with n by lia. rewrite Nat.mod_same; lia. }
        replace (r ++ [x]) with ((r ++ [x]) ++ []) by apply app_nil_r.
        apply (@RI_full n _ ([]) (r ++ [x])); simpl; auto; try rewrite app_length; simpl; try lia.
        all: try (rewrite app_nil_r; auto). destruct r; discriminate.
      * rewrite Nat.mod_small by lia.
        apply (@RI_part n _ (r ++ [x]) (z' :: rest)); simpl; rewrite <- ?app_assoc, ?app_length; simpl; auto; try lia.
        intros Hd. specialize (Nn Hd). simpl in Nn. destruct z; [discriminate|]. exact Nn.
    + destruct (rbdtor b) eqn:Ed; [|destruct z; rewrite app_nil_r; auto].
      specialize (Nn eq_refl). simpl in Nn. destruct z; [discriminate|]. simpl. rewrite app_nil_r. auto.
  - rewrite app_length in *. destruct Y as [|y Y]; [congruence|]. simpl in L.
    rewrite D, En, aget_mid, aset_mid. cbn [bind]. rewrite C, Ln.
    destruct (Nat.ltb_spec n n); [lia|]. destruct (Nat.ltb_spec (length (y :: Y) + length X) n) as [Q|Q]; [simpl in Q; lia|].
    eexists. split; [reflexivity|]. cbn [rbdtor rblog]. split; [|split; auto].
    + simpl. destruct Y as [|y' Y].
      * replace ((length X + 1) mod n) with 0. 2:{ simpl in L. replace (length X + 1) with n by lia. rewrite Nat.mod_same; lia. }
        simpl. replace (X ++ [x]) with ((X ++ [x]) ++ []) by apply app_nil_r.
        apply (@RI_full n _ ([]) (X ++ [x])); simpl; auto; try rewrite app_length; simpl in *; try lia.
        all: try (rewrite app_nil_r; auto). destruct X; discriminate.
      * rewrite Nat.mod_small by (simpl in L; lia).
        rewrite <- app_assoc. apply (@RI_full n _ (X ++ [x]) (y' :: Y)); simpl; rewrite <- ?app_assoc, ?app_length; simpl in *; auto; try lia.
        discriminate.
    + simpl. destruct y; destruct (rbdtor b); rewrite ?app_nil_r; auto.
Qed.

Lemma clear_loop_spec : forall l d n log, n = length l ->
  ring_clear_loop (map Some (d ++ l)) (length d) n log = Ok (map Some (d ++ repeat None n), log ++ nonnull l).
Proof.
  induction l as [|x l IH]; intros d n log ->; cbn [length ring_clear_loop].
  - simpl. rewrite !app_nil_r. reflexivity.
  - rewrite aget_mid. cbn [bind]. destruct x as [x|].
    + rewrite aset_mid. cbn [bind]. replace (d ++ None :: l) with ((d ++ [None]) ++ l) by (rewrite <- app_assoc; auto).
      replace (S (length d)) with (length (d ++ [None])) by (rewrite app_length; simpl; lia).
      rewrite IH by auto. simpl. rewrite <- !app_assoc. reflexivity.
    + replace (d ++ None :: l) with ((d ++ [None]) ++ l) by (rewrite <- app_assoc; auto).
      replace (S (length d)) with (length (d ++ [None])) by (rewrite app_length; simpl; lia).
      rewrite IH by auto. simpl. rewrite <- !app_assoc. reflexivity.
Qed.
Lemma nonnull_repeat n : nonnull (repeat (@None A) n) = [].
Proof. induction n; simpl; auto. Qed.

Lemma clear_spec n b r : 0 < n -> ringI n b r -> exists b' ev, RingBufferClear b = Ok b' /\ ringI n b' [] /\
  rbdtor b' = rbdtor b /\ rblog b' = rblog b ++ ev /\
  Permutation ev (if rbdtor b then nonnull r else []).
Proof.
  intros Hn I. unfold RingBufferClear.
  assert (exists cells, rbdata b = map Some cells /\ length cells = n /\ rbcap b = n /\
           (rbdtor b = true -> Permutation (nonnull cells) (nonnull r))) as (cs & D & L & C & P).
  { destruct I as [r rest D L Lr C En Ln Nn|X Y D L NY C En Ln].
    - exists (r ++ rest). repeat split; auto. intros H. rewrite nonnull_app, (Nn H), app_nil_r. auto.
    - exists (X ++ Y). repeat split; auto. intros _. rewrite !nonnull_app. apply Permutation_app_comm. }
  rewrite D, C. destruct (rbdtor b) eqn:Ed.
  - pose proof (@clear_loop_spec cs [] n (rblog b) (eq_sym L)) as E. simpl in E. rewrite E. cbn [bind].
    eexists. exists (nonnull cs). split; [reflexivity|]. simpl. split; [|split; [|split]]; auto.
    apply (@RI_part n _ [] (repeat None n)); simpl; rewrite ?repeat_length; auto. intros _. apply nonnull_repeat.
  - cbn [bind]. eexists. exists []. split; [reflexivity|]. simpl. rewrite app_nil_r. split; [|split; [|split]]; auto.
    apply (@RI_part n _ [] cs); simpl; auto. discriminate.
Qed.

Lemma head_spec n b r : 0 < n -> ringI n b r -> RingBufferHead b = Ok (last r None).
Proof.
  intros Hn I. unfold RingBufferHead, RingBufferLength. destruct I as [r rest D L Lr C En Ln Nn|X Y D L NY C En Ln].
  - rewrite Ln, D, En. destruct r as [|x r] using rev_ind; simpl; auto. clear IHr. rewrite app_length in *. simpl.
    destruct (Nat.eqb_spec (length r + 1) 0); try lia.
    replace (length r + 1 - 1) with (length r) by lia. rewrite <- app_assoc. simpl. rewrite aget_mid, last_last. auto.
  - rewrite Ln, D, En, C. destruct (Nat.eqb_spec n 0); try lia. rewrite app_length in L.
    destruct X as [|x X] using rev_ind; simpl.
    + rewrite app_nil_r. destruct Y as [|y Y] using rev_ind; [congruence|]. rewrite last_last. rewrite app_length in L. simpl in L.
      replace (n - 1) with (length Y) by lia. rewrite aget_mid. auto.
    + clear IHX. rewrite app_length in *. simpl in *. destruct (Nat.eqb_spec (length X + 1) 0); try lia.
      replace (length X + 1 - 1) with (length X) by lia. rewrite <- app_assoc. simpl. rewrite aget_mid.
      rewrite app_assoc, last_last. auto.
Qed.

Lemma ring_len n b r : ringI n b r -> rblen b = length r /\ rbcap b = n /\ length r <= n.
Proof. intros [r' rest D L Lr C En Ln Nn|X Y D L NY C En Ln]; rewrite ?app_length in *; repeat split; try lia. Qed.

Lemma next_spec n b r k : 0 < n -> ringI n b r -> k <= length r ->
  RingBufferIteratorNext b k = Ok (nth k r None, if length r =? k then k else S k).
Proof.
  intros Hn I Hk. destruct (ring_len I) as (Ln & C & Le). unfold RingBufferIteratorNext. rewrite Ln.
  destruct (Nat.eqb_spec (length r) k) as [E|E]; [rewrite nth_overflow by lia; auto|].
  unfold RingBufferIsFull. rewrite Ln, C. destruct I as [r rest D L Lr _ En _ Nn|X Y D L NY _ En _].
  - destruct (Nat.eqb_spec (length r) n); try lia. rewrite D. rewrite (aget_rep0 _ None) by lia. rewrite app_nth1 by lia. auto.
  - rewrite app_length in *. destruct (Nat.eqb_spec (length Y + length X) n); try lia. rewrite D, En.
    destruct (Nat.ltb_spec k (length Y)).
    + rewrite Nat.mod_small by lia. rewrite (aget_rep0 _ None) by (rewrite app_length; lia).
      rewrite app_nth2 by lia. rewrite (app_nth1 Y) by lia. cbn [bind]. do 3 f_equal. lia.
    + replace (length X + k) with ((k - length Y) + 1 * n) by lia. rewrite Nat.mod_add by lia. rewrite Nat.mod_small by lia.
      rewrite (aget_rep0 _ None) by (rewrite app_length; lia). rewrite app_nth1 by lia. rewrite (app_nth2 Y) by lia. auto.
Qed.
Lemma iterate_spec n b r : 0 < n -> ringI n b r -> forall c k, k <= length r ->
  ring_iterate b c k = Ok (firstn c (skipn k r ++ repeat None c)).
Proof.
  intros Hn I. induction c as [|c IH]; intros k Hk; cbn [ring_iterate]; [reflexivity|].
  rewrite (next_spec Hn I Hk). cbn [bind]. destruct (Nat.eqb_spec (length r) k) as [E|E].
  - rewrite (IH k) by lia. cbn [bind]. rewrite skipn_all2 by lia. rewrite nth_overflow by lia. simpl. do 2 f_equal.
  - rewrite IH by lia. cbn [bind]. rewrite (skipn_cons_nth r None (i:=k)) by lia. cbn [app firstn]. do 2 f_equal.
    replace (repeat None (S c)) with (repeat (@None A) c ++ [None]) by (rewrite <- repeat_cons; auto).
    rewrite app_assoc. symmetry. rewrite firstn_app_le; auto. rewrite app_length, repeat_length. lia.
Qed.

Lemma lastn_keep n l x : 0 < n -> lastn n (l ++ [x]) = keep n (lastn n l) x.
Proof.
  intros Hn. unfold lastn, keep. rewrite app_length, skipn_length. simpl.
  destruct (Nat.ltb_spec (length l - (length l - n)) n).
  - replace (length l - n) with 0 by lia. replace (length l + 1 - n) with 0 by lia. auto.
  - replace (length l + 1 - n) with (S (length l - n)) by lia.
    rewrite skipn_app_le by lia. rewrite (skipn_cons_nth l None (i:=length l - n)) by lia. reflexivity.
Qed.
Lemma length_lastn n l : length (lastn n l) = Nat.min n (length l).
Proof. unfold lastn. rewrite skipn_length. lia. Qed.
Lemma last_lastn n l : 0 < n -> last (lastn n l) None = last l None.
Proof.
  intros Hn. destruct l as [|x l] using rev_ind; auto. rewrite lastn_keep by auto. unfold keep.
  destruct (length (lastn n l) <? n) eqn:E; rewrite ?last_last; auto.
  rewrite length_lastn in E. apply Nat.ltb_ge in E. destruct (lastn n l) eqn:El.
  - apply (f_equal (@length _)) in El. rewrite length_lastn in El. simpl in El. lia.
  - simpl. rewrite last_last. auto.
Qed.

Lemma run_ring n : 0 < n -> forall ops b l, ringI n b (lastn n l) ->
  exists b' evs, let (l', outs) := spec_bops n l ops in
    run_bops b ops = Ok (b', outs) /\ ringI n b' (lastn n l') /\ rbdtor b' = rbdtor b /\
    rblog b' = rblog b ++ evs /\
    (rbdtor b = true -> Permutation (evs ++ nonnull (lastn n l')) (nonnull (lastn n l) ++ nonnull (appended ops))) /\
    (rbdtor b = false -> evs = []).
Proof.
  intros Hn. induction ops as [|o ops IH]; intros b l I.
  - exists b, []. simpl. rewrite !app_nil_r. repeat split; auto.
  - assert (exists b1 ev, let (l1, out) := spec_bop n l o in run_bop b o = Ok (b1, out) /\ ringI n b1 (lastn n l1) /\
       rbdtor b1 = rbdtor b /\ rblog b1 = rblog b ++ ev /\
       (rbdtor b = true -> Permutation (ev ++ nonnull (lastn n l1)) (nonnull (lastn n l) ++ nonnull (appended [o]))) /\
       (rbdtor b = false -> ev = [])) as (b1 & ev & H).
    { destruct o as [x| | | | |c]; cbn [spec_bop run_bop].
      - destruct (append_spec x Hn I) as (b1 & E1 & I1 & Dt & Lg).
        eexists b1, _. rewrite E1. cbn [bind]. split; [reflexivity|]. rewrite lastn_keep by auto. split; [auto|].
        split; [auto|]. split; [exact Lg|]. split; intros Hd; rewrite Hd; auto. unfold keep.
        destruct (length (lastn n l) <? n) eqn:El; [simpl (nonnull []); simpl; rewrite nonnull_app; auto|].
        apply Nat.ltb_ge in El. destruct (lastn n l) as [|y r]; [simpl in El; lia|]. simpl (hd _ _). simpl (tl _).
        replace (nonnull (y :: r)) with (nonnull [y] ++ nonnull r) by (rewrite <- nonnull_app; auto).
        rewrite nonnull_app, app_assoc. simpl (appended _). auto.
      - destruct (clear_spec Hn I) as (b1 & ev & E1 & I1 & Dt & Lg & P).
        exists b1, ev. rewrite E1. cbn [bind]. split; [reflexivity|].
        assert (lastn n [] = []) as -> by (unfold lastn; simpl; auto).
        split; auto. split; auto. split; auto. simpl (nonnull []). simpl (nonnull (appended [BClear])). rewrite !app_nil_r. split; intros Hd; rewrite Hd in P; auto.
        apply Permutation_nil. symmetry; auto.
      - exists b, []. rewrite !app_nil_r. split; [|repeat split; auto; simpl; rewrite app_nil_r; auto].
        unfold RingBufferLength. destruct (ring_len I) as (-> & _). rewrite length_lastn. auto.
      - exists b, []. rewrite !app_nil_r. split; [|repeat split; auto; simpl; rewrite app_nil_r; auto].
        unfold RingBufferIsFull. destruct (ring_len I) as (-> & -> & _). rewrite length_lastn.
        do 3 f_equal. destruct (Nat.eqb_spec (Nat.min n (length l)) n); destruct (Nat.leb_spec n (length l)); auto; lia.
      - exists b, []. rewrite !app_nil_r. split; [|repeat split; auto; simpl; rewrite app_nil_r; auto].
        rewrite (head_spec Hn I), last_lastn by auto. auto.
      - exists b, []. rewrite !app_nil_r. split; [|repeat split; auto; simpl; rewrite app_nil_r; auto].
        rewrite (iterate_spec Hn I) by lia. simpl. auto. }
    cbn [spec_bops run_bops]. destruct (spec_bop n l o) as [l1 out]. destruct H as (E1 & I1 & D1 & L1 & P1 & N1).
    destruct (IH b1 l1 I1) as (b2 & evs & H2). destruct (spec_bops n l1 ops) as [l2 outs].
    destruct H2 as (E2 & I2 & D2 & L2 & P2 & N2). rewrite D1 in *.
    exists b2, (ev ++ evs). rewrite E1. cbn [bind]. rewrite E2. cbn [bind]. split; auto. split; auto. split; [congruence|].
    split; [rewrite L2, L1, app_assoc; auto|]. split.
    + intros Hd. specialize (P1 Hd). specialize (P2 Hd). rewrite <- app_assoc, P2.
      rewrite app_assoc, P1. rewrite <- app_assoc. apply Permutation_app_head.
      rewrite <- nonnull_app. destruct o; simpl; auto.
    + intros Hd. rewrite (N1 Hd), (N2 Hd). auto.
Qed.
Lemma new_spec n d : 0 < n -> exists b, RingBufferNew A n d = Ok b /\ ringI n b [] /\ rbdtor b = d /\ rblog b = [].
Proof.
  intros Hn. unfold RingBufferNew. apply Nat.ltb_lt in Hn as Hb. rewrite Hb. simpl. eexists. split; [reflexivity|]. simpl. split; auto.
  apply (@RI_part n _ [] (repeat None n)); simpl; rewrite ?repeat_length; auto; try lia.
  - clear. induction n; simpl; congruence.
  - intros _. apply nonnull_repeat.
Qed.
End Ring.

Section Stack.
Variable A : Type.
Notation ptr := (option A).
(** the stack's array holds the pushed items, oldest first *)
Definition stackI (s : stack A) (l : list ptr) : Prop :=
  exists j, stdata s = map Some (rev l) ++ j /\ stsize s = length l /\ length (stdata s) = stcap s /\ 0 < stcap s.

Lemma stack_new_spec c d : stackI (StackNew A c d) [].
Proof.
  exists (repeat None (if c =? 0 then 16 else c)). unfold StackNew. cbn [stdata stsize stcap]. rewrite repeat_length.
  repeat split; auto. destruct (Nat.eqb_spec c 0); lia.
Qed.
Lemma stack_expand_spec s l : stackI s l -> exists s', StackExpand s = Ok s' /\ stackI s' l /\ stsize s' < stcap s' /\ stdtor s' = stdtor s.
Proof.
  intros (j & D & Sz & L & C). unfold StackExpand.
  assert (stsize s <= stcap s) as Le. { rewrite Sz, <- L, D, app_length, map_length, rev_length. lia. }
  apply Nat.leb_le in Le as Lb. rewrite Lb. simpl. destruct (Nat.eqb_spec (stsize s) (stcap s)) as [E|E].
  - eexists. split; [reflexivity|]. cbn [stsize stcap stdtor]. split; [|split; auto; lia].
    exists (j ++ repeat None (stcap s * 2 - stcap s)). cbn [stdata stsize stcap]. rewrite length_arealloc.
    rewrite arealloc_grow by lia. rewrite L, D, <- app_assoc. repeat split; auto. lia.
  - exists s. repeat split; auto; [exists j; auto|lia].
Qed.
Lemma stack_store s l x : stackI s l -> stsize s < stcap s -> exists d, aset (stdata s) (stsize s) x = Ok d /\
  stackI (mkStack d (S (stsize s)) (stcap s) (stdtor s)) (x :: l).
Proof.
  intros (j & D & Sz & L & C) H. rewrite D in L |- *. rewrite app_length, map_length, rev_length in L.
  destruct j as [|c j]; [simpl in L; lia|]. pose proof (aset_rep_end (rev l) c j x) as Ea. rewrite rev_length in Ea. rewrite Sz, Ea.
  eexists. split; [reflexivity|]. exists j. cbn [stdata stsize stcap]. simpl (rev (x :: l)). repeat split; auto.
  rewrite app_length, map_length, app_length, rev_length. simpl in *. lia.
Qed.
Lemma stack_pop_spec s x l : stackI s (x :: l) -> exists s', StackPop s = Ok (s', x) /\ stackI s' l /\ stdtor s' = stdtor s.
Proof.
  intros (j & D & Sz & L & C). unfold StackPop. rewrite Sz. cbn [length Nat.ltb Nat.leb]. simpl (S (length l) - 1). rewrite Nat.sub_0_r.
  rewrite D. rewrite (aget_rep _ _ None) by (rewrite rev_length; simpl; lia). simpl (rev (x :: l)).
  rewrite app_nth2 by (rewrite rev_length; lia). rewrite rev_length, Nat.sub_diag. simpl (nth _ _ _). cbn [bind].
  rewrite map_app, <- app_assoc. simpl (map Some [x]). cbn [app]. pose proof (aset_rep_end (rev l) (Some x) j None) as Ea. rewrite rev_length in Ea. rewrite Ea. cbn [bind].
  eexists. split; [reflexivity|]. cbn [stdtor]. split; auto.
  exists (Some None :: j). cbn [stdata stsize stcap]. rewrite map_app, <- app_assoc. simpl. repeat split; auto.
  rewrite <- L, D. rewrite !app_length, !map_length. simpl. rewrite app_length. simpl. lia.
Qed.
Lemma stack_pop_empty s : stackI s [] -> StackPop s = Ok (s, None).
Proof. intros (j & D & Sz & L & C). unfold StackPop. rewrite Sz. reflexivity. Qed.
Lemma stack_top_spec s l : stackI s l -> StackTop s = Ok (hd None l).
Proof.
  intros (j & D & Sz & L & C). unfold StackTop. rewrite Sz. destruct l as [|x l]; auto. cbn [length Nat.ltb Nat.leb].
  simpl (S (length l) - 1). rewrite Nat.sub_0_r, D. rewrite (aget_rep _ _ None) by (rewrite rev_length; simpl; lia). simpl.
  rewrite app_nth2 by (rewrite rev_length; lia). rewrite rev_length, Nat.sub_diag. reflexivity.
Qed.
Lemma stack_copy_spec s l : stackI s l -> exists s', StackCopy s = Ok s' /\ stackI s' l /\ stdtor s' = stdtor s.
Proof.
  intros (j & D & Sz & L & C). unfold StackCopy, acopy. rewrite repeat_length.
  assert (stsize s <= stcap s) as Le. { rewrite Sz, <- L, D, app_length, map_length, rev_length. lia. }
  simpl (0 + stsize s). rewrite L. apply Nat.leb_le in Le as Lb. rewrite Lb. cbn [andb bind].
  eexists. split; [reflexivity|]. cbn [stdtor]. split; auto. exists (skipn (stsize s) (repeat None (stcap s))).
  cbn [stdata stsize stcap]. simpl (firstn 0 _). simpl (skipn 0 _). cbn [app].
  rewrite D. rewrite firstn_app_le by (rewrite map_length, rev_length; lia). rewrite firstn_all2 by (rewrite map_length, rev_length; lia).
  repeat split; auto. rewrite app_length, map_length, rev_length, skipn_length, repeat_length. lia.
Qed.
Lemma run_stack : forall ops s l, stackI s l -> exists s', let (l', outs) := spec_sops l ops in
  run_sops s ops = Ok (s', outs) /\ stackI s' l' /\ stdtor s' = stdtor s.
Proof.
  induction ops as [|o ops IH]; intros s l I; [exists s; simpl; auto|].
  assert (exists s1, let (l1, out) := spec_sop l o in run_sop s o = Ok (s1, out) /\ stackI s1 l1 /\ stdtor s1 = stdtor s) as (s1 & H).
  { destruct o as [x|x| | | | |]; cbn [spec_sop run_sop].
    - destruct (stack_expand_spec I) as (s1 & E1 & I1 & Lt & D1). unfold StackPush. rewrite E1. cbn [bind].
      destruct (stack_store x I1 Lt) as (d & Ed & I2). rewrite Ed. cbn [bind]. eexists. split; [reflexivity|]. cbn [stdtor]. auto.
    - destruct (stack_expand_spec I) as (s1 & E1 & I1 & Lt & D1). unfold StackPushReportCount. rewrite E1. cbn [bind].
      destruct (stack_store x I1 Lt) as (d & Ed & I2). rewrite Ed. cbn [bind]. eexists. cbn [stsize]. split; [|split; [exact I2|auto]].
      destruct I1 as (? & _ & -> & _). auto.
    - destruct l as [|x l].
      + rewrite (stack_pop_empty I). exists s. auto.
      + destruct (stack_pop_spec I) as (s1 & E1 & I1 & D1). rewrite E1. exists s1. auto.
    - rewrite (stack_top_spec I). exists s. auto.
    - exists s. destruct I as (j & D & Sz & L & C). unfold StackCount. rewrite Sz. repeat split; auto. exists j; auto.
    - exists s. unfold StackIsEmpty. pose proof I as (j & D & Sz & L & C). rewrite Sz. repeat split; auto. destruct l; auto.
    - destruct (stack_copy_spec I) as (s1 & E1 & I1 & D1). rewrite E1. exists s1. auto. }
  cbn [spec_sops run_sops]. destruct (spec_sop l o) as [l1 out]. destruct H as (E1 & I1 & D1).
  destruct (IH s1 l1 I1) as (s2 & H2). destruct (spec_sops l1 ops) as [l2 outs]. destruct H2 as (E2 & I2 & D2).
  exists s2. rewrite E1. cbn [bind]. rewrite E2. cbn [bind]. repeat split; auto. congruence.
Qed.
Lemma stack_destroy_loop_spec : forall (l d : list ptr) j, 
  stack_destroy_loop (map Some (d ++ l) ++ j) (length d) (length l) = Ok l.
Proof.
  induction l as [|x l IH]; intros d j; cbn [length stack_destroy_loop]; auto.
  rewrite (aget_rep _ _ None) by (rewrite app_length; simpl; lia). rewrite app_nth2, Nat.sub_diag by lia. cbn [bind nth].
  replace (d ++ x :: l) with ((d ++ [x]) ++ l) by (rewrite <- app_assoc; auto).
  replace (S (length d)) with (length (d ++ [x])) by (rewrite app_length; simpl; lia). rewrite IH. reflexivity.
Qed.
Lemma stack_destroy_spec s l : stackI s l -> StackDestroy s = Ok (if stdtor s then rev l else []).
Proof.
  intros (j & D & Sz & L & C). unfold StackDestroy, StackDestroyRange.
  assert (stsize s <= stcap s) as Le. { rewrite Sz, <- L, D, app_length, map_length, rev_length. lia. }
  destruct (Nat.ltb_spec (stcap s) 0); try lia. destruct (Nat.ltb_spec (stcap s) (stsize s)); try lia. cbn [orb].
  rewrite Nat.sub_0_r, Sz, D. destruct (stdtor s); auto.
  rewrite <- (rev_length l). apply (stack_destroy_loop_spec (rev l) [] j).
Qed.
End Stack.

Section Queue.
Variable A : Type.
Notation ptr := (option A).
Notation qheap := (qheap A).
(** [seg h p a l z]: nodes from a (whose predecessor is p) hold l; z is the last one *)
Fixpoint seg (h : qheap) (p a : nat) (l : list (nat * ptr)) : Prop :=
  match l with
  | [] => a = 0
  | (b, x) :: l => a = b /\ b <> 0 /\ exists nx, h b = Some (mkQN x nx p) /\ seg h b nx l
  end.
Definition addrs (l : list (nat * ptr)) := map fst l.
Record queueI (q : queue A) (l : list (nat * ptr)) : Prop := {
  qi_seg : seg (qh q) 0 (qhead q) l;
  qi_tail : qtail q = last (addrs l) 0;
  qi_count : qcount q = length l;
  qi_nodup : NoDup (addrs l);
  qi_fresh : 0 < qfresh q /\ forall a, In a (addrs l) -> a < qfresh q }.

Lemma seg_frame (h h' : qheap) : forall l p a, seg h p a l -> (forall b, In b (addrs l) -> h' b = h b) -> seg h' p a l.
Proof.
  induction l as [|[b x] l IH]; intros p a H F; simpl in *; auto.
  destruct H as (Ea & Nb & nx & Hb & Hs). split; auto. split; auto. exists nx. split; [rewrite F; auto|]. apply IH; auto.
Qed.
Lemma last_in (l : list nat) : l <> [] -> In (last l 0) l.
Proof. induction l as [|a [|b l] IH]; intros H; [congruence|left; auto|right; apply IH; discriminate]. Qed.
Lemma seg_app_tail (h : qheap) x (f : nat) : forall l p a y b, seg h p a (l ++ [(b, y)]) -> NoDup (addrs (l ++ [(b, y)])) ->
  ~ In f (addrs (l ++ [(b, y)])) -> f <> 0 ->
  forall h', (forall c, In c (addrs l) -> h' c = h c) ->
    (forall n, h b = Some n -> h' b = Some (mkQN (qnd n) f (qprev n))) ->
    h' f = Some (mkQN x 0 b) ->
    seg h' p a ((l ++ [(b, y)]) ++ [(f, x)]).
Proof.
  induction l as [|[c z] l IH]; intros p a y b H N Fr F0 h' H1 H2 H3; simpl in *.
  - destruct H as (Ea & Nb & nx & Hb & Hs). split; auto. split; auto. exists f. split; [apply (H2 _ Hb)|].
    split; auto. split; auto. exists 0. auto.
  - destruct H as (Ea & Nb & nx & Hb & Hs). split; auto. split; auto. exists nx. split; [rewrite H1; auto|].
    inversion N; subst. eapply IH; eauto.
Qed.
Lemma addrs_app l r : addrs (l ++ r) = addrs l ++ addrs r.
Proof. apply map_app. Qed.

Lemma enqueue_spec q l x : queueI q l -> exists q', QueueEnqueue q x = Ok q' /\ queueI q' (l ++ [(qfresh q, x)]) /\ qdtor q' = qdtor q.
Proof.
  intros [Sg T C N [F0 F]]. unfold QueueEnqueue. destruct l as [|[b y] l _] using rev_ind.
  - simpl in *. rewrite T. cbn [Nat.eqb negb]. eexists. split; [reflexivity|]. split; auto. constructor; simpl; auto.
    + split; auto. split; [lia|]. exists 0. split; auto. unfold qupd. rewrite Nat.eqb_refl. auto.
    + repeat constructor; auto.
    + split; [lia|]. intros a [<-|[]]. lia.
  - rewrite addrs_app in T. simpl in T. rewrite last_last in T.
    assert (exists n, qh q b = Some n /\ b <> 0) as (n & Hb & B0).
    { clear - Sg. revert Sg. generalize 0 at 1. generalize (qhead q). induction l as [|[c z] l IH]; intros a p Sg; simpl in Sg.
      - destruct Sg as (_ & ? & nx & ? & _). eauto.
      - destruct Sg as (_ & _ & nx & _ & Sg). eapply IH; eauto. }
    rewrite T. destruct (Nat.eqb_spec b 0); [lia|]. cbn [negb].
    assert (In b (addrs (l ++ [(b, y)]))) as Ib by (rewrite addrs_app; apply in_or_app; right; left; auto).
    assert (qfresh q <> b) as Nf by (specialize (F _ Ib); lia).
    unfold qget at 1. unfold qupd at 1. destruct (Nat.eqb_spec b (qfresh q)); [congruence|]. rewrite Hb. cbn [bind].
    unfold qget. unfold qupd at 1. destruct (Nat.eqb_spec (qfresh q) b); [congruence|]. unfold qupd at 1. rewrite Nat.eqb_refl. cbn [bind].
    eexists. split; [reflexivity|]. split; auto. constructor; cbn [qh qhead qtail qcount qfresh qnd qnext].
    + eapply seg_app_tail; eauto.
      * intros Hi. specialize (F _ Hi). lia.
      * lia.
      * intros c Hc. unfold qupd. assert (c <> b) by (intros ->; rewrite addrs_app in N; simpl in N; apply NoDup_remove_2 in N; rewrite app_nil_r in N; auto).
        assert (c < qfresh q) by (apply F; rewrite addrs_app; apply in_or_app; auto).
        destruct (Nat.eqb_spec c (qfresh q)); [lia|]. destruct (Nat.eqb_spec c b); [congruence|]. auto.
      * intros m Hm. unfold qupd. destruct (Nat.eqb_spec b (qfresh q)); [congruence|]. rewrite Nat.eqb_refl. congruence.
      * unfold qupd. rewrite Nat.eqb_refl. auto.
    + rewrite addrs_app. simpl. rewrite last_last. auto.
    + rewrite C, !app_length. simpl. lia.
    + rewrite addrs_app. simpl. assert (~ In (qfresh q) (addrs (l ++ [(b, y)]))) as Ni by (intros Hi; specialize (F _ Hi); lia).
      revert N Ni. generalize (addrs (l ++ [(b, y)])). clear. intros u N Ni.
      apply (Permutation_NoDup (Permutation_cons_append u (qfresh q))). constructor; auto.
    + split; [lia|]. intros a. rewrite addrs_app, in_app_iff. simpl. intros [H|[H|[]]]; [specialize (F _ H)|]; lia.
Qed.
Lemma dequeue_spec q b x l : queueI q ((b, x) :: l) -> exists q', QueueDequeue q = Ok (q', x) /\ queueI q' l /\ qdtor q' = qdtor q.
Proof.
  intros [Sg T C N [F0 F]]. unfold QueueDequeue. simpl in Sg. destruct Sg as (Ea & B0 & nx & Hb & Sg). rewrite Ea.
  unfold qget at 1. rewrite Hb. cbn [bind qnext qnd]. simpl in N. inversion N as [|? ? Nb N']; subst.
  destruct l as [|[c y] l].
  - simpl in Sg. subst nx. cbn [Nat.eqb negb bind]. eexists. split; [reflexivity|]. split; auto.
    constructor; simpl; auto. + rewrite C. auto. + split; [auto|]. intros ? [].
  - simpl in Sg. destruct Sg as (Enx & C0 & nx2 & Hc & Sg). subst nx. destruct (Nat.eqb_spec c 0); [congruence|]. cbn [negb].
    unfold qget. rewrite Hc. cbn [bind qnd qnext]. eexists. split; [reflexivity|]. split; auto. simpl in Nb, N'. inversion N' as [|? ? Nc N'']; subst.
    assert (c <> qhead q) as Ncb by (intros E; apply Nb; left; auto).
    constructor; cbn [qh qhead qtail qcount qfresh].
    + simpl. split; auto. split; auto. exists nx2. split.
      * unfold qupd. destruct (Nat.eqb_spec c (qhead q)); [congruence|]. rewrite Nat.eqb_refl. auto.
      * eapply seg_frame; eauto. intros d Hd. unfold qupd. destruct (Nat.eqb_spec d (qhead q)) as [->|]; [exfalso; apply Nb; right; auto|].
        destruct (Nat.eqb_spec d c) as [->|]; [exfalso; auto|]. auto.
    + rewrite T. reflexivity.
    + rewrite C. simpl. lia.
    + auto.
    + split; auto. intros a Ha. apply F. right. auto.
Qed.
Lemma queue_empty_head q : queueI q [] -> qhead q = 0.
Proof. intros [Sg _ _ _ _]. exact Sg. Qed.
Lemma queue_head q b x l : queueI q ((b, x) :: l) -> QueueHead q = Ok x.
Proof. intros [(Ea & B0 & nx & Hb & Sg) T C N F]. unfold QueueHead, qget. rewrite Ea, Hb. auto. Qed.
(** address 0 is never allocated *)
Lemma run_queue : forall ops q l, queueI q l -> qh q 0 = None ->
  match spec_qops (map snd l) ops with
  | Ok (l', outs) => exists q' m, run_qops q ops = Ok (q', outs) /\ queueI q' m /\ map snd m = l' /\ qdtor q' = qdtor q
  | UB => run_qops q ops = UB
  | _ => False
  end.
Proof.
  induction ops as [|o ops IH]; intros q l I Z; [simpl; exists q, l; auto|].
  assert (match spec_qop (map snd l) o with
    | Ok (l1, out) => exists q1 m, run_qop q o = Ok (q1, out) /\ queueI q1 m /\ map snd m = l1 /\ qdtor q1 = qdtor q /\ qh q1 0 = None
    | UB => run_qop q o = UB | _ => False end) as H.
  { destruct o as [x| | | |]; cbn [spec_qop run_qop].
    - destruct (enqueue_spec x I) as (q1 & E1 & I1 & D1). rewrite E1. cbn [bind]. exists q1, (l ++ [(qfresh q, x)]).
      rewrite map_app. split; [auto|]. split; [exact I1|]. split; [auto|]. split; [exact D1|].
      revert E1. unfold QueueEnqueue. destruct I as [_ T _ _ [F0 F]]. destruct (Nat.eqb_spec (qtail q) 0); cbn [negb].
      + intros E1. inversion E1. simpl. unfold qupd. destruct (Nat.eqb_spec 0 (qfresh q)); [lia|auto].
      + unfold qget at 1. destruct (qupd (qh q) (qfresh q) (Some (mkQN x 0 0)) (qtail q)) eqn:E; cbn [bind]; [|discriminate].
        unfold qget. destruct (qupd _ _ _ (qfresh q)) eqn:E'; cbn [bind]; [|discriminate]. intros E1. inversion E1. simpl.
        unfold qupd. destruct (Nat.eqb_spec 0 (qfresh q)); [lia|]. destruct (Nat.eqb_spec 0 (qtail q)); [lia|]. auto.
    - destruct l as [|[b x] l]; cbn [map snd].
      + unfold QueueDequeue, qget. rewrite (queue_empty_head I), Z. auto.
      + destruct (dequeue_spec I) as (q1 & E1 & I1 & D1). rewrite E1. cbn [bind]. exists q1, l. split; [auto|]. split; [exact I1|]. split; [auto|]. split; [exact D1|].
        revert E1. unfold QueueDequeue. destruct (qget (qh q) (qhead q)) as [n| | |]; cbn [bind]; try discriminate.
        destruct (Nat.eqb_spec (qnext n) 0); cbn [negb].
        * cbn [bind]. intros E1. inversion E1. simpl. unfold qupd. destruct (0 =? qhead q); auto.
        * destruct (qget (qh q) (qnext n)) as [m| | |]; cbn [bind]; try discriminate. intros E1; inversion E1. simpl. unfold qupd.
          destruct (0 =? qhead q); auto. destruct (Nat.eqb_spec 0 (qnext n)); [lia|auto].
    - destruct l as [|[b x] l]; cbn [map snd].
      + unfold QueueHead, qget. rewrite (queue_empty_head I), Z. auto.
      + rewrite (queue_head I). exists q, ((b, x) :: l). auto.
    - exists q, l. unfold QueueCount. rewrite (qi_count I), map_length. auto.
    - exists q, l. unfold QueueIsEmpty. rewrite (qi_count I). split; [destruct l; auto|]. auto. }
  cbn [spec_qops run_qops]. destruct (spec_qop (map snd l) o) as [[l1 out]| | |]; cbn [bind]; try contradiction.
  - destruct H as (q1 & m & E1 & I1 & M1 & D1 & Z1). rewrite E1. cbn [bind]. specialize (IH q1 m I1 Z1). rewrite M1 in IH.
    destruct (spec_qops l1 ops) as [[l2 outs]| | |]; cbn [bind]; try contradiction.
    + destruct IH as (q2 & m2 & E2 & I2 & M2 & D2). rewrite E2. cbn [bind]. exists q2, m2. split; [auto|]. split; [auto|]. split; [auto|]. congruence.
    + rewrite IH. auto.
  - rewrite H. auto.
Qed.
Lemma queue_destroy_loop_spec d : forall l f (h : qheap) p a, length l < f -> seg h p a l -> NoDup (addrs l) ->
  queue_destroy_loop f h d a = Ok (if d then map snd l else []).
Proof.
  induction l as [|[b x] l IH]; intros [|f] h p a Lf H N; try (simpl in Lf; lia); cbn [queue_destroy_loop].
  - simpl in H. subst a. simpl. destruct d; auto.
  - simpl in H. destruct H as (-> & B0 & nx & Hb & Sg). destruct (Nat.eqb_spec b 0); [congruence|]. unfold qget. rewrite Hb. cbn [bind qnext qnd].
    simpl in N. inversion N; subst.
    rewrite (IH f (qupd h b None) b nx); auto.
    + cbn [bind]. destruct d; auto.
    + simpl in Lf; lia.
    + eapply seg_frame; eauto. intros c Hc. unfold qupd. destruct (Nat.eqb_spec c b); [congruence|auto].
Qed.
Lemma queue_destroy_spec q l : queueI q l -> QueueDestroy q = Ok (if qdtor q then map snd l else []).
Proof. intros [Sg T C N F]. unfold QueueDestroy. rewrite C. eapply queue_destroy_loop_spec; eauto. Qed.
Lemma queue_new_spec d : queueI (QueueNew A d) [].
Proof. constructor; simpl; auto. - constructor. - split; [lia|]. intros ? []. Qed.
End Queue.
