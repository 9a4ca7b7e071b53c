(** Circular array proofs for TQModel.v *)
From Verif Require Import Prelude PreludeFacts ContModel ConcModel TQModel TQSpec.
Set Implicit Arguments.

Section P.
Variable A : Type.
Notation ptr := (option A).
Notation tq := (tq A).
Implicit Types (l : list ptr) (q : tq).

Lemma mod_wrap c x : 0 < c -> x < 2 * c -> x mod c = if x <? c then x else x - c.
Proof.
  intros Hc Hx. destruct (Nat.ltb_spec x c); [apply Nat.mod_small; auto|].
  replace x with ((x - c) + 1 * c) at 1 by lia. rewrite Nat.mod_add by lia. apply Nat.mod_small. lia.
Qed.
Ltac wrap := repeat (rewrite mod_wrap in * by lia).
Ltac wcase := repeat match goal with
  | |- context [?a <? ?b] => destruct (Nat.ltb_spec a b)
  | H : context [?a <? ?b] |- _ => destruct (Nat.ltb_spec a b)
  end.

(** the cells from [pos] on, around the end of the array, hold l *)
Definition cellsat (d : cells ptr) (c pos : nat) l : Prop :=
  forall i, i < length l -> nth_error d ((pos + i) mod c) = Some (Some (nth i l None)).

Record repb q l : Prop := {
  r_cap : 0 < tcap q;
  r_len : length (tdata q) = tcap q;
  r_size : tsize q = length l;
  r_le : length l <= tcap q;
  r_head : thead q < tcap q;
  r_cells : cellsat (tdata q) (tcap q) (thead q) l }.
(** position of the right end: queue (before the next push it may be = capacity), deque *)
Definition qtail q : Prop := ttail q <= tcap q /\ ttail q mod tcap q = (thead q + tsize q) mod tcap q /\ (0 < tsize q -> 0 < ttail q).
Definition dtail q : Prop := ttail q = (thead q + tsize q) mod tcap q.

Lemma dtail_lt q l : repb q l -> dtail q -> ttail q < tcap q.
Proof. intros R D. rewrite D. apply Nat.mod_upper_bound. destruct R; lia. Qed.

Lemma amove_grow (d : cells ptr) c t : length d = c -> t <= c ->
  exists d', amove (arealloc d (c * 2)) c 0 t = Ok d' /\ length d' = c * 2 /\
    (forall i, i < c -> nth_error d' i = nth_error d i) /\ (forall i, i < t -> nth_error d' (c + i) = nth_error d i).
Proof.
  intros L Le. unfold amove. rewrite length_arealloc. destruct (Nat.leb_spec (c + t) (c * 2)); try lia.
  destruct (Nat.leb_spec (0 + t) (c * 2)); try lia. cbn [andb]. rewrite arealloc_grow by lia. rewrite L. simpl (skipn 0 _).
  eexists. split; [reflexivity|].
  assert (length (firstn c (d ++ repeat None (c * 2 - c))) = c) as L1. { rewrite firstn_length, app_length, repeat_length. lia. }
  assert (length (firstn t (d ++ repeat None (c * 2 - c))) = t) as L2. { rewrite firstn_length, app_length, repeat_length. lia. }
  repeat split.
  - rewrite !app_length, L1, L2, skipn_length, app_length, repeat_length. lia.
  - intros i Hi. rewrite nth_error_app1 by lia. rewrite firstn_app_le by lia. rewrite firstn_all2 by lia. auto.
  - intros i Hi. rewrite nth_error_app2 by lia. rewrite L1. replace (c + i - c) with i by lia. rewrite nth_error_app1 by lia.
    rewrite firstn_app_le by lia. rewrite <- (firstn_skipn t d) at 2. rewrite nth_error_app1; auto. rewrite firstn_length. lia.
Qed.

(** the common part of the two ExpandIfNecessary functions *)
Lemma d_expand_gen q l : repb q l -> ttail q <= tcap q -> ttail q mod tcap q = (thead q + tsize q) mod tcap q ->
  (0 < tsize q -> ttail q = 0 -> thead q = 0 -> False) ->
  exists q', d_expand q = Ok q' /\ repb q' l /\ tsize q' < tcap q' /\ ttail q' < 2 * tcap q' /\
    ttail q' mod tcap q' = (thead q' + tsize q') mod tcap q' /\ tdtor q' = tdtor q /\ tlog q' = tlog q /\
    (ttail q < tcap q -> ttail q' < tcap q') /\ tcap q <= tcap q'.
Proof.
  intros [C L Sz Le H Ce] T1 T2 T3. unfold d_expand. destruct (Nat.leb_spec (tsize q) (tcap q)); try lia. cbn [massert].
  destruct (Nat.eqb_spec (tsize q) (tcap q)) as [E|E].
  - destruct (Nat.leb_spec (ttail q) (thead q)) as [Lt|Lt].
    + assert (ttail q = thead q) as Eq_. { wrap. wcase; try lia. }
      destruct (amove_grow (tdata q) L T1) as (d' & Ed & Ld & F1 & F2). rewrite Ed. cbn [bind].
      eexists. split; [reflexivity|]. cbn [tdata thead ttail tsize tcap tdtor tlog]. split; [|repeat split; auto; try lia].
      * constructor; cbn [tdata thead ttail tsize tcap]; auto; try lia.
        intros i Hi. specialize (Ce i Hi). wrap. wcase; try lia.
        -- rewrite F1 by lia. auto.
        -- rewrite <- Ce. replace (thead q + i) with (tcap q + (thead q + i - tcap q)) at 1 by lia. apply F2. lia.
    + assert (thead q = 0 /\ ttail q = tcap q) as [Hz Tc]. { wrap. wcase; try lia. }
      eexists. split; [reflexivity|]. cbn [tdata thead ttail tsize tcap tdtor tlog]. split; [|repeat split; auto; try lia].
      * constructor; cbn [tdata thead ttail tsize tcap]; auto; try lia; [apply length_arealloc|].
        intros i Hi. specialize (Ce i Hi). rewrite arealloc_grow by lia. wrap. wcase; try lia.
        rewrite nth_error_app1 by lia. auto.
      * wrap. wcase; try lia.
  - exists q. split; auto. split; [constructor; auto|]. repeat split; auto; lia.
Qed.
Lemma q_expand_eq q : q_expand q = let* q := d_expand q in
  Ok (mkTQ (tdata q) (thead q) (ttail q mod tcap q) (tsize q) (tcap q) (tdtor q) (tlog q)).
Proof.
  unfold q_expand, d_expand. destruct (tsize q <=? tcap q); cbn [massert bind]; [|reflexivity].
  destruct (tsize q =? tcap q); [|reflexivity]. destruct (ttail q <=? thead q); [|reflexivity].
  all: destruct (amove _ _ _ _); reflexivity.
Qed.
Lemma q_expand_spec q l : repb q l -> qtail q -> exists q', q_expand q = Ok q' /\ repb q' l /\ tsize q' < tcap q' /\ dtail q' /\
  tdtor q' = tdtor q /\ tlog q' = tlog q.
Proof.
  intros R (T1 & T2 & T3). destruct (d_expand_gen R T1 T2) as (q' & E & R' & Sz & Tl & Tm & Dt & Lg & _); [intros; lia|].
  rewrite q_expand_eq, E. cbn [bind]. eexists. split; [reflexivity|]. cbn [tsize tcap tdtor tlog]. split; [|repeat split; auto].
  - destruct R'. constructor; auto.
Qed.
Lemma d_expand_spec q l : repb q l -> dtail q -> exists q', d_expand q = Ok q' /\ repb q' l /\ tsize q' < tcap q' /\ dtail q' /\
  tdtor q' = tdtor q /\ tlog q' = tlog q.
Proof.
  intros R D. pose proof (dtail_lt R D) as Lt.
  assert (ttail q mod tcap q = (thead q + tsize q) mod tcap q) as T2. { rewrite D. rewrite Nat.mod_mod; auto. destruct R; lia. }
  destruct (Nat.eq_dec (tsize q) (tcap q)) as [Ef|Nf].
  - (* full: the wrapped branch *)
    destruct R as [C L Sz Le H Ce]. unfold d_expand. destruct (Nat.leb_spec (tsize q) (tcap q)); try lia. cbn [massert].
    destruct (Nat.eqb_spec (tsize q) (tcap q)); try lia.
    assert (ttail q = thead q) as Eq_. { unfold dtail in D. wrap. wcase; lia. }
    destruct (Nat.leb_spec (ttail q) (thead q)); try lia. assert (ttail q <= tcap q) as T1 by lia.
    destruct (amove_grow (tdata q) L T1) as (d' & Ed & Ld & F1 & F2). rewrite Ed. cbn [bind].
    eexists. split; [reflexivity|]. unfold dtail. cbn [tdata thead ttail tsize tcap tdtor tlog]. split; [|repeat split; auto; try lia].
    + constructor; cbn [tdata thead ttail tsize tcap]; auto; try lia.
      intros i Hi. specialize (Ce i Hi). wrap. wcase; try lia.
      * rewrite F1 by lia. auto.
      * rewrite <- Ce. replace (thead q + i) with (tcap q + (thead q + i - tcap q)) at 1 by lia. apply F2. lia.
    + wrap. wcase; lia.
  - exists q. unfold d_expand. destruct (Nat.leb_spec (tsize q) (tcap q)); [|destruct R; lia]. cbn [massert].
    destruct (Nat.eqb_spec (tsize q) (tcap q)); try lia. repeat split; auto; try apply R. destruct R; lia.
Qed.

Lemma upd_cellsat_other (d : cells ptr) c pos l p x : cellsat d c pos l -> length d = c ->
  (forall i, i < length l -> (pos + i) mod c <> p) -> cellsat (upd d p (Some x)) c pos l.
Proof.
  intros H L N i Hi. rewrite upd_nth_error. destruct (Nat.eqb_spec p ((pos + i) mod c)) as [E|E]; [exfalso; eapply N; eauto|]. simpl. auto.
Qed.
Lemma aset_ok (d : cells ptr) i x : i < length d -> aset d i x = Ok (upd d i (Some x)).
Proof. intros H. unfold aset. apply Nat.ltb_lt in H. rewrite H. auto. Qed.

Lemma cellsat_snoc (d : cells ptr) c pos l x : cellsat d c pos l -> nth_error d ((pos + length l) mod c) = Some (Some x) -> cellsat d c pos (l ++ [x]).
Proof.
  intros H E i Hi. rewrite app_length in Hi. simpl in Hi. destruct (Nat.eq_dec i (length l)) as [->|N].
  - rewrite E. rewrite app_nth2, Nat.sub_diag by lia. auto.
  - rewrite app_nth1 by lia. apply H. lia.
Qed.
Lemma cellsat_tail (d : cells ptr) c pos x l : 0 < c -> cellsat d c pos (x :: l) -> cellsat d c (S pos mod c) l.
Proof.
  intros Hc H i Hi. specialize (H (S i)). simpl in H. rewrite Nat.add_mod_idemp_l by lia. rewrite <- H by lia.
  f_equal. f_equal. lia.
Qed.
Lemma cellsat_app_l (d : cells ptr) c pos l1 l2 : cellsat d c pos (l1 ++ l2) -> cellsat d c pos l1.
Proof. intros H i Hi. rewrite H by (rewrite app_length; lia). rewrite app_nth1 by lia. auto. Qed.

Lemma q_store_spec q l x : repb q l -> tsize q < tcap q -> dtail q ->
  exists q', q_store q x = Ok q' /\ repb (q_inc q') (l ++ [x]) /\ qtail (q_inc q') /\ tdtor q' = tdtor q /\ tlog q' = tlog q /\ tsize q' = tsize q /\ tcap q' = tcap q.
Proof.
  intros R Lt D. pose proof (dtail_lt R D) as Tl. destruct R as [C L Sz Le H Ce]. unfold q_store. rewrite aset_ok by lia. cbn [bind].
  eexists. split; [reflexivity|]. cbn [tdtor tlog tsize tcap]. split; [|split; [|auto]].
  - unfold q_inc. constructor; cbn [tdata thead ttail tsize tcap]; rewrite ?app_length, ?length_upd; simpl; auto; try lia.
    apply cellsat_snoc.
    + apply upd_cellsat_other; auto. intros i Hi. unfold dtail in D. rewrite D. wrap. wcase; lia.
    + rewrite upd_nth_error. rewrite <- Sz, D. rewrite Nat.eqb_refl. destruct (Nat.ltb_spec ((thead q + tsize q) mod tcap q) (length (tdata q))); auto.
      rewrite <- D in *. lia.
  - unfold q_inc, qtail. cbn [tdata thead ttail tsize tcap]. unfold dtail in D. split; [lia|]. split; [|lia].
    rewrite D. wrap. wcase; try lia; wrap; wcase; lia.
Qed.
Lemma d_store_right_spec q l x : repb q l -> tsize q < tcap q -> dtail q ->
  exists q', d_store_right q x = Ok q' /\ repb (q_inc q') (l ++ [x]) /\ dtail (q_inc q') /\ tdtor q' = tdtor q /\ tlog q' = tlog q /\ tsize q' = tsize q /\ tcap q' = tcap q.
Proof.
  intros R Lt D. pose proof (dtail_lt R D) as Tl. destruct (q_store_spec x R Lt D) as (q1 & E & R1 & T1 & D1 & L1 & S1 & C1).
  unfold d_store_right. unfold q_store in E. rewrite aset_ok in * by (destruct R; lia). cbn [bind] in *. inversion E; subst q1; clear E.
  eexists. split; [reflexivity|]. cbn [tdtor tlog tsize tcap]. split; [|split; [|auto]].
  - destruct R1. constructor; auto.
  - destruct T1 as (_ & T2 & _). unfold dtail, q_inc in *. cbn [tdata thead ttail tsize tcap] in *. auto.
Qed.
Lemma prev_pos_spec q p : 0 < tcap q -> p < tcap q -> prev_pos q p < tcap q /\ S (prev_pos q p) mod tcap q = p.
Proof.
  intros C H. unfold prev_pos. destruct (Nat.eqb_spec p 0).
  - split; [lia|]. subst. replace (S (tcap q - 1)) with (tcap q) by lia. apply Nat.mod_same. lia.
  - split; [lia|]. rewrite Nat.mod_small; lia.
Qed.
Lemma d_store_left_spec q l x : repb q l -> tsize q < tcap q -> dtail q ->
  exists q', d_store_left q x = Ok q' /\ repb (q_inc q') (x :: l) /\ dtail (q_inc q') /\ tdtor q' = tdtor q /\ tlog q' = tlog q /\ tsize q' = tsize q /\ tcap q' = tcap q.
Proof.
  intros R Lt D. destruct R as [C L Sz Le H Ce]. unfold d_store_left. destruct (prev_pos_spec q C H) as [P1 P2].
  set (p := prev_pos q (thead q)) in *. rewrite aset_ok by lia. cbn [bind]. eexists. split; [reflexivity|].
  cbn [tdtor tlog tsize tcap]. split; [|split; [|auto]].
  - unfold q_inc. constructor; cbn [tdata thead ttail tsize tcap]; rewrite ?length_upd; simpl; auto; try lia.
    intros i Hi. rewrite upd_nth_error. destruct i as [|i].
    + rewrite Nat.add_0_r, Nat.mod_small by lia. rewrite Nat.eqb_refl. apply Nat.ltb_lt in P1 as P3. rewrite L, P3. auto.
    + simpl in Hi. specialize (Ce i ltac:(lia)). cbn [nth]. rewrite <- Ce.
      replace ((p + S i) mod tcap q) with ((thead q + i) mod tcap q).
      * destruct (Nat.eqb_spec p ((thead q + i) mod tcap q)) as [E|E]; auto. exfalso.
        revert P2 E. wrap. wcase; lia.
      * rewrite <- P2. rewrite Nat.add_mod_idemp_l by lia. f_equal. lia.
  - unfold dtail, q_inc in *. cbn [tdata thead ttail tsize tcap] in *. rewrite D, <- P2. rewrite Nat.add_mod_idemp_l by lia. f_equal. lia.
Qed.

(** popping from the left *)
Lemma q_take_spec q p x : nth_error (tdata q) p = Some (Some x) ->
  q_take q p = Ok (mkTQ (upd (tdata q) p (Some None)) (thead q) (ttail q) (tsize q) (tcap q) (tdtor q) (tlog q), x).
Proof.
  intros E. unfold q_take, aget. rewrite E. cbn [bind]. rewrite aset_ok by (apply nth_error_Some; congruence). reflexivity.
Qed.
Lemma popn_loop_spec : forall l1 q h l2, 0 < tcap q -> length (tdata q) = tcap q -> length (l1 ++ l2) <= tcap q ->
  h < tcap q -> cellsat (tdata q) (tcap q) h (l1 ++ l2) ->
  exists d, q_popn_loop q h (length l1) = Ok (mkTQ d (thead q) (ttail q) (tsize q) (tcap q) (tdtor q) (tlog q), (h + length l1) mod tcap q, l1) /\
    length d = tcap q /\ cellsat d (tcap q) ((h + length l1) mod tcap q) l2.
Proof.
  induction l1 as [|x l1 IH]; intros q h l2 C L Le H Ce; cbn [length q_popn_loop].
  - exists (tdata q). rewrite Nat.add_0_r, Nat.mod_small by lia. destruct q; auto.
  - assert (nth_error (tdata q) h = Some (Some x)) as Ex.
    { specialize (Ce 0 ltac:(simpl; lia)). rewrite Nat.add_0_r, Nat.mod_small in Ce by lia. exact Ce. }
    rewrite (q_take_spec q h Ex). cbn [bind tcap].
    set (q1 := mkTQ _ _ _ _ _ _ _).
    destruct (IH q1 (S h mod tcap q) l2) as (d & E & Ld & Cd); subst q1; cbn [tdata thead ttail tsize tcap tdtor tlog] in *; auto.
    + rewrite length_upd. auto.
    + simpl in Le. lia.
    + apply Nat.mod_upper_bound. lia.
    + apply upd_cellsat_other; [eapply cellsat_tail; eauto|auto|]. intros i Hi. simpl in Le. wrap. wcase; try lia; wrap; wcase; lia.
    + rewrite E. cbn [bind]. exists d. rewrite Nat.add_mod_idemp_l in * by lia.
      replace (h + S (length l1)) with (S h + length l1) by lia. auto.
Qed.

Lemma pop_rep q l1 l2 d : repb q (l1 ++ l2) -> length d = tcap q -> cellsat d (tcap q) ((thead q + length l1) mod tcap q) l2 ->
  let q' := q_sub (q_sethead (mkTQ d (thead q) (ttail q) (tsize q) (tcap q) (tdtor q) (tlog q)) ((thead q + length l1) mod tcap q)) (length l1) in
  repb q' l2 /\ (qtail q -> qtail q') /\ (dtail q -> dtail q').
Proof.
  intros [C L Sz Le H Ce] Ld Cd. cbn zeta. unfold q_sub, q_sethead. rewrite app_length in *.
  split; [constructor|split]; cbn [tdata thead ttail tsize tcap]; auto; try lia; try (apply Nat.mod_upper_bound; lia).
  - unfold qtail. cbn [tdata thead ttail tsize tcap]. intros (T1 & T2 & T3). split; auto. split; [|intros; apply T3; lia].
    rewrite T2. rewrite Nat.add_mod_idemp_l by lia. f_equal. lia.
  - unfold dtail. cbn [tdata thead ttail tsize tcap]. intros ->. rewrite Nat.add_mod_idemp_l by lia. f_equal. lia.
Qed.
(** both popping functions as one: take n = |l1| items from the left *)
Lemma TQPopN_spec q l n : repb q l -> exists q', TQPopN q n = Ok (q', firstn n l) /\ repb q' (skipn n l) /\
  (qtail q -> qtail q') /\ (dtail q -> dtail q') /\ tdtor q' = tdtor q /\ tlog q' = tlog q.
Proof.
  intros R. pose proof R as [C L Sz Le H Ce]. unfold TQPopN.
  set (m := if n <? tsize q then n else tsize q).
  assert (m = length (firstn n l)) as Em by (unfold m; rewrite firstn_length; destruct (Nat.ltb_spec n (tsize q)); lia).
  destruct (Nat.ltb_spec 0 m).
  - rewrite <- (firstn_skipn n l) in R, Ce, Le. rewrite Em.
    destruct (@popn_loop_spec (firstn n l) q (thead q) (skipn n l)) as (d & E & Ld & Cd); auto.
    rewrite E. cbn [bind]. eexists. split; [reflexivity|]. destruct (@pop_rep q (firstn n l) (skipn n l) d R Ld Cd) as (P1 & P2 & P3). auto.
  - assert (firstn n l = []) as E0 by (destruct (firstn n l); auto; simpl in Em; lia).
    assert (skipn n l = l) as E1. { rewrite <- (firstn_skipn n l) at 2. rewrite E0. auto. }
    rewrite E0, E1. exists q. auto 10.
Qed.
Lemma TQPop_spec q l : repb q l -> exists q', TQPop q = Ok (q', hd_error l) /\ repb q' (tl l) /\
  (qtail q -> qtail q') /\ (dtail q -> dtail q') /\ tdtor q' = tdtor q /\ tlog q' = tlog q.
Proof.
  intros R. pose proof R as [C L Sz Le H Ce]. unfold TQPop. rewrite Sz. destruct l as [|x l].
  - exists q. simpl. auto 10.
  - cbn [length Nat.ltb Nat.leb]. destruct (@popn_loop_spec [x] q (thead q) l) as (d & E & Ld & Cd); auto. simpl length in *.
    cbn [q_popn_loop] in E. destruct (q_take q (thead q)) as [[q1 x1]| | |] eqn:Et; cbn [bind] in E; try discriminate. inversion E; subst. clear E.
    cbn [bind]. eexists. split; [reflexivity|]. cbn [tcap].
    destruct (@pop_rep q [x] l d R Ld Cd) as (P1 & P2 & P3). simpl length in *. replace (S (thead q)) with (thead q + 1) by lia. auto.
Qed.

(** popping from the right *)
Lemma rev_firstn_last l n : n <= length l -> l = firstn (length l - n) l ++ rev (firstn n (rev l)).
Proof. intros H. rewrite <- (firstn_skipn (length l - n) l) at 1. f_equal. rewrite firstn_rev, rev_involutive. auto. Qed.
Lemma dpopn_loop_spec : forall n q l r, 0 < tcap q -> length (tdata q) = tcap q -> length l <= tcap q -> n <= length l ->
  forall h, h < tcap q -> r = (h + length l) mod tcap q -> cellsat (tdata q) (tcap q) h l ->
  exists d, d_popn_loop q r n = Ok (mkTQ d (thead q) (ttail q) (tsize q) (tcap q) (tdtor q) (tlog q), (h + (length l - n)) mod tcap q, firstn n (rev l)) /\
    length d = tcap q /\ cellsat d (tcap q) h (firstn (length l - n) l).
Proof.
  induction n as [|n IH]; intros q l r C L Le Ln h Hh Hr Ce; cbn [d_popn_loop].
  - exists (tdata q). rewrite Nat.sub_0_r, firstn_all. subst r. destruct q; auto.
  - destruct l as [|x l _] using rev_ind; [simpl in Ln; lia|]. rewrite app_length in *. simpl (length [x]) in *.
    assert (prev_pos q r = (h + length l) mod tcap q) as Ep.
    { subst r. unfold prev_pos. wrap. wcase; try lia; match goal with |- context [?a =? 0] => destruct (Nat.eqb_spec a 0) end; lia. }
    rewrite Ep. assert (nth_error (tdata q) ((h + length l) mod tcap q) = Some (Some x)) as Ex.
    { rewrite (Ce (length l)) by (rewrite app_length; simpl; lia). rewrite app_nth2, Nat.sub_diag by lia. auto. }
    rewrite (q_take_spec q _ Ex). cbn [bind]. set (q1 := mkTQ _ _ _ _ _ _ _).
    destruct (IH q1 l ((h + length l) mod tcap q)) with (h := h) as (d & E & Ld & Cd); subst q1; cbn [tdata thead ttail tsize tcap tdtor tlog] in *; auto; try lia.
    + rewrite length_upd. auto.
    + apply upd_cellsat_other; [eapply cellsat_app_l; eauto|auto|]. intros i Hi. wrap. wcase; lia.
    + rewrite E. cbn [bind]. exists d. rewrite rev_app_distr. simpl (rev [x]). cbn [app firstn].
      replace (length l + 1 - S n) with (length l - n) by lia. split; auto. split; auto.
      rewrite firstn_app_le by lia. auto.
Qed.
Lemma popright_rep q l d n : repb q l -> dtail q -> n <= length l -> length d = tcap q -> cellsat d (tcap q) (thead q) (firstn (length l - n) l) ->
  let q' := q_sub (d_setright (mkTQ d (thead q) (ttail q) (tsize q) (tcap q) (tdtor q) (tlog q)) ((thead q + (length l - n)) mod tcap q)) n in
  repb q' (firstn (length l - n) l) /\ dtail q'.
Proof.
  intros [C L Sz Le H Ce] D Ln Ld Cd. cbn zeta. unfold q_sub, d_setright.
  split; [constructor|]; cbn [tdata thead ttail tsize tcap]; rewrite ?firstn_length; auto; try lia.
  unfold dtail. cbn [tdata thead ttail tsize tcap]. f_equal. lia.
Qed.
Lemma rev_skipn_rev l n : rev (skipn n (rev l)) = firstn (length l - n) l.
Proof. rewrite skipn_rev, rev_involutive. auto. Qed.
Lemma TDPopRightN_spec q l n : repb q l -> dtail q -> exists q', TDPopRightN q n = Ok (q', firstn n (rev l)) /\ repb q' (rev (skipn n (rev l))) /\
  dtail q' /\ tdtor q' = tdtor q /\ tlog q' = tlog q.
Proof.
  intros R D. pose proof R as [C L Sz Le H Ce]. unfold TDPopRightN.
  set (m := if n <? tsize q then n else tsize q).
  assert (m <= length l) as Lm by (unfold m; destruct (Nat.ltb_spec n (tsize q)); lia).
  assert (firstn n (rev l) = firstn m (rev l)) as E1.
  { unfold m; destruct (Nat.ltb_spec n (tsize q)); auto. rewrite !firstn_all2; auto; rewrite rev_length; lia. }
  assert (length l - n = length l - m) as E2. { unfold m; destruct (Nat.ltb_spec n (tsize q)); lia. }
  rewrite rev_skipn_rev, E1, E2. destruct (Nat.ltb_spec 0 m).
  - destruct (@dpopn_loop_spec m q l (ttail q)) with (h := thead q) as (d & E & Ld & Cd); auto. { unfold dtail in D. rewrite D, Sz. auto. }
    rewrite E. cbn [bind]. eexists. split; [reflexivity|]. destruct (popright_rep R D Lm Ld Cd) as (P1 & P2). auto.
  - replace m with 0 by lia. simpl. rewrite Nat.sub_0_r, firstn_all. exists q. auto 10.
Qed.
Lemma TDPopRight_spec q l : repb q l -> dtail q -> exists q', TDPopRight q = Ok (q', hd_error (rev l)) /\ repb q' (rev (tl (rev l))) /\
  dtail q' /\ tdtor q' = tdtor q /\ tlog q' = tlog q.
Proof.
  intros R D. pose proof R as [C L Sz Le H Ce]. unfold TDPopRight. rewrite Sz. destruct (Nat.ltb_spec 0 (length l)) as [Lt|Lt].
  - destruct (@dpopn_loop_spec 1 q l (ttail q)) with (h := thead q) as (d & E & Ld & Cd); auto. { unfold dtail in D. rewrite D, Sz. auto. }
    cbn [d_popn_loop] in E. destruct (q_take q (prev_pos q (ttail q))) as [[q1 x1]| | |] eqn:Et; cbn [bind] in E; try discriminate.
    assert (rev l <> []) as N by (intros Hn; apply (f_equal (@length _)) in Hn; rewrite rev_length in Hn; simpl in Hn; lia).
    destruct (rev l) as [|x r] eqn:Er; [congruence|]. cbn [hd_error tl firstn] in *. injection E as E3 E4 E5. subst q1 x1. rewrite E4. cbn [bind].
    eexists. split; [reflexivity|]. destruct (@popright_rep q l d 1 R D ltac:(lia) Ld Cd) as (P1 & P2).
    assert (rev r = firstn (length l - 1) l) as ->. { rewrite <- rev_skipn_rev, Er. reflexivity. }
    auto.
  - destruct l; [|simpl in Lt; lia]. simpl. exists q. auto.
Qed.

(** queue DestroyRange *)
Lemma aget_cell (d : cells ptr) i x : nth_error d i = Some (Some x) -> aget d i = Ok x.
Proof. intros H. unfold aget. rewrite H. auto. Qed.
Definition with_log q n lg : tq := mkTQ (tdata q) (thead q) (ttail q) n (tcap q) (tdtor q) lg.
Lemma destroy_loop_spec : forall l f q i e n, length l < f -> 0 < tcap q -> length l < tcap q ->
  i <= tcap q -> 0 < e -> e <= tcap q -> (i + length l) mod tcap q = e mod tcap q -> (l = [] -> i = e) -> (l <> [] -> i <> e) ->
  n = length l -> tsize q = n ->
  cellsat (tdata q) (tcap q) (i mod tcap q) l ->
  q_destroy_loop f q i e = Ok (with_log q 0 (if tdtor q then tlog q ++ l else tlog q)).
Proof.
  induction l as [|x l IH]; intros f q i e n Lf C Ll Hi He1 He2 Hm Hn Hn' En Sz Ce; (destruct f as [|f]; [simpl in Lf; lia|]); cbn [q_destroy_loop].
  - rewrite (Hn eq_refl), Nat.eqb_refl. simpl in En. unfold with_log. destruct q; simpl in *. destruct tdtor; rewrite ?app_nil_r; do 2 f_equal; lia.
  - assert (i <> e) as Ne by (apply Hn'; discriminate). destruct (Nat.eqb_spec i e); [lia|].
    assert (nth_error (tdata q) (i mod tcap q) = Some (Some x)) as Ex.
    { specialize (Ce 0 ltac:(simpl; lia)). rewrite Nat.add_0_r, Nat.mod_mod in Ce by lia. exact Ce. }
    unfold q_destroy_at. simpl in En. destruct (Nat.eqb_spec (tsize q) 0); [lia|].
    assert ((let* log := (if tdtor q then let* x0 := aget (tdata q) (i mod tcap q) in Ok (tlog q ++ [x0]) else Ok (tlog q)) in
             Ok (mkTQ (tdata q) (thead q) (ttail q) (tsize q - 1) (tcap q) (tdtor q) log)) =
            Ok (with_log q (length l) (if tdtor q then tlog q ++ [x] else tlog q))) as Es.
    { destruct (tdtor q) eqn:Ed; [rewrite (aget_cell _ _ Ex)|]; cbn [bind]; unfold with_log; rewrite Ed; do 2 f_equal; lia. }
    rewrite Es. cbn [bind].
    rewrite (IH f (with_log q (length l) (if tdtor q then tlog q ++ [x] else tlog q)) (S (i mod tcap q)) e (length l)); unfold with_log; cbn [tdata thead ttail tsize tcap tdtor tlog]; auto.
    + destruct (tdtor q); auto. rewrite <- app_assoc. auto.
    + simpl in Lf. lia.
    + simpl in Ll. lia.
    + pose proof (Nat.mod_upper_bound i (tcap q)). lia.
    + simpl length in *. rewrite <- Hm. wrap. wcase; try lia; wrap; wcase; lia.
    + intros ->. simpl length in *. revert Hm. wrap. wcase; lia.
    + intros Nl. assert (0 < length l) by (destruct l; [congruence|simpl; lia]). simpl length in *. revert Hm. wrap. wcase; lia.
    + replace (S (i mod tcap q) mod tcap q) with (S (i mod tcap q) mod tcap q) by auto. apply (cellsat_tail C Ce).
Qed.
Lemma destroy_range_spec q l : repb q l -> qtail q ->
  q_destroy_range q (thead q) (ttail q) = Ok (with_log q 0 (if tdtor q then tlog q ++ l else tlog q)).
Proof.
  intros [C L Sz Le H Ce] (T1 & T2 & T3). unfold q_destroy_range.
  destruct (Nat.ltb_spec (tcap q) (thead q)); try lia. destruct (Nat.ltb_spec (tcap q) (ttail q)); try lia. cbn [orb].
  destruct l as [|x l].
  - simpl in Sz. rewrite Sz. simpl. unfold with_log. rewrite <- Sz. destruct q; simpl. destruct tdtor; rewrite ?app_nil_r; auto.
  - rewrite Sz. simpl (0 <? _). cbn [length] in *.
    assert (nth_error (tdata q) (thead q) = Some (Some x)) as Ex.
    { specialize (Ce 0 ltac:(simpl; lia)). rewrite Nat.add_0_r, Nat.mod_small in Ce by lia. exact Ce. }
    unfold q_destroy_at. destruct (Nat.eqb_spec (tsize q) 0); [lia|].
    assert ((let* log := (if tdtor q then let* x0 := aget (tdata q) (thead q) in Ok (tlog q ++ [x0]) else Ok (tlog q)) in
             Ok (mkTQ (tdata q) (thead q) (ttail q) (tsize q - 1) (tcap q) (tdtor q) log)) =
            Ok (with_log q (length l) (if tdtor q then tlog q ++ [x] else tlog q))) as Es.
    { destruct (tdtor q) eqn:Ed; [rewrite (aget_cell _ _ Ex)|]; cbn [bind]; unfold with_log; rewrite Ed; do 2 f_equal; lia. }
    rewrite Es. cbn [bind].
    change (tcap (with_log q (length l) (if tdtor q then tlog q ++ [x] else tlog q))) with (tcap q).
    assert (0 < ttail q) as T4 by (apply T3; lia).
    rewrite (@destroy_loop_spec l (S (tcap q)) (with_log q (length l) (if tdtor q then tlog q ++ [x] else tlog q)) (S (thead q)) (ttail q) (length l));
      unfold with_log; cbn [tdata thead ttail tsize tcap tdtor tlog]; auto; try lia.
    + destruct (tdtor q); auto. rewrite <- app_assoc. auto.
    + rewrite T2, Sz. f_equal. lia.
    + intros ->. simpl in *. revert T2. wrap. wcase; lia.
    + intros Nl. assert (0 < length l) by (destruct l; [congruence|simpl; lia]). revert T2. wrap. wcase; lia.
    + apply (cellsat_tail C Ce).
Qed.
(** state after DestroyRange and the reset *)
Lemma reset_rep q l lg : repb q l -> repb (q_reset (with_log q 0 lg)) [] /\ qtail (q_reset (with_log q 0 lg)).
Proof.
  intros [C L Sz Le H Ce]. unfold q_reset, with_log, qtail. split; [constructor|]; cbn [tdata thead ttail tsize tcap]; simpl; auto; try lia.
  intros i Hi. simpl in Hi. lia.
Qed.

(** deque DestroyRange *)
Lemma d_destroy_loop_spec : forall l f q s e x, length l < f -> 0 < tcap q -> length (x :: l) <= tcap q -> s < tcap q ->
  e = (s + length (x :: l)) mod tcap q -> cellsat (tdata q) (tcap q) s (x :: l) ->
  d_destroy_loop f q s e = Ok (x :: l).
Proof.
  induction l as [|y l IH]; intros f q s e x Lf C Ll Hs He Ce; (destruct f as [|f]; [simpl in Lf; lia|]); cbn [d_destroy_loop].
  - assert (nth_error (tdata q) s = Some (Some x)) as Ex.
    { specialize (Ce 0 ltac:(simpl; lia)). rewrite Nat.add_0_r, Nat.mod_small in Ce by lia. exact Ce. }
    rewrite (aget_cell _ _ Ex). cbn [bind]. simpl in He. replace (S s) with (s + 1) by lia. rewrite He, Nat.eqb_refl. auto.
  - assert (nth_error (tdata q) s = Some (Some x)) as Ex.
    { specialize (Ce 0 ltac:(simpl; lia)). rewrite Nat.add_0_r, Nat.mod_small in Ce by lia. exact Ce. }
    rewrite (aget_cell _ _ Ex). cbn [bind]. simpl length in *.
    destruct (Nat.eqb_spec (S s mod tcap q) e) as [E|E].
    + exfalso. revert E. rewrite He. wrap. wcase; lia.
    + rewrite (IH f q (S s mod tcap q) e y); auto; try lia.
      * rewrite He. simpl length. rewrite Nat.add_mod_idemp_l by lia. f_equal. lia.
      * apply (cellsat_tail C Ce).
Qed.
Lemma TDDestroy_spec q l : repb q l -> dtail q -> TDDestroy q = Ok (if tdtor q then l else []).
Proof.
  intros R D. pose proof (dtail_lt R D) as Tl. pose proof R as [C L Sz Le H Ce]. unfold TDDestroy.
  destruct (Nat.ltb_spec (tcap q) (thead q)); try lia. destruct (Nat.ltb_spec (tcap q) (ttail q)); try lia. cbn [orb].
  destruct (tdtor q); auto. cbn [andb]. destruct l as [|x l].
  - simpl in Sz. rewrite Sz. auto.
  - rewrite Sz. simpl (0 <? _). apply d_destroy_loop_spec; auto; try (simpl in *; lia).
    + unfold dtail in D. rewrite D, Sz. auto.
Qed.
Lemma TQCopy_spec q l : repb q l -> exists q', TQCopy q = Ok q' /\ tdata q' = tdata q /\ thead q' = thead q /\ ttail q' = ttail q /\
  tsize q' = tsize q /\ tcap q' = tcap q /\ tdtor q' = tdtor q.
Proof.
  intros [C L Sz Le H Ce]. unfold TQCopy, acopy. rewrite repeat_length, L. simpl (0 + tcap q). rewrite Nat.leb_refl. cbn [andb bind].
  eexists. split; [reflexivity|]. cbn [tdata thead ttail tsize tcap tdtor]. repeat split; auto.
  simpl (firstn 0 _). simpl (skipn 0 (tdata q)). cbn [app]. rewrite firstn_all2 by lia.
  rewrite skipn_all2 by (rewrite repeat_length; lia). apply app_nil_r.
Qed.
Lemma new_rep c d : repb (TQNew A c d) [] /\ qtail (TQNew A c d) /\ dtail (TQNew A c d).
Proof.
  unfold TQNew. set (n := if c =? 0 then 16 else c). assert (0 < n) by (unfold n; destruct (Nat.eqb_spec c 0); lia).
  split; [constructor|split]; cbn [tdata thead ttail tsize tcap]; simpl length; rewrite ?repeat_length; auto; try lia.
  - intros i Hi. simpl in Hi. lia.
  - unfold qtail. cbn [tdata thead ttail tsize tcap]. simpl. lia.
  - unfold dtail. cbn [tdata thead ttail tsize tcap]. rewrite Nat.mod_small; lia.
Qed.
End P.
