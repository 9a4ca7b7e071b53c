(** Sequential refinement of the threaded queue and deque (C16, C19). *)
From Verif Require Import Prelude PreludeFacts ContModel ConcModel TQModel TQSpec TQProofs.
Set Implicit Arguments.

Section P.
Variable A : Type.
Notation ptr := (option A).
Notation tq := (tq A).
Implicit Types (l : list ptr) (q : tq).

Definition logok q (d : list ptr) : Prop := tlog q = if tdtor q then d else [].
Definition wfq q (s : abst A) : Prop := repb q (fst s) /\ qtail q /\ logok q (snd s).
Definition wfd q (s : abst A) : Prop := repb q (fst s) /\ dtail q /\ logok q (snd s).

Lemma logok_same q q' d : logok q d -> tdtor q' = tdtor q -> tlog q' = tlog q -> logok q' d.
Proof. unfold logok. intros H -> ->. auto. Qed.
Lemma rep_nil q l : repb q l -> (tsize q =? 0) = is_nil l.
Proof. intros R. rewrite (r_size R). destruct l; auto. Qed.

(** one push, statement by statement: ExpandIfNecessary, the store, size++ *)
Lemma q_push_step q l d x : wfq q (l, d) -> exists q1 q2, q_expand q = Ok q1 /\ q_store q1 x = Ok q2 /\ wfq (q_inc q2) (l ++ [x], d) /\ tdtor (q_inc q2) = tdtor q.
Proof.
  intros (R & T & Lg). cbn [fst snd] in *. destruct (q_expand_spec R T) as (q1 & E1 & R1 & S1 & D1 & Dt1 & Lg1).
  destruct (q_store_spec x R1 S1 D1) as (q2 & E2 & R2 & T2 & Dt2 & Lg2 & _).
  exists q1, q2. split; [auto|split; [auto|split]].
  - split; [auto|split; [auto|]]. unfold q_inc. eapply logok_same; [exact Lg| |]; simpl; congruence.
  - simpl. congruence.
Qed.
Lemma d_push_step (sd : side) q l d x : wfd q (l, d) -> exists q1 q2, d_expand q = Ok q1 /\
  (match sd with SLeft => d_store_left q1 x | SRight => d_store_right q1 x end) = Ok q2 /\
  wfd (q_inc q2) (match sd with SLeft => x :: l | SRight => l ++ [x] end, d) /\ tdtor (q_inc q2) = tdtor q.
Proof.
  intros (R & T & Lg). cbn [fst snd] in *. destruct (d_expand_spec R T) as (q1 & E1 & R1 & S1 & D1 & Dt1 & Lg1).
  destruct sd.
  - destruct (d_store_left_spec x R1 S1 D1) as (q2 & E2 & R2 & T2 & Dt2 & Lg2 & _).
    exists q1, q2. split; [auto|split; [auto|split]].
    + split; [auto|split; [auto|]]. unfold q_inc. eapply logok_same; [exact Lg| |]; simpl; congruence.
    + simpl. congruence.
  - destruct (d_store_right_spec x R1 S1 D1) as (q2 & E2 & R2 & T2 & Dt2 & Lg2 & _).
    exists q1, q2. split; [auto|split; [auto|split]].
    + split; [auto|split; [auto|]]. unfold q_inc. eapply logok_same; [exact Lg| |]; simpl; congruence.
    + simpl. congruence.
Qed.
Lemma pushn_spec : forall xs q l d, wfq q (l, d) -> exists q', q_pushn_loop q xs = Ok q' /\ wfq q' (l ++ xs, d) /\ tdtor q' = tdtor q.
Proof.
  induction xs as [|x xs IH]; intros q l d W; cbn [q_pushn_loop].
  - exists q. rewrite app_nil_r. auto.
  - destruct (q_push_step x W) as (q1 & q2 & E1 & E2 & W2 & D2). rewrite E1. cbn [bind]. rewrite E2. cbn [bind].
    destruct (IH _ _ _ W2) as (q' & E & W' & D'). exists q'. rewrite <- app_assoc in W'. split; [auto|split; [auto|congruence]].
Qed.
(** clearing: DestroyRange, then head = tail = 0 *)
Lemma clear_step q l d : wfq q (l, d) -> exists q1, q_destroy_range q (thead q) (ttail q) = Ok q1 /\ tsize q1 = 0 /\
  wfq (q_reset q1) ([], d ++ l) /\ tdtor q1 = tdtor q.
Proof.
  intros (R & T & Lg). cbn [fst snd] in *. rewrite (destroy_range_spec R T). eexists. split; [reflexivity|].
  destruct (reset_rep (if tdtor q then tlog q ++ l else tlog q) R) as (P1 & P2). split; [auto|]. split; [|auto].
  split; [auto|split; [auto|]]. unfold logok in *. cbn [snd]. simpl. rewrite Lg. destruct (tdtor q); auto.
Qed.
Lemma TQDestroy_spec q l d : wfq q (l, d) -> TQDestroy q = Ok (if tdtor q then d ++ l else []).
Proof.
  intros (R & T & Lg). cbn [fst snd] in *. unfold TQDestroy. rewrite (destroy_range_spec R T). cbn [bind]. unfold with_log. cbn [tlog tdtor].
  unfold logok in Lg. rewrite Lg. destruct (tdtor q); auto.
Qed.
Lemma wf_size q l d : wfq q (l, d) -> tsize q = length l. Proof. intros (R & _). apply (r_size R). Qed.
Lemma wfd_size q l d : wfd q (l, d) -> tsize q = length l. Proof. intros (R & _). apply (r_size R). Qed.
Lemma copy_rep q l q' : repb q l -> tdata q' = tdata q -> thead q' = thead q -> tsize q' = tsize q -> tcap q' = tcap q -> repb q' l.
Proof. intros [C L Sz Le H Ce] E1 E2 E3 E4. constructor; rewrite ?E1, ?E2, ?E3, ?E4; auto. Qed.

Lemma copy_pop q l : repb q l -> exists c q', TQCopy q = Ok c /\ TQPopN c (tsize c) = Ok (q', l).
Proof.
  intros R. destruct (TQCopy_spec R) as (c & E & E1 & E2 & E3 & E4 & E5 & E6). exists c.
  assert (Rc : repb c l) by (eapply copy_rep; eassumption). destruct (TQPopN_spec (tsize c) Rc) as (q' & E' & _). exists q'. split; [exact E|].
  rewrite E'. rewrite (r_size Rc), firstn_all. reflexivity.
Qed.
Lemma run_seq_queue q s o : wfq q s -> on_queue o = true ->
  exists q', run_seq q o = Ok (q', snd (spec_seq s o)) /\ wfq q' (fst (spec_seq s o)) /\ tdtor q' = tdtor q.
Proof.
  destruct s as [l d]. intros W Ho. pose proof W as (R & T & Lg). cbn [fst snd] in R, Lg. destruct o as [[x|xs|t|n t| |x| | | |t|x|x|t|n t|]|]; try discriminate Ho; cbn [run_seq spec_seq tq_spec].
  - destruct (q_push_step x W) as (q1 & q2 & E1 & E2 & W2 & D2). unfold TQPush. rewrite E1. cbn [bind]. rewrite E2. cbn [bind].
    eexists. split; [rewrite (wf_size W2), app_length, Nat.add_1_r; reflexivity|]. auto.
  - destruct (pushn_spec xs W) as (q' & E & W' & D'). unfold TQPushN. rewrite E. cbn [bind].
    eexists. split; [rewrite (wf_size W'), app_length; reflexivity|]. auto.
  - destruct (TQPop_spec R) as (q' & E & R' & T' & _ & Dt & L'). rewrite E. cbn [bind]. exists q'.
    destruct l as [|x l]; cbn [hd_error fst snd tl] in *; (split; [reflexivity|split; [|auto]]); split; auto; split; auto; eapply logok_same; eauto.
  - destruct (TQPopN_spec n R) as (q' & E & R' & T' & _ & Dt & L'). rewrite E. cbn [bind]. exists q'.
    cbn [fst snd] in *; (split; [reflexivity|split; [|auto]]); split; auto; split; auto; eapply logok_same; eauto.
  - destruct (clear_step W) as (q1 & E & S0 & W' & Dt). unfold TQClear. rewrite E. cbn [bind]. rewrite S0. cbn [Nat.eqb massert bind].
    exists (q_reset q1). auto.
  - destruct (clear_step W) as (q1 & E & S0 & W' & Dt). unfold TQClearAndPush. rewrite E. cbn [bind].
    destruct (q_push_step x W') as (q2 & q3 & E1 & E2 & W2 & D2). rewrite E1. cbn [bind]. rewrite E2. cbn [bind].
    rewrite (wf_size W2). cbn [app length Nat.eqb massert bind]. eexists. split; [reflexivity|]. split; [exact W2|]. simpl in *. congruence.
  - exists q. rewrite (r_size R). auto.
  - exists q. auto.
  - exists q. rewrite (rep_nil R). auto.
  - exists q. rewrite (rep_nil R). auto.
  - destruct (copy_pop R) as (c & q' & E & E2). rewrite E. cbn [bind]. rewrite E2. cbn [bind]. exists q. auto.
  - destruct (TQCopy_spec R) as (q' & E & E1 & E2 & E3 & E4 & E5 & E6). rewrite E. cbn [bind]. eexists. split; [reflexivity|].
    cbn [fst]. split; [|auto]. split; [|split].
    + eapply copy_rep; eauto.
    + destruct T as (T1 & T2 & T3). unfold qtail. cbn [tdata thead ttail tsize tcap]. rewrite E2, E3, E4, E5. auto.
    + unfold logok in *. cbn [tlog tdtor snd]. rewrite E6. exact Lg.
Qed.
Lemma run_seq_deque q s o : wfd q s -> on_deque o = true ->
  exists q', run_seq q o = Ok (q', snd (spec_seq s o)) /\ wfd q' (fst (spec_seq s o)) /\ tdtor q' = tdtor q.
Proof.
  destruct s as [l d]. intros W Ho. pose proof W as (R & T & Lg). cbn [fst snd] in R, Lg. destruct o as [[x|xs|t|n t| |x| | | |t|x|x|t|n t|]|]; try discriminate Ho; cbn [run_seq spec_seq tq_spec].
  - destruct (TQPop_spec R) as (q' & E & R' & _ & T' & Dt & L'). rewrite E. cbn [bind]. exists q'.
    destruct l as [|x l]; cbn [hd_error fst snd tl] in *; (split; [reflexivity|split; [|auto]]); split; auto; split; auto; eapply logok_same; eauto.
  - destruct (TQPopN_spec n R) as (q' & E & R' & _ & T' & Dt & L'). rewrite E. cbn [bind]. exists q'.
    cbn [fst snd] in *; (split; [reflexivity|split; [|auto]]); split; auto; split; auto; eapply logok_same; eauto.
  - exists q. rewrite (r_size R). auto.
  - exists q. auto.
  - exists q. rewrite (rep_nil R). auto.
  - exists q. rewrite (rep_nil R). auto.
  - destruct (d_push_step SLeft x W) as (q1 & q2 & E1 & E2 & W2 & D2). unfold TDPushLeft. rewrite E1. cbn [bind]. rewrite E2. cbn [bind].
    eexists. split; [rewrite (wfd_size W2); reflexivity|]. auto.
  - destruct (d_push_step SRight x W) as (q1 & q2 & E1 & E2 & W2 & D2). unfold TDPushRight. rewrite E1. cbn [bind]. rewrite E2. cbn [bind].
    eexists. split; [rewrite (wfd_size W2), app_length, Nat.add_1_r; reflexivity|]. auto.
  - destruct (TDPopRight_spec R T) as (q' & E & R' & T' & Dt & L'). rewrite E. cbn [bind]. exists q'.
    destruct (rev l) as [|x r] eqn:Er; cbn [hd_error fst snd tl] in *; (split; [reflexivity|split; [|auto]]); split; cbn [fst snd]; auto; try (split; auto; eapply logok_same; eauto).
    assert (l = []) as -> by (destruct l; auto; apply (f_equal (@length _)) in Er; rewrite rev_length in Er; discriminate). auto.
  - destruct (TDPopRightN_spec n R T) as (q' & E & R' & T' & Dt & L'). rewrite E. cbn [bind]. exists q'.
    cbn [fst snd] in *; (split; [reflexivity|split; [|auto]]); split; auto; split; auto; eapply logok_same; eauto.
  - destruct (copy_pop R) as (c & q' & E & E2). rewrite E. cbn [bind]. rewrite E2. cbn [bind]. exists q. auto.
  - destruct (TQCopy_spec R) as (q' & E & E1 & E2 & E3 & E4 & E5 & E6). rewrite E. cbn [bind]. eexists. split; [reflexivity|].
    cbn [fst]. split; [|auto]. split; [|split].
    + eapply copy_rep; eauto.
    + unfold dtail in *. cbn [tdata thead ttail tsize tcap]. rewrite E2, E3, E4, E5. auto.
    + unfold logok in *. cbn [tlog tdtor snd]. rewrite E6. exact Lg.
Qed.
Lemma run_seqs_queue : forall ops q s, wfq q s -> forallb (@on_queue A) ops = true ->
  exists q', run_seqs q ops = Ok (q', snd (spec_seqs s ops)) /\ wfq q' (fst (spec_seqs s ops)) /\ tdtor q' = tdtor q.
Proof.
  induction ops as [|o ops IH]; intros q s W Ho; cbn [run_seqs spec_seqs forallb] in *.
  - exists q. auto.
  - apply andb_prop in Ho. destruct Ho as [H1 H2]. destruct (@run_seq_queue q s o W H1) as (q1 & E1 & W1 & D1). rewrite E1.
    destruct (spec_seq s o) as [s1 r1]. cbn [fst snd bind] in *. destruct (IH _ _ W1 H2) as (q2 & E2 & W2 & D2). rewrite E2.
    destruct (spec_seqs s1 ops) as [s2 r2]. cbn [fst snd bind] in *. exists q2. split; [auto|split; [auto|congruence]].
Qed.
Lemma run_seqs_deque : forall ops q s, wfd q s -> forallb (@on_deque A) ops = true ->
  exists q', run_seqs q ops = Ok (q', snd (spec_seqs s ops)) /\ wfd q' (fst (spec_seqs s ops)) /\ tdtor q' = tdtor q.
Proof.
  induction ops as [|o ops IH]; intros q s W Ho; cbn [run_seqs spec_seqs forallb] in *.
  - exists q. auto.
  - apply andb_prop in Ho. destruct Ho as [H1 H2]. destruct (@run_seq_deque q s o W H1) as (q1 & E1 & W1 & D1). rewrite E1.
    destruct (spec_seq s o) as [s1 r1]. cbn [fst snd bind] in *. destruct (IH _ _ W1 H2) as (q2 & E2 & W2 & D2). rewrite E2.
    destruct (spec_seqs s1 ops) as [s2 r2]. cbn [fst snd bind] in *. exists q2. split; [auto|split; [auto|congruence]].
Qed.
Lemma new_wfq c b : wfq (TQNew A c b) ([], []).
Proof. destruct (new_rep A c b) as (R & Q & D). split; [auto|split; [auto|]]. unfold logok. simpl. destruct b; auto. Qed.
Lemma new_wfd c b : wfd (TQNew A c b) ([], []).
Proof. destruct (new_rep A c b) as (R & Q & D). split; [auto|split; [auto|]]. unfold logok. simpl. destruct b; auto. Qed.
End P.
