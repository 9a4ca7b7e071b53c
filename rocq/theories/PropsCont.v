(** Property theorems about ring_buffer.c, stack.c and queue.c (C13-C15).
    Specification vocabulary: ContSpec.v. *)
From Verif Require Import Prelude PreludeFacts ContModel ContSpec ContProofs.
Set Implicit Arguments.

Section T.
Variable A : Type.
Notation ptr := (option A).

(** C13: for every capacity, every history gives the specified answers *)
Theorem C13_ring_buffer_keeps_last : forall cap d (ops : list (bop A)), 0 < cap ->
  exists b b', RingBufferNew A cap d = Ok b /\
    run_bops b ops = Ok (b', snd (spec_bops cap [] ops)).
Proof.
  intros cap d ops H. destruct (@new_spec A cap d H) as (b & E & I & _).
  destruct (@run_ring A cap H ops b [] I) as (b' & evs & R). destruct (spec_bops cap [] ops) as [l outs].
  exists b, b'. split; auto. apply R.
Qed.
(** every non-NULL item is destroyed exactly once: when it is evicted or cleared, or
    at the end; before the end the retained items are exactly the ones not
    destroyed.  Without a destroy function nothing is destroyed. *)
Theorem C13_ring_buffer_destroys_once : forall cap d (ops : list (bop A)) b b' outs, 0 < cap ->
  RingBufferNew A cap d = Ok b -> run_bops b ops = Ok (b', outs) ->
  let retained := lastn cap (fst (spec_bops cap [] ops)) in
  exists log, RingBufferDestroy b' = Ok log /\
    (d = true -> Permutation log (nonnull (appended ops)) /\
                 Permutation (rblog b' ++ nonnull retained) (nonnull (appended ops))) /\
    (d = false -> log = []).
Proof.
  intros cap d ops b b' outs H E R. destruct (@new_spec A cap d H) as (b0 & E0 & I & D0 & L0).
  rewrite E in E0. inversion E0; subst b0. clear E0.
  destruct (@run_ring A cap H ops b [] I) as (b2 & evs & R2). destruct (spec_bops cap [] ops) as [l outs2]. cbn [fst].
  destruct R2 as (R2 & I2 & D2 & L2 & P2 & N2). rewrite R in R2. inversion R2; subst b2 outs2.
  destruct (clear_spec H I2) as (b3 & ev & E3 & I3 & D3 & L3 & P3). unfold RingBufferDestroy. rewrite E3. cbn [bind].
  exists (rblog b3). split; auto. rewrite L0 in L2. simpl in L2. subst evs. rewrite L3, D2, D0 in *. split; intros ->.
  - specialize (P2 eq_refl). simpl in P2. split; auto. rewrite P3. auto.
  - rewrite (N2 eq_refl). simpl. apply Permutation_nil. symmetry. auto.
Qed.

(** C14 *)
Theorem C14_stack_is_lifo : forall cap d (ops : list (sop A)),
  exists s, run_sops (StackNew A cap d) ops = Ok (s, snd (spec_sops [] ops)).
Proof.
  intros cap d ops. destruct (run_stack ops (stack_new_spec A cap d)) as (s & H).
  destruct (spec_sops [] ops) as [l outs]. exists s. apply H.
Qed.
Theorem C14_stack_destroys_rest : forall cap d (ops : list (sop A)) s outs,
  run_sops (StackNew A cap d) ops = Ok (s, outs) ->
  StackDestroy s = Ok (if d then rev (fst (spec_sops [] ops)) else []).
Proof.
  intros cap d ops s outs E. destruct (run_stack ops (stack_new_spec A cap d)) as (s' & H).
  destruct (spec_sops [] ops) as [l outs']. destruct H as (E' & I & D). rewrite E in E'. inversion E'; subst.
  rewrite (stack_destroy_spec I), D. reflexivity.
Qed.

(** C15: results of the FIFO list; undefined behaviour exactly when an empty queue
    is dequeued or peeked *)
Theorem C15_queue_is_fifo : forall d (ops : list (qop A)),
  match spec_qops [] ops with
  | Ok (rest, outs) => exists q, run_qops (QueueNew A d) ops = Ok (q, outs) /\
                                 QueueDestroy q = Ok (if d then rest else [])
  | r => run_qops (QueueNew A d) ops = UB /\ r = UB
  end.
Proof.
  intros d ops. pose proof (run_queue ops (queue_new_spec A d) eq_refl) as H. simpl (map snd _) in H.
  destruct (spec_qops [] ops) as [[l outs]| | |]; try contradiction.
  - destruct H as (q & m & E & I & M & D). exists q. split; auto. rewrite (queue_destroy_spec I), D, M. reflexivity.
  - auto.
Qed.
End T.

(** ** Non-trivial instances *)
Definition ex_ring : list (bop nat) :=
  [BAppend (Some 1); BAppend (Some 2); BAppend (Some 3); BAppend (Some 4); BIterate 4; BHead; BLength; BClear; BAppend (Some 5); BIterate 2].
Example ex_ring_ok : snd (spec_bops 3 [] ex_ring) =
  [BUnit; BUnit; BUnit; BUnit; BList [Some 2; Some 3; Some 4; None]; BPtr (Some 4); BNat 3; BUnit; BUnit; BList [Some 5; None]].
Proof. reflexivity. Qed.
Example ex_stack_ok : snd (spec_sops [] [SPush (Some 1); SPushReport (Some 2); SCopy; SPop; SPop; SPop]) =
  [SUnit; SNat 2; SUnit; SPtr (Some 2); SPtr (Some 1); SPtr None].
Proof. reflexivity. Qed.
Example ex_queue_ok : spec_qops [] [QEnqueue (Some 1); QEnqueue (Some 2); QDequeue; QCount; QDequeue; QEmpty] =
  Ok ([], [QUnit; QUnit; QPtr (Some 1); QNat 1; QPtr (Some 2); QBool true]).
Proof. reflexivity. Qed.
Example ex_queue_ub : spec_qops [] [QEnqueue (Some 1); QDequeue; QDequeue] = UB.
Proof. reflexivity. Qed.

Print Assumptions C13_ring_buffer_keeps_last.
Print Assumptions C13_ring_buffer_destroys_once.
Print Assumptions C14_stack_is_lifo.
Print Assumptions C14_stack_destroys_rest.
Print Assumptions C15_queue_is_fifo.
