(** C16-C19: the threaded queue, deque and stack.  See TQModel.v, TQSpec.v, ConcModel.v. *)
From Verif Require Import Prelude PreludeFacts ContModel ContSpec ContProofs ConcModel ConcProofs ConcExec TQModel TQSpec TQProofs TQSeqProofs TQConc TSConc TQWake TQConserve.
From Coq Require Import Permutation.
Set Implicit Arguments.

(** C16: any sequential history on a new queue of any capacity returns what a FIFO list
    returns, never touches a cell outside the array or an unset one (the model then has
    no Ok result), and destroying the queue at the end has destroyed exactly the items
    cleared before, then the ones left, oldest first. *)
Theorem C16_threaded_queue_is_fifo : forall A c dtor (ops : list (seqop A)),
  forallb (@on_queue A) ops = true ->
  exists q l d rs, run_seqs (TQNew A c dtor) ops = Ok (q, rs) /\
    spec_seqs ([], []) ops = ((l, d), rs) /\
    TQDestroy q = Ok (if dtor then d ++ l else []).
Proof.
  intros A c dtor ops H. destruct (run_seqs_queue _ (new_wfq A c dtor) H) as (q & E & W & Dt).
  destruct (spec_seqs ([], []) ops) as [[l d] rs]. cbn [fst snd] in *. exists q, l, d, rs. split; [auto|split; [auto|]].
  rewrite (TQDestroy_spec W), Dt. reflexivity.
Qed.
(** growth from capacity 1 in the wrapped state, a clear and a copy *)
Example C16_ex :
  (let* ' (q, rs) := run_seqs (TQNew nat 2 true)
    [SOp (OPushN [Some 1; Some 2]); SOp (OPop TNone); SOp (OPushN [Some 3; Some 4]); SCopyQ; SOp (OPopN 2 TNone);
     SOp (OClearPush (Some 5)); SOp OCount; SOp (OPop TNone)] in
   let* d := TQDestroy q in Ok (rs, d))
  = Ok ([TRCount 2; TRPop (Some (Some 1)); TRCount 3; TRUnit; TRItems [Some 2; Some 3]; TRCount 1; TRCount 1; TRPop (Some (Some 5))],
        [Some 4]).
Proof. vm_compute. reflexivity. Qed.

(** C19: the same for a deque and a list with two ends. *)
Theorem C19_threaded_deque_is_two_ended : forall A c dtor (ops : list (seqop A)),
  forallb (@on_deque A) ops = true ->
  exists q l d rs, run_seqs (TQNew A c dtor) ops = Ok (q, rs) /\
    spec_seqs ([], []) ops = ((l, d), rs) /\
    TDDestroy q = Ok (if dtor then l else []).
Proof.
  intros A c dtor ops H. destruct (run_seqs_deque _ (new_wfd A c dtor) H) as (q & E & W & Dt).
  destruct (spec_seqs ([], []) ops) as [[l d] rs]. cbn [fst snd] in *. exists q, l, d, rs. split; [auto|split; [auto|]].
  destruct W as (R & D & _). rewrite (TDDestroy_spec R D), Dt. reflexivity.
Qed.
Example C19_ex :
  (let* ' (q, rs) := run_seqs (TQNew nat 2 true)
    [SOp (OPushLeft (Some 1)); SOp (OPushLeft (Some 2)); SOp (OPushRight (Some 3)); SOp (OPushLeft (Some 4)); SCopyQ;
     SOp (OPopRight TNone); SOp (OPopN 2 TNone); SOp (OPushRight (Some 5)); SOp (OPopRightN 1 TNone); SOp OCount] in
   let* d := TDDestroy q in Ok (rs, d))
  = Ok ([TRCount 1; TRCount 2; TRCount 3; TRCount 4; TRUnit; TRPop (Some (Some 3)); TRItems [Some 4; Some 2]; TRCount 2;
         TRItems [Some 5]; TRCount 1], [Some 1]).
Proof. vm_compute. reflexivity. Qed.

(** ** C17: all schedules of any number of threads *)
Section Q.
Variable A : Type.
(** reachable: n threads sharing a new queue (deque, stack), after any schedule of any calls *)
Definition queue_runs (c : nat) (d : bool) (n : nat) (h : list (event (queue_call A) (tret A))) m : Prop :=
  steps cnd_eqb (@tcode A) (fun o : queue_call A => tentry (proj1_sig o)) (minit (tpc A) cnd (queue_call A) (TQNew A c d) n) h m.
Definition deque_runs (c : nat) (d : bool) (n : nat) (h : list (event (deque_call A) (tret A))) m : Prop :=
  steps cnd_eqb (@tcode A) (fun o : deque_call A => tentry (proj1_sig o)) (minit (tpc A) cnd (deque_call A) (TQNew A c d) n) h m.
Definition stack_runs (c : nat) (d : bool) (n : nat) (h : list (event (sop_ A) (sret A))) m : Prop :=
  steps (fun _ _ : unit => true) (@scode A) (@sentry A) (minit (spc A) unit (sop_ A) (StackNew A c d) n) h m.
(** the histories of an atomic object: every call takes effect at one moment between
    its call and its return *)
Definition atomic_queue_history n (h : list (event (queue_call A) (tret A))) : Prop :=
  exists am, asteps (fun s (o : queue_call A) s' r => tspec s (proj1_sig o) s' r) (ainit (queue_call A) (tret A) ([], []) n) h am.
Definition atomic_deque_history n (h : list (event (deque_call A) (tret A))) : Prop :=
  exists am, asteps (fun s (o : deque_call A) s' r => tspec s (proj1_sig o) s' r) (ainit (deque_call A) (tret A) ([], []) n) h am.
Definition atomic_stack_history n (h : list (event (sop_ A) (sret A))) : Prop :=
  exists am, asteps (@tstack_spec A) (ainit (sop_ A) (sret A) [] n) h am.

Lemma queue_sim c d n h m : queue_runs c d n h m -> exists am,
  asteps (fun s (o : queue_call A) s' r => tspec s (proj1_sig o) s' r) (ainit (queue_call A) (tret A) ([], []) n) h am /\
  sim (@tcode A) (fun s (o : queue_call A) s' r => tspec s (proj1_sig o) s' r) (@wfq A) (fun (o : queue_call A) pc => rsp (proj1_sig o) pc) m am.
Proof.
  intros H. eapply simulation; [| |apply new_wfq|exact H].
  - intros op. apply entry_ok_tq.
  - intros op l s a. apply queue_cs_ok.
Qed.
Lemma deque_sim c d n h m : deque_runs c d n h m -> exists am,
  asteps (fun s (o : deque_call A) s' r => tspec s (proj1_sig o) s' r) (ainit (deque_call A) (tret A) ([], []) n) h am /\
  sim (@tcode A) (fun s (o : deque_call A) s' r => tspec s (proj1_sig o) s' r) (@wfd A) (fun (o : deque_call A) pc => rsp (proj1_sig o) pc) m am.
Proof.
  intros H. eapply simulation; [| |apply new_wfd|exact H].
  - intros op. apply entry_ok_tq.
  - intros op l s a. apply deque_cs_ok.
Qed.
Lemma stack_sim c d n h m : stack_runs c d n h m -> exists am,
  asteps (@tstack_spec A) (ainit (sop_ A) (sret A) [] n) h am /\ sim (@scode A) (@tstack_spec A) (@stackI A) (@rss A) m am.
Proof.
  intros H. eapply simulation; [| |apply stack_new_spec|exact H].
  - intros op. apply stack_entry_ok.
  - intros op l s a. apply stack_cs_ok.
Qed.

Theorem C17_queue_linearizable : forall c d n h m, queue_runs c d n h m -> atomic_queue_history n h.
Proof. intros c d n h m H. destruct (queue_sim H) as (am & As & _). exists am. exact As. Qed.
Theorem C17_deque_linearizable : forall c d n h m, deque_runs c d n h m -> atomic_deque_history n h.
Proof. intros c d n h m H. destruct (deque_sim H) as (am & As & _). exists am. exact As. Qed.
Theorem C17_stack_linearizable : forall c d n h m, stack_runs c d n h m -> atomic_stack_history n h.
Proof. intros c d n h m H. destruct (stack_sim H) as (am & As & _). exists am. exact As. Qed.

(** critical sections never overlap, and no statement executed in one is undefined behaviour *)
Theorem C17_queue_exclusion_and_safety : forall c d n h m, queue_runs c d n h m ->
  (forall t1 t2 x1 x2, nth_error (th m) t1 = Some x1 -> nth_error (th m) t2 = Some x2 ->
     in_cs (@tcode A) x1 = true -> in_cs (@tcode A) x2 = true -> t1 = t2) /\
  (forall t x, nth_error (th m) t = Some x -> ~ goes_wrong (@tcode A) (sh m) x).
Proof. intros c d n h m H. destruct (queue_sim H) as (am & _ & Sm). split; intros; [eapply sim_exclusion|eapply sim_safe]; eauto. Qed.
Theorem C17_deque_exclusion_and_safety : forall c d n h m, deque_runs c d n h m ->
  (forall t1 t2 x1 x2, nth_error (th m) t1 = Some x1 -> nth_error (th m) t2 = Some x2 ->
     in_cs (@tcode A) x1 = true -> in_cs (@tcode A) x2 = true -> t1 = t2) /\
  (forall t x, nth_error (th m) t = Some x -> ~ goes_wrong (@tcode A) (sh m) x).
Proof. intros c d n h m H. destruct (deque_sim H) as (am & _ & Sm). split; intros; [eapply sim_exclusion|eapply sim_safe]; eauto. Qed.
Theorem C17_stack_exclusion_and_safety : forall c d n h m, stack_runs c d n h m ->
  (forall t1 t2 x1 x2, nth_error (th m) t1 = Some x1 -> nth_error (th m) t2 = Some x2 ->
     in_cs (@scode A) x1 = true -> in_cs (@scode A) x2 = true -> t1 = t2) /\
  (forall t x, nth_error (th m) t = Some x -> ~ goes_wrong (@scode A) (sh m) x).
Proof. intros c d n h m H. destruct (stack_sim H) as (am & _ & Sm). split; intros; [eapply sim_exclusion|eapply sim_safe]; eauto. Qed.

(** nothing is lost, duplicated or invented: when all calls have returned, the items put
    in are those taken out, those still there and those destroyed *)
Definition all_idle L C Op (l : list (tstat L C Op)) : Prop := forall t x, nth_error l t = Some x -> x = Idle.
Lemma idle_free S L C Op R X code (sp : X -> Op -> X -> R -> Prop) wf rs (m : mstate S L C Op) (am : amach X Op R) :
  sim code sp wf rs m am -> all_idle (th m) -> wf (sh m) (ab am) /\ forall t y, nth_error (ath am) t = Some y -> y = AIdle.
Proof.
  intros Sm Id. assert (forall t y, nth_error (ath am) t = Some y -> y = AIdle /\ holds (lk m) t = false) as Hy.
  { intros t y E. assert (t < length (th m)) as Lt by (rewrite (sim_len Sm); apply nth_error_Some; congruence).
    apply nth_error_Some in Lt. destruct (nth_error (th m) t) as [x|] eqn:Ex; [|congruence].
    pose proof (sim_th Sm _ Ex E) as Tr. rewrite (Id _ _ Ex) in Tr. exact Tr. }
  split; [|intros t y E; apply (Hy _ _ E)]. pose proof (sim_lk Sm) as Lk. destruct (lk m) as [u|] eqn:El; auto.
  exfalso. rewrite (sim_len Sm) in Lk. apply nth_error_Some in Lk. destruct (nth_error (ath am) u) as [y|] eqn:Ey; [|congruence].
  destruct (Hy _ _ Ey) as [_ Hh]. simpl in Hh. rewrite Nat.eqb_refl in Hh. discriminate.
Qed.
Lemma flat_nil X Y (g : X -> list Y) l : (forall t x, nth_error l t = Some x -> g x = []) -> flat_map g l = [].
Proof. induction l as [|a l IH]; intros H; simpl; auto. rewrite (H 0 a eq_refl). apply IH. intros t x E. apply (H (Datatypes.S t) x E). Qed.
Theorem C17_queue_conserves_items : forall c d n h m, queue_runs c d n h m -> all_idle (th m) ->
  exists rest destroyed,
    Permutation (hist_puts (fun o : queue_call A => proj1_sig o) h) (hist_takes h ++ rest ++ destroyed) /\
    (forall k, exists q', TQPopN (sh m) k = Ok (q', firstn k rest)) /\
    TQDestroy (sh m) = Ok (if tdtor (sh m) then destroyed ++ rest else []).
Proof.
  intros c d n h m H Id. destruct (queue_sim H) as (am & As & Sm). destruct (idle_free Sm Id) as (W & Hy).
  pose proof (conserve _ As) as Cv. destruct (ab am) as [rest destroyed] eqn:Ea. cbn [fst snd] in Cv.
  exists rest, destroyed. split; [|split].
  - rewrite !flat_nil in Cv; [|intros t x E; rewrite (Hy _ _ E); reflexivity|intros t x E; rewrite (Hy _ _ E); reflexivity]. rewrite app_nil_r in Cv. exact Cv.
  - intros k. destruct W as (R & _). destruct (TQPopN_spec k R) as (q' & E & _). exists q'. exact E.
  - apply TQDestroy_spec. exact W.
Qed.
Theorem C17_deque_conserves_items : forall c d n h m, deque_runs c d n h m -> all_idle (th m) ->
  exists rest,
    Permutation (hist_puts (fun o : deque_call A => proj1_sig o) h) (hist_takes h ++ rest) /\
    (forall k, exists q', TQPopN (sh m) k = Ok (q', firstn k rest)) /\
    TDDestroy (sh m) = Ok (if tdtor (sh m) then rest else []).
Proof.
  intros c d n h m H Id. destruct (deque_sim H) as (am & As & Sm). destruct (idle_free Sm Id) as (W & Hy).
  assert (snd (ab am) = []) as Ed.
  { clear - As. remember (ainit _ _ _ _) as a0. induction As; subst; auto. specialize (IHAs eq_refl). inversion H; subst; cbn [ab]; auto.
    destruct op as [op Ho]. cbn [proj1_sig] in *. unfold tspec in H1. destruct (ab s1) as [l1 d1]. cbn [fst snd] in IHAs. subst d1.
    assert (forall a' r, tq_spec (l1, []) op = (a', r) -> snd a' = []) as Hs.
    { clear - Ho. intros a' r. destruct op; try discriminate Ho; cbn [tq_spec]; try (destruct l1); try (destruct (rev _)); intros E; injection E as <- _; reflexivity. }
    destruct (waits op) as [[[t1 e1] g1]|]; [|eauto]. destruct H1 as [(_ & H1)|(_ & -> & _)]; eauto. }
  pose proof (conserve _ As) as Cv. destruct (ab am) as [rest destroyed] eqn:Ea. cbn [fst snd] in Cv, Ed. subst destroyed.
  exists rest. split; [|split].
  - rewrite !flat_nil in Cv; [|intros t x E; rewrite (Hy _ _ E); reflexivity|intros t x E; rewrite (Hy _ _ E); reflexivity]. rewrite !app_nil_r in Cv. exact Cv.
  - intros k. destruct W as (R & _). destruct (TQPopN_spec k R) as (q' & E & _). exists q'. exact E.
  - destruct W as (R & D & _). apply TDDestroy_spec; auto.
Qed.
End Q.

(** ** C18 *)
Section W.
Variable A : Type.
(** a thread blocked waiting for an item; a thread that was woken because an item
    arrived and has not yet got the mutex back *)
Definition blocked_for_item Op (x : tstat (tpc A) cnd Op) : bool := match x with Sleep _ NonEmpty _ _ _ => true | _ => false end.
Definition woken_for_item Op (x : tstat (tpc A) cnd Op) : bool := match x with Waking _ NonEmpty false _ => true | _ => false end.
Definition blocked_for_empty Op (x : tstat (tpc A) cnd Op) : bool := match x with Sleep _ Empty _ _ _ => true | _ => false end.
Definition at_most_one (op : top A) : bool :=
  match op with OPushN (_ :: _ :: _) => false | OPopN 0 _ | OPopRightN 0 _ => false | _ => true end.
(** every call in the history adds at most one item and, if it takes items, takes at least one *)
Definition single_calls Op (f : Op -> top A) (h : list (event Op (tret A))) : Prop :=
  forall t o, In (ECall t o) h -> at_most_one (f o) = true.
Definition count X (p : X -> bool) (l : list X) : nat := length (filter p l).

Section G.
Variable ok : top A -> bool.
Notation Op := {op : top A | ok op = true}.
Notation tst := (tstat (tpc A) cnd Op).
Lemma free_no_cs_total (l : list tst) : (forall t x, nth_error l t = Some x -> in_cs (@tcode A) x = false) ->
  list_sum (map (@credit A ok) l) = count (@woken_for_item Op) l.
Proof.
  unfold count. induction l as [|x l IH]; intros H; auto. cbn [map filter].
  specialize (IH (fun t x0 E => H (S t) x0 E)). pose proof (H 0 x eq_refl) as Hx. unfold list_sum in *. cbn [fold_right].
  destruct x as [|op pc|op [|] tm lo lt|op [|] [|] pc]; cbn [credit woken_for_item length]; try (rewrite IH; reflexivity).
  destruct pc; cbn [credit]; rewrite IH; auto; try discriminate Hx. destruct todo; discriminate Hx.
Qed.
Lemma existsb_blocked (l : list tst) : existsb (@blocked_for_item Op) l = existsb (sleeps_on cnd_eqb NonEmpty) l.
Proof. induction l as [|x l IH]; [reflexivity|]. cbn [existsb]. rewrite IH. clear. destruct x as [|op pc|op [|] tm lo lt|op [|] [|] pc]; reflexivity. Qed.
Lemma existsb_blocked_e (l : list tst) : existsb (@blocked_for_empty Op) l = existsb (sleeps_on cnd_eqb Empty) l.
Proof. induction l as [|x l IH]; [reflexivity|]. cbn [existsb]. rewrite IH. clear. destruct x as [|op pc|op [|] tm lo lt|op [|] [|] pc]; reflexivity. Qed.
Variables (s0 : tq A) (n : nat).
Notation runs := (steps cnd_eqb (@tcode A) (fun o : Op => tentry (proj1_sig o)) (minit (tpc A) cnd Op s0 n)).
Hypothesis ex : forall h m, runs h m ->
  (forall t1 t2 x1 x2, nth_error (th m) t1 = Some x1 -> nth_error (th m) t2 = Some x2 ->
     in_cs (@tcode A) x1 = true -> in_cs (@tcode A) x2 = true -> t1 = t2).
Lemma runs_winv h m : runs h m -> single_calls (fun o : Op => proj1_sig o) h -> @winv A ok m.
Proof.
  intros H. remember (minit _ _ _ _ _) as m0. induction H; subst; intros Sg; [apply winv_init|].
  eapply winv_step; [| | |exact H0].
  - apply IHsteps; auto. intros t o Hin. apply (Sg t). apply in_or_app. auto.
  - eapply ex; eauto.
  - intros t op Hin. specialize (Sg t op ltac:(apply in_or_app; auto)). exact Sg.
Qed.
Lemma runs_einv h m : runs h m -> @einv A ok m.
Proof.
  intros H. remember (minit _ _ _ _ _) as m0. induction H; subst; [apply einv_init|].
  eapply einv_step; [| |exact H0]; auto. eapply ex; eauto.
Qed.
End G.

Lemma sim_free_cs S L C Op R X code (sp : X -> Op -> X -> R -> Prop) wf rs (m : mstate S L C Op) (am : amach X Op R) :
  sim code sp wf rs m am -> lk m = None -> forall t x, nth_error (th m) t = Some x -> in_cs code x = false.
Proof.
  intros Sm Lk t x E. destruct (in_cs code x) eqn:Ec; auto. exfalso. destruct x; simpl in Ec; try discriminate.
  destruct (run_cs _ Sm E Ec) as (Hl & _). congruence.
Qed.

(** Whenever the mutex is free: if anybody is still blocked waiting for an item, there
    are no more items than threads already woken to take one.  Missing from the full
    claim: calls of PushN with two or more items and of PopN with limit 0, for which it
    is false (below). *)
Theorem C18_queue_wakeups_partial : forall c d n h m, @queue_runs A c d n h m ->
  single_calls (fun o : queue_call A => proj1_sig o) h ->
  lk m = None -> existsb (@blocked_for_item _) (th m) = true ->
  tsize (sh m) <= count (@woken_for_item _) (th m).
Proof.
  intros c d n h m H Sg Lk Bl. destruct (queue_sim H) as (am & _ & Sm).
  assert (@winv A _ m) as W. { eapply runs_winv; eauto. intros h1 m1 H1. destruct (queue_sim H1) as (am1 & _ & Sm1). intros; eapply sim_exclusion; eauto. }
  pose proof (@free_no_cs_total (@queue_op A) (th m) (sim_free_cs Sm Lk)) as E. pose proof (w_cr W) as Cr. rewrite <- existsb_blocked in Cr. specialize (Cr Bl). eapply Nat.le_trans; [exact Cr|]. apply Nat.eq_le_incl. exact E.
Qed.
Theorem C18_deque_wakeups_partial : forall c d n h m, @deque_runs A c d n h m ->
  single_calls (fun o : deque_call A => proj1_sig o) h ->
  lk m = None -> existsb (@blocked_for_item _) (th m) = true ->
  tsize (sh m) <= count (@woken_for_item _) (th m).
Proof.
  intros c d n h m H Sg Lk Bl. destruct (deque_sim H) as (am & _ & Sm).
  assert (@winv A _ m) as W. { eapply runs_winv; eauto. intros h1 m1 H1. destruct (deque_sim H1) as (am1 & _ & Sm1). intros; eapply sim_exclusion; eauto. }
  pose proof (@free_no_cs_total (@deque_op A) (th m) (sim_free_cs Sm Lk)) as E. pose proof (w_cr W) as Cr. rewrite <- existsb_blocked in Cr. specialize (Cr Bl). eapply Nat.le_trans; [exact Cr|]. apply Nat.eq_le_incl. exact E.
Qed.
(** WaitEmpty: whenever the mutex is free and the container is empty, nobody is blocked
    waiting for it to become empty.  No restriction on the calls. *)
Theorem C18_queue_wait_empty : forall c d n h m, @queue_runs A c d n h m ->
  lk m = None -> tsize (sh m) = 0 -> existsb (@blocked_for_empty _) (th m) = false.
Proof.
  intros c d n h m H Lk Sz. destruct (queue_sim H) as (am & _ & Sm).
  assert (@einv A _ m) as W. { eapply runs_einv; eauto. intros h1 m1 H1. destruct (queue_sim H1) as (am1 & _ & Sm1). intros; eapply sim_exclusion; eauto. }
  destruct (existsb _ _) eqn:Ex; auto. rewrite (@existsb_blocked_e (@queue_op A)) in Ex. pose proof (e_cr W Ex Sz) as Db. apply existsb_exists in Db. destruct Db as (x & Hin & Hx).
  apply In_nth_error in Hin. destruct Hin as (t & Et). pose proof (sim_free_cs Sm Lk _ Et) as Hc. destruct x as [|op pc| |]; try discriminate Hx. destruct pc; discriminate.
Qed.
Theorem C18_deque_wait_empty : forall c d n h m, @deque_runs A c d n h m ->
  lk m = None -> tsize (sh m) = 0 -> existsb (@blocked_for_empty _) (th m) = false.
Proof.
  intros c d n h m H Lk Sz. destruct (deque_sim H) as (am & _ & Sm).
  assert (@einv A _ m) as W. { eapply runs_einv; eauto. intros h1 m1 H1. destruct (deque_sim H1) as (am1 & _ & Sm1). intros; eapply sim_exclusion; eauto. }
  destruct (existsb _ _) eqn:Ex; auto. rewrite (@existsb_blocked_e (@deque_op A)) in Ex. pose proof (e_cr W Ex Sz) as Db. apply existsb_exists in Db. destruct Db as (x & Hin & Hx).
  apply In_nth_error in Hin. destruct Hin as (t & Et). pose proof (sim_free_cs Sm Lk _ Et) as Hc. destruct x as [|op pc| |]; try discriminate Hx. destruct pc; discriminate.
Qed.
End W.

(** concrete schedules *)
Definition qc (op : top nat) (H : queue_op op = true) : queue_call nat := exist _ op H.
Definition pop0 : queue_call nat := exist _ (OPop TForever) eq_refl.
Definition popn0 : queue_call nat := exist _ (OPopN 0 TForever) eq_refl.
Definition push1 (x : nat) : queue_call nat := exist _ (OPush (Some x)) eq_refl.
Definition push2 (x y : nat) : queue_call nat := exist _ (OPushN [Some x; Some y]) eq_refl.
Definition qexec n := exec cnd_eqb (@tcode nat) (fun o : queue_call nat => tentry (proj1_sig o)) (minit (tpc nat) cnd (queue_call nat) (TQNew nat 4 false) n).
Definition times (n : nat) (t : nat) : list (choice (queue_call nat)) := repeat (Go t) n.
(** who is blocked, who is idle *)
Definition shape (x : tstat (tpc nat) cnd (queue_call nat)) : nat :=
  match x with Idle => 0 | Run _ _ => 1 | Sleep _ NonEmpty _ _ _ => 2 | Sleep _ Empty _ _ _ => 3 | Waking _ _ _ _ => 4 end.

(** two consumers block on an empty queue, a third thread pushes two items with one
    PushN: one consumer stays blocked although an item is there and everybody else has
    gone home *)
Definition lost_schedule : list (choice (queue_call nat)) :=
  [Call 0 pop0] ++ times 3 0 ++ [Call 1 pop0] ++ times 3 1 ++
  [Call 2 (push2 7 8)] ++ times 8 2 ++ [Wake 2 0] ++ times 2 2 ++ times 10 0.
Definition observe n cs := match qexec n cs with
  | Some (m, h) => Some (map shape (th m), tsize (sh m), match lk m with None => true | _ => false end, hist_takes h)
  | None => None end.
Example lost_shape : observe 3 lost_schedule = Some ([0; 2; 0], 1, true, [Some 7]).
Proof. vm_compute. reflexivity. Qed.
Theorem C18_pushN_lost_wakeup_refuted : exists h m, @queue_runs nat 4 false 3 h m /\
  lk m = None /\ tsize (sh m) = 1 /\ nth_error (th m) 0 = Some Idle /\ nth_error (th m) 2 = Some Idle /\
  exists x, nth_error (th m) 1 = Some x /\ blocked_for_item x = true.
Proof.
  pose proof lost_shape as E. unfold observe in E. destruct (qexec 3 lost_schedule) as [[m h]|] eqn:Ex; [|discriminate].
  exists h, m. split; [eapply exec_steps; exact Ex|]. injection E as E1 E2 E3 E4.
  destruct (lk m); [discriminate|]. split; [auto|split; [auto|]].
  destruct (th m) as [|a [|b [|c' [|]]]]; try discriminate E1. simpl in *. injection E1 as Ea Eb Ec.
  destruct a as [| |op [|] ? ? ?|]; try discriminate Ea. destruct c' as [| |op [|] ? ? ?|]; try discriminate Ec. repeat split; auto.
  exists b. split; auto. destruct b as [| |op [|] ? ? ?|]; try discriminate Eb. reflexivity.
Qed.
(** a consumer asking for zero items swallows the wake-up of another *)
Definition swallow_schedule : list (choice (queue_call nat)) :=
  [Call 0 popn0] ++ times 3 0 ++ [Call 1 pop0] ++ times 3 1 ++
  [Call 2 (push1 7)] ++ times 5 2 ++ [Wake 2 0] ++ times 2 2 ++ times 6 0.
Example swallow_shape : observe 3 swallow_schedule = Some ([0; 2; 0], 1, true, []).
Proof. vm_compute. reflexivity. Qed.
(** the hypotheses of C18_queue_wakeups_partial are met with somebody blocked and
    somebody woken: two consumers, one push *)
Example C18_ex : observe 3 ([Call 0 pop0] ++ times 3 0 ++ [Call 1 pop0] ++ times 3 1 ++ [Call 2 (push1 7)] ++ times 5 2 ++ [Wake 2 0] ++ times 2 2)
  = Some ([4; 2; 0], 1, true, []).
Proof. vm_compute. reflexivity. Qed.
(** a copy of a container that has wrapped around holds the same items in the same order,
    and taking it changes nothing *)
Example C17_copy_ex :
  (let* ' (q, rs) := run_seqs (TQNew nat 3 true)
    [SOp (OPushN [Some 1; Some 2; Some 3]); SOp (OPopN 2 TNone); SOp (OPushN [Some 4; None]); SOp OCopy; SOp (OPopN 9 TNone); SOp OCopy] in Ok rs)
  = Ok ([TRCount 3; TRItems [Some 1; Some 2]; TRCount 3; TRCopy [Some 3; Some 4; None]; TRItems [Some 3; Some 4; None]; TRCopy []]).
Proof. vm_compute. reflexivity. Qed.
(** the hypotheses of the C17 theorems: a consumer blocks, is woken by a push and
    returns the item; all threads are idle again *)
Example C17_ex : observe 2 ([Call 0 pop0] ++ times 3 0 ++ [Call 1 (push1 7)] ++ times 5 1 ++ [Wake 1 0] ++ times 2 1 ++ times 11 0)
  = Some ([0; 0], 0, true, [Some 7]).
Proof. vm_compute. reflexivity. Qed.
