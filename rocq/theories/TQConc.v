(** Every schedule of the threaded queue, deque and stack is a schedule of the atomic object. *)
From Verif Require Import Prelude PreludeFacts ContModel ContSpec ContProofs ConcModel ConcProofs TQModel TQSpec TQProofs TQSeqProofs.
Set Implicit Arguments.

Section P.
Variable A : Type.
Notation ptr := (option A).
Notation tq := (tq A).
Notation tpc := (tpc A).
Implicit Types (l : list ptr) (q : tq).
Notation run := (cs_run (@tcode A)).

(** where a thread executing op may resume after it got the mutex *)
Definition popres (sd : side) (k : popk) (t : tmo) (pc : tpc) : Prop :=
  t <> TNone /\ (pc = PcRecheck sd k t \/ (t = TTimed /\ pc = PcUnlock (timeout_result A k))).
Definition rsp (op : top A) (pc : tpc) : Prop :=
  tentry op = PcLock pc \/
  match op with
  | OPop t => popres SLeft One t pc
  | OPopN n t => popres SLeft (Many n) t pc
  | OPopRight t => popres SRight One t pc
  | OPopRightN n t => popres SRight (Many n) t pc
  | OWaitEmpty t => t <> TNone /\ (pc = PcWERecheck t \/ (t = TTimed /\ pc = PcUnlock (TRBool false)))
  | _ => False
  end.

Lemma run_act q pc f k q1 s' pc2 : tcode pc = CAct f k -> f q = Ok q1 -> run q1 (k q) s' pc2 -> run q pc s' pc2.
Proof. intros H1 H2 H3. eapply cr_act; eauto. Qed.
Lemma run_unlock q r : run q (PcUnlock r) q (PcUnlock r).
Proof. eapply cr_unlock. reflexivity. Qed.
Lemma run_check_empty q r : run q (PcCheckEmpty r) q (PcUnlock r).
Proof.
  eapply run_act; [reflexivity|reflexivity|]. cbv beta. destruct (tsize q =? 0); [|apply run_unlock].
  eapply cr_bcast; [reflexivity|apply run_unlock].
Qed.
Lemma run_count q n : run q (PcSignal n) q (PcUnlock (TRCount n)).
Proof. eapply cr_signal; [reflexivity|apply run_unlock]. Qed.

(** the pushing loop *)
Lemma run_push_queue : forall xs q l d x, wfq q (l, d) -> exists q', run q (PcExpand None x xs) q' (PcUnlock (TRCount (length (l ++ x :: xs)))) /\ wfq q' (l ++ x :: xs, d).
Proof.
  induction xs as [|y xs IH]; intros q l d x W; destruct (q_push_step x W) as (q1 & q2 & E1 & E2 & W2 & _).
  - exists (q_inc q2). split; [|auto]. eapply run_act; [reflexivity|exact E1|]. cbv beta. eapply run_act; [reflexivity|exact E2|]. cbv beta.
    eapply run_act; [reflexivity|reflexivity|]. cbv beta. eapply run_act; [reflexivity|reflexivity|]. cbv beta. rewrite (wf_size W2). apply run_count.
  - destruct (IH _ _ _ y W2) as (q' & Hr & W'). rewrite <- app_assoc in *. exists q'. split; [|auto].
    eapply run_act; [reflexivity|exact E1|]. cbv beta. eapply run_act; [reflexivity|exact E2|]. cbv beta.
    eapply run_act; [reflexivity|reflexivity|]. exact Hr.
Qed.
Lemma run_push_deque sd q l d x : wfd q (l, d) ->
  let pc2 := match sd with SLeft => x :: l | SRight => l ++ [x] end in
  exists q', run q (PcExpand (Some sd) x []) q' (PcUnlock (TRCount (length pc2))) /\ wfd q' (pc2, d).
Proof.
  intros W. destruct (d_push_step sd x W) as (q1 & q2 & E1 & E2 & W2 & _). cbn zeta. exists (q_inc q2). split; [|auto].
  eapply run_act; [reflexivity|exact E1|]. cbv beta. eapply run_act; [reflexivity|exact E2|]. cbv beta.
  eapply run_act; [reflexivity|reflexivity|]. cbv beta. eapply run_act; [reflexivity|reflexivity|]. cbv beta. rewrite (wfd_size W2). apply run_count.
Qed.

(** the taking loops *)
Lemma q_take_inv q p q' x : q_take q p = Ok (q', x) -> aget (tdata q) p = Ok x /\ (let* ' (q1, _) := q_take q p in Ok q1) = Ok q' /\ tcap q' = tcap q.
Proof.
  intros H. rewrite H. split; [|split; [reflexivity|]]; revert H; unfold q_take; destruct (aget (tdata q) p); cbn [bind]; try discriminate;
  destruct (aset (tdata q) p None); cbn [bind]; try discriminate; intros E; inversion E; subst; auto.
Qed.
Lemma run_take_left k m : forall n q h q' h' l got s' pc2, q_popn_loop q h n = Ok (q', h', l) ->
  run q' (PcSetPos SLeft k m h' (got ++ l)) s' pc2 -> run q (PcTakeLoop SLeft k m h n got) s' pc2.
Proof.
  induction n as [|n IH]; intros q h q' h' l got s' pc2 E Hr; cbn [q_popn_loop] in E.
  - inversion E; subst. rewrite app_nil_r in Hr. eapply run_act; [reflexivity|reflexivity|]. exact Hr.
  - destruct (q_take q h) as [[q1 x]| | |] eqn:Et; cbn [bind] in E; try discriminate.
    destruct (q_popn_loop q1 (S h mod tcap q1) n) as [[[q2 h2] l2]| | |] eqn:El; cbn [bind] in E; try discriminate. inversion E; subst.
    destruct (q_take_inv q h Et) as (Ea & Eq_ & Ec). eapply run_act; [reflexivity|exact Eq_|]. cbv beta iota zeta. rewrite Ea.
    rewrite Ec in El. eapply IH; [exact El|]. rewrite <- app_assoc. exact Hr.
Qed.
Lemma run_take_right k m : forall n q h q' h' l got s' pc2, d_popn_loop q h n = Ok (q', h', l) ->
  run q' (PcSetPos SRight k m h' (got ++ l)) s' pc2 -> run q (PcTakeLoop SRight k m h n got) s' pc2.
Proof.
  induction n as [|n IH]; intros q h q' h' l got s' pc2 E Hr; cbn [d_popn_loop] in E.
  - inversion E; subst. rewrite app_nil_r in Hr. eapply run_act; [reflexivity|reflexivity|]. exact Hr.
  - destruct (q_take q (prev_pos q h)) as [[q1 x]| | |] eqn:Et; cbn [bind] in E; try discriminate.
    destruct (d_popn_loop q1 (prev_pos q h) n) as [[[q2 h2] l2]| | |] eqn:El; cbn [bind] in E; try discriminate. inversion E; subst.
    destruct (q_take_inv q _ Et) as (Ea & Eq_ & Ec). eapply run_act; [reflexivity|exact Eq_|]. cbv beta iota zeta. rewrite Ea.
    eapply IH; [exact El|]. rewrite <- app_assoc. exact Hr.
Qed.
Definition want (k : popk) : nat := match k with One => 1 | Many n => n end.
Lemma run_take_l q l k : repb q l -> exists q', run q (PcTake SLeft k) q' (PcUnlock (pop_result k (firstn (want k) l))) /\
  repb q' (skipn (want k) l) /\ (qtail q -> qtail q') /\ (dtail q -> dtail q') /\ tdtor q' = tdtor q /\ tlog q' = tlog q.
Proof.
  intros R. destruct (TQPopN_spec (want k) R) as (q' & E & R' & P). exists q'. split; [|auto]. clear R' P.
  eapply run_act; [reflexivity|reflexivity|]. cbv beta zeta.
  assert ((match k with One => if 0 <? tsize q then 1 else 0 | Many num => if num <? tsize q then num else tsize q end) =
    (if want k <? tsize q then want k else tsize q)) as ->.
  { destruct k; auto. simpl. destruct (Nat.ltb_spec 0 (tsize q)); destruct (Nat.ltb_spec 1 (tsize q)); lia. }
  unfold TQPopN in E. destruct (0 <? (if want k <? tsize q then want k else tsize q)) eqn:En.
  - destruct (q_popn_loop _ _ _) as [[[q1 h1] l1]| | |] eqn:El; cbn [bind] in E; try discriminate. injection E as <- E. rewrite <- E.
    eapply run_take_left; [exact El|]. cbn [app]. eapply run_act; [reflexivity|reflexivity|]. eapply run_act; [reflexivity|reflexivity|].
    apply run_check_empty.
  - injection E as <- <-. apply run_check_empty.
Qed.
Lemma run_take_r q l k : repb q l -> dtail q -> exists q', run q (PcTake SRight k) q' (PcUnlock (pop_result k (firstn (want k) (rev l)))) /\
  repb q' (rev (skipn (want k) (rev l))) /\ dtail q' /\ tdtor q' = tdtor q /\ tlog q' = tlog q.
Proof.
  intros R D. destruct (TDPopRightN_spec (want k) R D) as (q' & E & R' & P). exists q'. split; [|auto]. clear R' P.
  eapply run_act; [reflexivity|reflexivity|]. cbv beta zeta.
  assert ((match k with One => if 0 <? tsize q then 1 else 0 | Many num => if num <? tsize q then num else tsize q end) =
    (if want k <? tsize q then want k else tsize q)) as ->.
  { destruct k; auto. simpl. destruct (Nat.ltb_spec 0 (tsize q)); destruct (Nat.ltb_spec 1 (tsize q)); lia. }
  unfold TDPopRightN in E. destruct (0 <? (if want k <? tsize q then want k else tsize q)) eqn:En.
  - destruct (d_popn_loop _ _ _) as [[[q1 h1] l1]| | |] eqn:El; cbn [bind] in E; try discriminate. injection E as <- E. rewrite <- E.
    eapply run_take_right; [exact El|]. cbn [app]. eapply run_act; [reflexivity|reflexivity|]. eapply run_act; [reflexivity|reflexivity|].
    apply run_check_empty.
  - injection E as <- <-. apply run_check_empty.
Qed.

(** the popping calls, for either container *)
Section W.
Variable wf : tq -> abst A -> Prop.
Hypothesis wf_rep : forall q s, wf q s -> repb q (fst s).
Variable ok : top A -> bool.
Notation Op := {op : top A | ok op = true}.
Notation spec := (fun s (o : Op) s' r => tspec s (proj1_sig o) s' r).
Notation rs := (fun (o : Op) pc => rsp (proj1_sig o) pc).
Notation post := (post (@tcode A) spec wf rs).

Lemma pop_cs (o : Op) sd k t q s pc :
  (rsp (proj1_sig o) pc -> pc = PcCheckWait sd k t \/ popres sd k t pc) ->
  (forall pc, popres sd k t pc -> rsp (proj1_sig o) pc) ->
  waits (proj1_sig o) = Some (t, false, timeout_result A k) ->
  (forall q s, wf q s -> exists q' s' r, run q (PcTake sd k) q' (PcUnlock r) /\ wf q' s' /\ tq_spec s (proj1_sig o) = (s', r)) ->
  rsp (proj1_sig o) pc -> wf q s -> exists s' pc2, run q pc s' pc2 /\ post o s s' pc2.
Proof.
  intros H1 H2 Hw Ht Hr W. pose proof (rep_nil (wf_rep W)) as En.
  assert (forall q' s' r, wf q' s' -> (t = TNone \/ is_nil (fst s) = false) -> tq_spec s (proj1_sig o) = (s', r) -> post o s q' (PcUnlock r)) as Hp.
  { intros q' s' r W' Hn Es. unfold ConcProofs.post. cbn [tcode]. exists s', r. split; [|split; [auto|reflexivity]]. unfold tspec. rewrite Hw. left. auto. }
  assert (t <> TNone -> post o s q (PcWait sd k t)) as Hpw.
  { intros Nt. unfold ConcProofs.post. cbn [tcode]. split; [auto|]. split; [apply H2; split; auto|].
    intros Tm. apply H2. split; auto. right. destruct t; try discriminate Tm. auto. }
  destruct (H1 Hr) as [->|(Nt & [->|(-> & ->)])].
  - destruct t; cbn [is_nil] in *.
    + destruct (Ht _ _ W) as (q' & s' & r & R1 & W' & Es). exists q', (PcUnlock r). split; [|eapply Hp; eauto].
      eapply run_act; [reflexivity|reflexivity|]. cbv beta. rewrite andb_false_r. exact R1.
    + rewrite <- En in Hp. destruct (tsize q =? 0) eqn:E0.
      * exists q, (PcWait sd k TTimed). split; [|apply Hpw; discriminate]. eapply run_act; [reflexivity|reflexivity|]. cbv beta. rewrite E0. eapply cr_wait. reflexivity.
      * destruct (Ht _ _ W) as (q' & s' & r & R1 & W' & Es). exists q', (PcUnlock r). split; [|eapply Hp; eauto].
        eapply run_act; [reflexivity|reflexivity|]. cbv beta. rewrite E0. exact R1.
    + rewrite <- En in Hp. destruct (tsize q =? 0) eqn:E0.
      * exists q, (PcWait sd k TForever). split; [|apply Hpw; discriminate]. eapply run_act; [reflexivity|reflexivity|]. cbv beta. rewrite E0. eapply cr_wait. reflexivity.
      * destruct (Ht _ _ W) as (q' & s' & r & R1 & W' & Es). exists q', (PcUnlock r). split; [|eapply Hp; eauto].
        eapply run_act; [reflexivity|reflexivity|]. cbv beta. rewrite E0. exact R1.
  - rewrite <- En in Hp. destruct (tsize q =? 0) eqn:E0.
    + exists q, (PcWait sd k t). split; [|apply Hpw; auto]. eapply run_act; [reflexivity|reflexivity|]. cbv beta. rewrite E0. eapply cr_wait. reflexivity.
    + destruct (Ht _ _ W) as (q' & s' & r & R1 & W' & Es). exists q', (PcUnlock r). split; [|eapply Hp; eauto].
      eapply run_act; [reflexivity|reflexivity|]. cbv beta. rewrite E0. exact R1.
  - exists q, (PcUnlock (timeout_result A k)). split; [apply run_unlock|]. unfold ConcProofs.post. cbn [tcode].
    exists s, (timeout_result A k). split; [|split; [auto|reflexivity]]. unfold tspec. rewrite Hw. right. auto.
Qed.
Lemma waitempty_cs (o : Op) t q s pc : proj1_sig o = OWaitEmpty t ->
  rsp (proj1_sig o) pc -> wf q s -> exists s' pc2, run q pc s' pc2 /\ post o s s' pc2.
Proof.
  intros Eo Hr W. pose proof (rep_nil (wf_rep W)) as En. rewrite Eo in Hr.
  assert (is_nil (fst s) = true \/ t = TNone -> post o s q (PcUnlock (TRBool (is_nil (fst s))))) as Hp.
  { intros Hn. unfold ConcProofs.post. cbn [tcode]. exists s, (TRBool (is_nil (fst s))). split; [|split; [auto|reflexivity]].
    unfold tspec. rewrite Eo. cbn [waits]. left. split; [destruct Hn as [Hn|Hn]; rewrite Hn; auto|]. destruct s. reflexivity. }
  assert (t <> TNone -> post o s q (PcWEWait t)) as Hpw.
  { intros Nt. unfold ConcProofs.post. cbn [tcode]. split; [auto|]. split; [right; rewrite Eo; split; auto|].
    intros Tm. right. rewrite Eo. split; auto. right. destruct t; try discriminate Tm. auto. }
  destruct Hr as [Hr|(Nt & [->|(-> & ->)])].
  - cbn [tentry] in Hr. injection Hr as <-. destruct (tsize q =? 0) eqn:E0.
    + exists q, (PcUnlock (TRBool true)). split; [|rewrite <- En in Hp; apply Hp; auto].
      eapply run_act; [reflexivity|reflexivity|]. cbv beta. rewrite E0. apply run_unlock.
    + destruct t.
      * exists q, (PcUnlock (TRBool false)). split; [|rewrite <- En in Hp; apply Hp; auto].
        eapply run_act; [reflexivity|reflexivity|]. cbv beta. rewrite E0. apply run_unlock.
      * exists q, (PcWEWait TTimed). split; [|apply Hpw; discriminate].
        eapply run_act; [reflexivity|reflexivity|]. cbv beta. rewrite E0. eapply cr_wait. reflexivity.
      * exists q, (PcWEWait TForever). split; [|apply Hpw; discriminate].
        eapply run_act; [reflexivity|reflexivity|]. cbv beta. rewrite E0. eapply cr_wait. reflexivity.
  - destruct (tsize q =? 0) eqn:E0.
    + exists q, (PcUnlock (TRBool true)). split; [|rewrite <- En in Hp; apply Hp; auto].
      eapply run_act; [reflexivity|reflexivity|]. cbv beta. rewrite E0. apply run_unlock.
    + exists q, (PcWEWait t). split; [|apply Hpw; auto].
      eapply run_act; [reflexivity|reflexivity|]. cbv beta. rewrite E0. eapply cr_wait. reflexivity.
  - exists q, (PcUnlock (TRBool false)). split; [apply run_unlock|]. unfold ConcProofs.post. cbn [tcode].
    exists s, (TRBool false). split; [|split; [auto|reflexivity]]. unfold tspec. rewrite Eo. right. auto.
Qed.
(** calls that never wait *)
Lemma simple_cs (o : Op) q s pc : waits (proj1_sig o) = None ->
  (forall q s, wf q s -> forall pc, tentry (proj1_sig o) = PcLock pc -> exists q' s' r, run q pc q' (PcUnlock r) /\ wf q' s' /\ tq_spec s (proj1_sig o) = (s', r)) ->
  rsp (proj1_sig o) pc -> wf q s -> exists s' pc2, run q pc s' pc2 /\ post o s s' pc2.
Proof.
  intros Hw Ht Hr W. assert (tentry (proj1_sig o) = PcLock pc) as Hl.
  { destruct Hr as [Hr|Hr]; auto. destruct (proj1_sig o); try discriminate Hw; contradiction. }
  destruct (Ht _ _ W _ Hl) as (q' & s' & r & R1 & W' & Es). exists q', (PcUnlock r). split; auto.
  unfold ConcProofs.post. cbn [tcode]. exists s', r. split; [|split; [auto|reflexivity]]. unfold tspec. rewrite Hw. auto.
Qed.
Lemma entry_ok_tq (o : Op) : exists pc0, tcode (tentry (proj1_sig o)) = CLock pc0 /\ rsp (proj1_sig o) pc0.
Proof. unfold tentry. eexists. split; [reflexivity|]. left. reflexivity. Qed.
End W.

Definition queue_call := {op : top A | queue_op op = true}.
Definition deque_call := {op : top A | deque_op op = true}.

Lemma pop_one_l l (d : list ptr) : match l with [] => ((l, d), TRPop None) | x :: r => ((r, d), TRPop (Some x)) end =
  ((skipn 1 l, d), pop_result One (firstn 1 l)).
Proof. destruct l; auto. Qed.
Lemma pop_one_r l (d : list ptr) : match rev l with [] => ((l, d), TRPop None) | x :: r => ((rev r, d), TRPop (Some x)) end =
  ((rev (skipn 1 (rev l)), d), pop_result One (firstn 1 (rev l))).
Proof.
  destruct (rev l) as [|x r] eqn:E; auto. assert (l = []) as -> by (destruct l; auto; apply (f_equal (@length _)) in E; rewrite rev_length in E; discriminate). auto.
Qed.
Lemma take_wfq q s k : wfq q s -> exists q' s' r, run q (PcTake SLeft k) q' (PcUnlock r) /\ wfq q' s' /\ s' = (skipn (want k) (fst s), snd s) /\ r = pop_result k (firstn (want k) (fst s)).
Proof.
  intros (R & T & Lg). destruct (run_take_l k R) as (q' & Hr & R' & T' & _ & Dt & L'). eexists q', _, _. split; [exact Hr|]. split; [|split; reflexivity].
  split; [auto|split; [auto|]]. eapply logok_same; eauto.
Qed.
Lemma take_wfd_l q s k : wfd q s -> exists q' s' r, run q (PcTake SLeft k) q' (PcUnlock r) /\ wfd q' s' /\ s' = (skipn (want k) (fst s), snd s) /\ r = pop_result k (firstn (want k) (fst s)).
Proof.
  intros (R & T & Lg). destruct (run_take_l k R) as (q' & Hr & R' & _ & T' & Dt & L'). eexists q', _, _. split; [exact Hr|]. split; [|split; reflexivity].
  split; [auto|split; [auto|]]. eapply logok_same; eauto.
Qed.
Lemma take_wfd_r q s k : wfd q s -> exists q' s' r, run q (PcTake SRight k) q' (PcUnlock r) /\ wfd q' s' /\ s' = (rev (skipn (want k) (rev (fst s))), snd s) /\ r = pop_result k (firstn (want k) (rev (fst s))).
Proof.
  intros (R & T & Lg). destruct (run_take_r k R T) as (q' & Hr & R' & T' & Dt & L'). eexists q', _, _. split; [exact Hr|]. split; [|split; reflexivity].
  split; [auto|split; [auto|]]. eapply logok_same; eauto.
Qed.
Ltac popcase WR ok o sd k t TK := apply (@pop_cs _ WR ok o sd k t); [..|auto|auto];
  [ intros [Hx|Hx]; [left; injection Hx as <-; reflexivity|right; exact Hx]
  | intros ? Hx; right; exact Hx
  | reflexivity
  | let q1 := fresh in let s1 := fresh in let W1 := fresh in
    intros q1 s1 W1; destruct (TK q1 s1 k W1) as (?q' & ?s' & ?r & ?Hy & ?Wy & -> & ->); eexists _, _, _; split; [eassumption|]; split; [eassumption|];
    destruct s1; cbn [fst snd proj1_sig tq_spec]; rewrite ?pop_one_l, ?pop_one_r; reflexivity ].

Lemma queue_cs_ok (o : queue_call) pc q s : rsp (proj1_sig o) pc -> wfq q s ->
  exists s' pc2, run q pc s' pc2 /\ ConcProofs.post (@tcode A) (fun s (o : queue_call) s' r => tspec s (proj1_sig o) s' r) (@wfq A) (fun (o : queue_call) pc => rsp (proj1_sig o) pc) o s s' pc2.
Proof.
  assert (forall q s, wfq q s -> repb q (fst s)) as WR by (intros ? ? (R & _); auto).
  intros Hr W. destruct o as [op Ho]. cbn [proj1_sig] in *.
  destruct op as [x|xs|t|n t| |x| | | |t|x|x|t|n t|]; try discriminate Ho.
  - apply (@simple_cs _ (@queue_op A) (exist _ _ Ho)); auto. intros q0 [l0 d0] W0 pc0 H0. injection H0 as <-.
    destruct (run_push_queue [] x W0) as (q' & Hq & W'). eexists q', _, _. split; [exact Hq|]. split; [exact W'|].
    cbn [tq_spec proj1_sig]. rewrite app_length. simpl. rewrite Nat.add_1_r. reflexivity.
  - apply (@simple_cs _ (@queue_op A) (exist _ _ Ho)); auto. intros q0 [l0 d0] W0 pc0 H0. destruct xs as [|x xs]; injection H0 as <-.
    + exists q0, (l0, d0), (TRCount (length l0)). split; [|split; [auto|]].
      * eapply run_act; [reflexivity|reflexivity|]. cbv beta. rewrite (wf_size W0). apply run_count.
      * cbn [tq_spec proj1_sig]. rewrite app_nil_r. simpl. rewrite Nat.add_0_r. auto.
    + destruct (run_push_queue xs x W0) as (q' & Hq & W'). eexists q', _, _. split; [exact Hq|]. split; [exact W'|].
      cbn [tq_spec proj1_sig]. rewrite app_length. reflexivity.
  - popcase WR (@queue_op A) (exist (fun op : top A => queue_op op = true) _ Ho) SLeft One t take_wfq.
  - popcase WR (@queue_op A) (exist (fun op : top A => queue_op op = true) _ Ho) SLeft (Many n) t take_wfq.
  - apply (@simple_cs _ (@queue_op A) (exist _ _ Ho)); auto. intros q0 [l0 d0] W0 pc0 H0. injection H0 as <-.
    destruct (clear_step W0) as (q1 & E & S0 & W' & Dt). eexists _, _, _. split; [|split; [exact W'|reflexivity]].
    eapply run_act; [reflexivity|cbv beta; rewrite E; cbn [bind]; rewrite S0; reflexivity|]. cbv beta.
    eapply run_act; [reflexivity|reflexivity|]. cbv beta. eapply cr_bcast; [reflexivity|apply run_unlock].
  - apply (@simple_cs _ (@queue_op A) (exist _ _ Ho)); auto. intros q0 [l0 d0] W0 pc0 H0. injection H0 as <-.
    destruct (clear_step W0) as (q1 & E & S0 & W' & Dt). destruct (run_push_queue [] x W') as (q' & Hq & W2).
    eexists _, _, _. split; [|split; [exact W2|reflexivity]].
    eapply run_act; [reflexivity|cbv beta; rewrite E; cbn [bind]; rewrite S0; reflexivity|]. cbv beta.
    eapply run_act; [reflexivity|reflexivity|]. exact Hq.
  - apply (@simple_cs _ (@queue_op A) (exist _ _ Ho)); auto. intros q0 [l0 d0] W0 pc0 H0. injection H0 as <-.
    eexists q0, _, _. split; [|split; [exact W0|reflexivity]]. eapply run_act; [reflexivity|reflexivity|]. cbv beta. rewrite (wf_size W0). apply run_unlock.
  - apply (@simple_cs _ (@queue_op A) (exist _ _ Ho)); auto. intros q0 [l0 d0] W0 pc0 H0. injection H0 as <-.
    eexists q0, _, _. split; [|split; [exact W0|reflexivity]]. eapply run_act; [reflexivity|reflexivity|]. apply run_unlock.
  - apply (@simple_cs _ (@queue_op A) (exist _ _ Ho)); auto. intros q0 [l0 d0] W0 pc0 H0. injection H0 as <-.
    eexists q0, _, _. split; [|split; [exact W0|reflexivity]]. eapply run_act; [reflexivity|reflexivity|]. cbv beta. rewrite (rep_nil (WR _ _ W0)). apply run_unlock.
  - apply (@waitempty_cs _ WR (@queue_op A) (exist _ _ Ho) t); auto.
  - apply (@simple_cs _ (@queue_op A) (exist _ _ Ho)); auto. intros q0 [l0 d0] W0 pc0 H0. injection H0 as <-.
    destruct (copy_pop (WR _ _ W0)) as (c & q' & E & E2). cbn [fst] in E2.
    eexists q0, _, _. split; [|split; [exact W0|reflexivity]]. eapply run_act; [reflexivity|cbv beta; rewrite E; reflexivity|].
    cbv beta. rewrite E, E2. apply run_unlock.
Qed.
Lemma deque_cs_ok (o : deque_call) pc q s : rsp (proj1_sig o) pc -> wfd q s ->
  exists s' pc2, run q pc s' pc2 /\ ConcProofs.post (@tcode A) (fun s (o : deque_call) s' r => tspec s (proj1_sig o) s' r) (@wfd A) (fun (o : deque_call) pc => rsp (proj1_sig o) pc) o s s' pc2.
Proof.
  assert (forall q s, wfd q s -> repb q (fst s)) as WR by (intros ? ? (R & _); auto).
  intros Hr W. destruct o as [op Ho]. cbn [proj1_sig] in *.
  destruct op as [x|xs|t|n t| |x| | | |t|x|x|t|n t|]; try discriminate Ho.
  - popcase WR (@deque_op A) (exist (fun op : top A => deque_op op = true) _ Ho) SLeft One t take_wfd_l.
  - popcase WR (@deque_op A) (exist (fun op : top A => deque_op op = true) _ Ho) SLeft (Many n) t take_wfd_l.
  - apply (@simple_cs _ (@deque_op A) (exist _ _ Ho)); auto. intros q0 [l0 d0] W0 pc0 H0. injection H0 as <-.
    eexists q0, _, _. split; [|split; [exact W0|reflexivity]]. eapply run_act; [reflexivity|reflexivity|]. cbv beta. rewrite (wfd_size W0). apply run_unlock.
  - apply (@simple_cs _ (@deque_op A) (exist _ _ Ho)); auto. intros q0 [l0 d0] W0 pc0 H0. injection H0 as <-.
    eexists q0, _, _. split; [|split; [exact W0|reflexivity]]. eapply run_act; [reflexivity|reflexivity|]. apply run_unlock.
  - apply (@simple_cs _ (@deque_op A) (exist _ _ Ho)); auto. intros q0 [l0 d0] W0 pc0 H0. injection H0 as <-.
    eexists q0, _, _. split; [|split; [exact W0|reflexivity]]. eapply run_act; [reflexivity|reflexivity|]. cbv beta. rewrite (rep_nil (WR _ _ W0)). apply run_unlock.
  - apply (@waitempty_cs _ WR (@deque_op A) (exist _ _ Ho) t); auto.
  - apply (@simple_cs _ (@deque_op A) (exist _ _ Ho)); auto. intros q0 [l0 d0] W0 pc0 H0. injection H0 as <-.
    destruct (run_push_deque SLeft x W0) as (q' & Hq & W'). eexists q', _, _. split; [exact Hq|]. split; [exact W'|]. reflexivity.
  - apply (@simple_cs _ (@deque_op A) (exist _ _ Ho)); auto. intros q0 [l0 d0] W0 pc0 H0. injection H0 as <-.
    destruct (run_push_deque SRight x W0) as (q' & Hq & W'). eexists q', _, _. split; [exact Hq|]. split; [exact W'|].
    cbn [tq_spec proj1_sig]. rewrite app_length. simpl. rewrite Nat.add_1_r. reflexivity.
  - popcase WR (@deque_op A) (exist (fun op : top A => deque_op op = true) _ Ho) SRight One t take_wfd_r.
  - popcase WR (@deque_op A) (exist (fun op : top A => deque_op op = true) _ Ho) SRight (Many n) t take_wfd_r.
  - apply (@simple_cs _ (@deque_op A) (exist _ _ Ho)); auto. intros q0 [l0 d0] W0 pc0 H0. injection H0 as <-.
    destruct (copy_pop (WR _ _ W0)) as (c & q' & E & E2). cbn [fst] in E2.
    eexists q0, _, _. split; [|split; [exact W0|reflexivity]]. eapply run_act; [reflexivity|cbv beta; rewrite E; reflexivity|].
    cbv beta. rewrite E, E2. apply run_unlock.
Qed.
End P.
