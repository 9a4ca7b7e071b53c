(** Every schedule of the threaded stack is a schedule of an atomic stack. *)
From Verif Require Import Prelude PreludeFacts ContModel ContSpec ContProofs ConcModel ConcProofs TQModel TQSpec.
Set Implicit Arguments.

Section P.
Variable A : Type.
Notation ptr := (option A).
Notation run := (cs_run (@scode A)).
Definition rss (op : sop_ A) (pc : spc A) : Prop := sentry op = ScLock pc.
Lemma srun_act s pc f k s1 s' pc' : scode pc = CAct f k -> f s = Ok s1 -> run s1 (k s) s' pc' -> run s pc s' pc'.
Proof. intros H1 H2 H3. eapply cr_act; eauto. Qed.
Lemma srun_unlock s r : run s (ScUnlock r) s (ScUnlock r).
Proof. eapply cr_unlock. reflexivity. Qed.
Lemma push_run r x s l : stackI s l -> exists s', run s (ScExpand r x) s' (ScUnlock (if r then SRNat (S (length l)) else SRUnit)) /\ stackI s' (x :: l).
Proof.
  intros I. destruct (stack_expand_spec I) as (s1 & E1 & I1 & Lt & _). destruct (stack_store x I1 Lt) as (d & E2 & I2).
  exists (mkStack d (S (stsize s1)) (stcap s1) (stdtor s1)). split; auto.
  eapply srun_act; [reflexivity|exact E1|]. eapply srun_act; [reflexivity|cbv beta; rewrite E2; reflexivity|].
  eapply srun_act; [reflexivity|reflexivity|]. cbv beta. destruct I2 as (j & _ & Sz & _). cbn [stsize length] in *. rewrite Sz. apply srun_unlock.
Qed.
Lemma pop_run s l : stackI s l -> exists s', run s ScPopCheck s' (ScUnlock (SRPtr (hd None l))) /\ stackI s' (tl l).
Proof.
  intros I. destruct l as [|x l].
  - exists s. split; auto. destruct I as (j & _ & Sz & _). eapply srun_act; [reflexivity|reflexivity|]. cbv beta. rewrite Sz. simpl. apply srun_unlock.
  - destruct (stack_pop_spec I) as (s' & E & I' & _). exists s'. split; auto. unfold StackPop in E.
    destruct I as (j & _ & Sz & _). rewrite Sz in E. cbn [length Nat.ltb Nat.leb] in E.
    destruct (aget (stdata s) (S (length l) - 1)) as [y| | |] eqn:Eg; cbn [bind] in E; try discriminate.
    destruct (aset (stdata s) (S (length l) - 1) None) as [d| | |] eqn:Es; cbn [bind] in E; try discriminate. injection E as <- ->.
    eapply srun_act; [reflexivity|reflexivity|]. cbv beta. rewrite Sz. cbn [length Nat.ltb Nat.leb].
    eapply srun_act; [reflexivity|cbv beta; rewrite Eg; reflexivity|]. cbv beta. rewrite Eg.
    eapply srun_act; [reflexivity|cbv beta; rewrite Es; reflexivity|]. cbv beta.
    eapply srun_act; [reflexivity|reflexivity|]. cbv beta. cbn [stdata stcap stdtor]. apply srun_unlock.
Qed.
Lemma pop_all_spec l : forall s, stackI s l -> @pop_all A (length l) s = l.
Proof.
  induction l as [|x l IH]; intros s I; [reflexivity|]. cbn [length pop_all].
  destruct (stack_pop_spec I) as (s' & -> & I' & _). rewrite (IH s' I'). reflexivity.
Qed.
Lemma stack_cs_ok op pc s l : rss op pc -> stackI s l ->
  exists s' pc2, run s pc s' pc2 /\ ConcProofs.post (@scode A) (@tstack_spec A) (@stackI A) rss op l s' pc2.
Proof.
  intros Hr I. unfold rss in Hr. cbn [sentry] in Hr. injection Hr as <-.
  assert (forall s' l' r, stackI s' l' -> tstack_spec l op l' r -> ConcProofs.post (@scode A) (@tstack_spec A) (@stackI A) rss op l s' (ScUnlock r)) as Hp.
  { intros s' l' r I' Sp. unfold post. cbn [scode]. exists l', r. auto. }
  destruct op as [x|x| | | |].
  - destruct (push_run false x I) as (s' & R1 & I'). eexists _, _. split; [exact R1|]. eapply Hp; eauto. simpl. auto.
  - destruct (push_run true x I) as (s' & R1 & I'). eexists _, _. split; [exact R1|]. eapply Hp; eauto. simpl. auto.
  - destruct (pop_run I) as (s' & R1 & I'). eexists _, _. split; [exact R1|]. eapply Hp; eauto. destruct l; simpl; auto.
  - exists s. eexists. split; [eapply srun_act; [reflexivity|reflexivity|apply srun_unlock]|].
    eapply Hp; eauto. simpl. destruct I as (j & _ & Sz & _). rewrite Sz. auto.
  - exists s. eexists. split; [eapply srun_act; [reflexivity|reflexivity|apply srun_unlock]|].
    eapply Hp; eauto. simpl. destruct I as (j & _ & Sz & _). rewrite Sz. destruct l; auto.
  - destruct (stack_copy_spec I) as (c & E & Ic & _).
    exists s. eexists. split; [eapply srun_act; [reflexivity|cbv beta; rewrite E; reflexivity|apply srun_unlock]|].
    eapply Hp; eauto. rewrite E. simpl. split; [reflexivity|]. unfold StackCount.
    pose proof Ic as (j & _ & Sz & _). rewrite Sz, (pop_all_spec Ic). reflexivity.
Qed.
Lemma stack_entry_ok op : exists pc0, scode (sentry op) = CLock pc0 /\ rss op pc0.
Proof. unfold sentry, rss. eexists. split; reflexivity. Qed.
End P.
