(** Proofs about DirModel.v, I: DirOpen, and the lifetime of descriptors. *)
From Verif Require Import Prelude PreludeFacts Str StrFacts Libc LibcFacts FsModel SafeModel SafeSpec SafeProofs SafeProofs2 SafeProofs3 SafeProofs4 SafeProofs5 DirModel DirSpec.
Set Implicit Arguments.

Lemma trail_harmless T d ns evs i : trail T false false d ns evs i -> harmless evs.
Proof.
  induction 1 as [|d n ns b a i evs j A NE Tr IH|d n sl re b a i L A F|d n re i C L]; [constructor| | |discriminate C].
  - repeat (constructor; [reflexivity|]). exact IH.
  - cbn [andb]. apply Forall_app; split; [exact (looks_harmless L)|repeat (constructor; auto)].
Qed.
Lemma reached_harmless T p evs i : reached T p evs i -> harmless evs.
Proof. intros (d & d0 & evs' & -> & Tr). constructor; [reflexivity|]. exact (trail_harmless Tr). Qed.

Section Env.
  Variable E : environment.
  Notation T := (trusted_uid E).

  Lemma safe_read_spec w path : wf_fds w ->
    exists w' r evs, safe_open E w path RDONLY = Ok (w', r) /\ wf_fds w' /\ log w' = log w ++ evs /\ harmless evs /\ nextfd w <= nextfd w' /\
      match r with inl _ => fds w' = fds w | inr fd => exists i, fds w' = fds w ++ [(fd, i)] /\ nextfd w <= fd /\ reached T path evs i end.
  Proof.
    intros WF. destruct (@safe_open_spec E w path RDONLY CF_PERMS_DEFAULT WF) as (w' & r & evs & EQ & WF' & L & N & C); [discriminate|].
    exists w', r, evs. split; [exact EQ|]. split; [exact WF'|]. split; [exact L|]. destruct r as [e|fd].
    - destruct C as [F H]. split; [exact H|]. split; [exact N|exact F].
    - destruct C as (i & F & K & d0 & evs' & -> & Tr).
      assert (R : reached T path (Opened (cwd (others E (clock w) (wfs w))) (if absolute path then [SLASH] else DOT) d0 :: evs') i) by (eexists _, d0, evs'; split; [reflexivity|exact Tr]).
      split; [exact (reached_harmless R)|]. split; [exact N|]. exists i. split; [exact F|]. split; [exact K|exact R].
  Qed.
  Lemma opendir_spec w path : wf_fds w ->
    exists w' r evs, sys_opendir E w path = Ok (w', r) /\ wf_fds w' /\ log w' = log w ++ evs /\ harmless evs /\
      match r with inl _ => fds w' = fds w | inr fd => exists i, fds w' = fds w ++ [(fd, i)] /\ fd = nextfd w end.
  Proof.
    intros WF. unfold sys_opendir, enter. set (w1 := mkWorld _ _ _ _ _).
    assert (M : moved w w1 []) by (repeat split; cbn; now rewrite ?app_nil_r).
    pose proof (moved_wf M WF) as WF1. destruct M as (F & N & L).
    assert (STAY : forall r : errno + nat, (exists e, r = inl e) -> exists w' r' evs, Ok (w1, r) = Ok (w', r') /\ wf_fds w' /\ log w' = log w ++ evs /\ harmless evs /\
      match r' with inl _ => fds w' = fds w | inr fd => exists i, fds w' = fds w ++ [(fd, i)] /\ fd = nextfd w end).
    { intros r [e ->]. exists w1, (inl e), []. repeat (split; auto). constructor. }
    destruct (failure E (clock w)) as [e|]; [apply STAY; eauto|].
    destruct (resolve (wfs w1) true (cwd (wfs w1)) path) as [e|i]; [apply STAY; eauto|].
    destruct (is_dir (wfs w1) i); [|apply STAY; eauto].
    assert (G : gained w (mkWorld (wfs w1) (clock w1) (fds w1 ++ [(nextfd w1, i)]) (S (nextfd w1)) (log w1 ++ [Opened (cwd (wfs w1)) path i])) (nextfd w1) i [Opened (cwd (wfs w1)) path i]).
    { unfold gained. cbn [fds nextfd log]. rewrite F, N, L, app_nil_r. auto. }
    pose proof (gained_wf G WF) as WF2. destruct G as (F2 & N2 & K & L2).
    eexists _, _, _. split; [reflexivity|]. split; [exact WF2|]. split; [exact L2|]. split; [repeat constructor|]. exists i. split; [exact F2|exact K].
  Qed.
  Lemma fstat_ino_spec w a k i b : wf_fds w -> fds w = a ++ (k, i) :: b ->
    exists w' r evs, fstat_ino E w k = Ok (w', r) /\ wf_fds w' /\ log w' = log w ++ evs /\ harmless evs /\ fds w' = fds w /\ (r = inr i \/ exists e, r = inl e).
  Proof.
    intros WF FD. unfold fstat_ino. destruct (@fstat_spec E w a k i b WF FD) as (w1 & r & -> & _ & C). cbn [bind].
    destruct C as [(s & -> & M)|(e & -> & M)]; pose proof (moved_wf M WF) as WF1; destruct M as (F & N & L).
    - rewrite (@inode_mid w1 a k i b WF1) by (rewrite F; exact FD). cbn [bind]. eexists _, _, _. split; [reflexivity|]. split; [auto|]. split; [exact L|].
      split; [repeat constructor|]. split; auto.
    - eexists _, _, []. split; [reflexivity|]. split; [auto|]. split; [exact L|]. split; [repeat constructor|]. split; eauto.
  Qed.
  Lemma DirOpen_spec w path : wf_fds w ->
    exists w' r evs evs', DirOpen E w path = Ok (w', r) /\ wf_fds w' /\ log w' = log w ++ evs ++ evs' /\ harmless evs /\ harmless evs' /\
      match r with
      | inl _ => fds w' = fds w
      | inr fd => exists i, fds w' = fds w ++ [(fd, i)] /\ ~ In fd (map fst (fds w)) /\ reached T path evs i
      end.
  Proof.
    intros WF. unfold DirOpen. destruct (@safe_read_spec w path WF) as (w1 & r & evs & -> & WF1 & L1 & H1 & N1 & C). cbn [bind].
    destruct r as [e|sfd]. { exists w1, (inl e), evs, []. rewrite app_nil_r. repeat (split; auto). constructor. }
    destruct C as (i & F1 & K & R).
    destruct (@opendir_spec w1 path WF1) as (w2 & r & ev2 & -> & WF2 & L2 & H2 & C). cbn [bind].
    destruct r as [e|dh].
    { destruct (@close_mid w2 (fds w) sfd i [] WF2) as (w3 & -> & WF3 & F3 & _ & L3 & _); [rewrite C; exact F1|]. cbn [bind].
      exists w3, (inl e), evs, ev2. rewrite app_nil_r in F3. rewrite L3, L2, L1, app_assoc. repeat (split; auto). }
    destruct C as (j & F2 & DN). rewrite F1 in F2.
    destruct (@fstat_ino_spec w2 (fds w) sfd i [(dh, j)] WF2) as (w3 & r3 & ev3 & -> & WF3 & L3 & H3 & F3 & C3); [rewrite F2, <- app_assoc; reflexivity|]. cbn [bind].
    assert (X : exists w4 r4 ev4, match r3 with inl e => Ok (w3, inl e) | inr _ => fstat_ino E w3 dh end = Ok (w4, r4) /\ wf_fds w4 /\ log w4 = log w3 ++ ev4 /\ harmless ev4 /\ fds w4 = fds w3 /\
        (r4 = inr j \/ exists e, r4 = inl e)).
    { destruct r3 as [e|x]. { exists w3, (inl e), []. rewrite app_nil_r. repeat (split; auto); eauto. constructor. }
      apply (@fstat_ino_spec w3 (fds w ++ [(sfd, i)]) dh j []); auto. rewrite F3, F2. reflexivity. }
    destruct X as (w4 & r4 & ev4 & -> & WF4 & L4 & H4 & F4 & C4). cbn [bind].
    destruct (@close_mid w4 (fds w) sfd i [(dh, j)] WF4) as (w5 & -> & WF5 & F5 & _ & L5 & _); [rewrite F4, F3, F2, <- app_assoc; reflexivity|]. cbn [bind].
    assert (LG : log w5 = log w ++ evs ++ ev2 ++ ev3 ++ ev4) by (rewrite L5, L4, L3, L2, L1, !app_assoc; reflexivity).
    assert (HH : harmless (ev2 ++ ev3 ++ ev4)) by (repeat (apply Forall_app; split); auto).
    assert (BAD : forall e : errno, exists w' r evs evs', (let* w := sys_close w5 dh in Ok (w, @inl errno nat e)) = Ok (w', r) /\ wf_fds w' /\ log w' = log w ++ evs ++ evs' /\ harmless evs /\ harmless evs' /\
      match r with inl _ => fds w' = fds w | inr fd => exists i, fds w' = fds w ++ [(fd, i)] /\ ~ In fd (map fst (fds w)) /\ reached T path evs i end).
    { intros e. destruct (@close_mid w5 (fds w) dh j [] WF5) as (w6 & -> & WF6 & F6 & _ & L6 & _); [exact F5|]. cbn [bind].
      exists w6, (inl e), evs, (ev2 ++ ev3 ++ ev4). rewrite app_nil_r in F6. rewrite L6. repeat (split; auto). }
    destruct C3 as [->|(e & ->)]; [|apply BAD]. destruct C4 as [->|(e & ->)]; [|apply BAD].
    destruct (Nat.eqb_spec i j) as [<-|]; [|apply BAD]. cbn [negb].
    exists w5, (inr dh), evs, (ev2 ++ ev3 ++ ev4). repeat (split; [solve [auto]|]). exists i. split; [exact F5|]. split; [|exact R].
    destruct WF as [_ FL]. rewrite Forall_forall in FL. intros I. apply in_map_iff in I as ((u & v) & X & I). apply FL in I. cbn in X, I. lia.
  Qed.
End Env.
