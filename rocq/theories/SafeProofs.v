(** Proofs about SafeModel.v, I: every schedule. *)
From Verif Require Import Prelude PreludeFacts Str StrFacts Libc LibcFacts FsModel SafeModel SafeSpec.
Set Implicit Arguments.

Lemma find_mid a k i b : NoDup (map fst (a ++ (k, i) :: b)) -> find_fd (a ++ (k, i) :: b) k = Some i.
Proof.
  induction a as [|[x y] a IH]; cbn; intros ND.
  - now rewrite Nat.eqb_refl.
  - inversion ND; subst. destruct (Nat.eqb_spec x k) as [->|]; auto.
    exfalso. apply H1. rewrite map_app. cbn. apply in_or_app; right; now left.
Qed.
Lemma filter_out l k : ~ In k (map fst l) -> filter (fun p : nat * nat => negb (fst p =? k)) l = l.
Proof.
  induction l as [|[a b] l IH]; cbn; auto. intros N.
  destruct (Nat.eqb_spec a k) as [->|]; [tauto|]. cbn. rewrite IH; tauto.
Qed.
Lemma filter_mid (a : list (nat * nat)) k i b : NoDup (map fst (a ++ (k, i) :: b)) -> filter (fun p : nat * nat => negb (fst p =? k)) (a ++ (k, i) :: b) = a ++ b.
Proof.
  rewrite map_app; cbn; intros ND. apply NoDup_remove in ND as [ND NI].
  rewrite filter_app. cbn. rewrite Nat.eqb_refl; cbn.
  rewrite in_app_iff in NI. now rewrite !filter_out by tauto.
Qed.

(** [w'] differs from [w] in the file system, the time and [evs] *)
Definition moved (w w' : world) (evs : list event) : Prop :=
  fds w' = fds w /\ nextfd w' = nextfd w /\ log w' = log w ++ evs.
(** ... and in one more descriptor *)
Definition gained (w w' : world) (fd i : nat) (evs : list event) : Prop :=
  fds w' = fds w ++ [(fd, i)] /\ nextfd w' = S (nextfd w) /\ fd = nextfd w /\ log w' = log w ++ evs.

Lemma moved_wf w w' evs : moved w w' evs -> wf_fds w -> wf_fds w'.
Proof. intros (F & N & _) [A B]. split; rewrite F; auto. now rewrite N. Qed.
Lemma NoDup_snoc (l : list nat) k : ~ In k l -> NoDup l -> NoDup (l ++ [k]).
Proof.
  induction l as [|a l IH]; cbn; intros NI ND.
  - constructor; [tauto|constructor].
  - inversion ND; subst. constructor; [|apply IH; tauto]. rewrite in_app_iff; cbn. intros [X|[X|[]]]; [tauto|]. subst. tauto.
Qed.
Lemma gained_wf w w' fd i evs : gained w w' fd i evs -> wf_fds w -> wf_fds w'.
Proof.
  intros (F & N & -> & _) [A B]. split; rewrite F.
  - rewrite map_app; cbn. apply NoDup_snoc; auto. rewrite Forall_forall in B.
    intros X. apply in_map_iff in X as ((a & b) & X & IN). apply B in IN. cbn in IN, X. lia.
  - rewrite N. apply Forall_app; split; [eapply Forall_impl; [|exact B]; cbn; intros; lia|]. constructor; cbn; [lia|constructor].
Qed.

Section Calls.
  Variable E : environment.

  Lemma close_mid w a k i b : wf_fds w -> fds w = a ++ (k, i) :: b ->
    exists w', sys_close w k = Ok w' /\ wf_fds w' /\ fds w' = a ++ b /\ nextfd w' = nextfd w /\ log w' = log w /\ wfs w' = wfs w.
  Proof.
    intros [ND FL] FD. unfold sys_close. rewrite FD in ND, FL |- *. rewrite find_mid by auto. eexists; split; [reflexivity|].
    cbn [fds nextfd log wfs]. rewrite filter_mid by auto. repeat split; auto.
    - cbn [fds]. rewrite map_app. rewrite map_app in ND; cbn in ND. apply NoDup_remove in ND. tauto.
    - apply Forall_app in FL as [A B]. inversion B; subst. now apply Forall_app.
  Qed.

  Lemma inode_mid w a k i b : wf_fds w -> fds w = a ++ (k, i) :: b -> inode_of w (Fd k) = Ok i.
  Proof. intros [ND FL] FD. cbn. rewrite FD in ND |- *. now rewrite find_mid. Qed.

  (** the file system when the next call is executed *)
  Notation now w := (others E (clock w) (wfs w)).

  Lemma fstatat_spec w a k d b path : wf_fds w -> fds w = a ++ (k, d) :: b ->
    exists w' r, sys_fstatat E w (Fd k) path = Ok (w', r) /\ wfs w' = now w /\
      ((exists s, r = inr s /\ moved w w' [Saw d path (Some s)])
       \/ (exists e, r = inl e /\ (moved w w' [] \/ moved w w' [Saw d path None]))).
  Proof.
    intros WF FD. unfold sys_fstatat, enter.
    set (w1 := mkWorld _ _ _ _ _).
    assert (I : inode_of w1 (Fd k) = Ok d).
    { cbn. rewrite FD. rewrite find_mid; auto. rewrite <- FD. apply WF. }
    rewrite I. cbn [bind].
    destruct (failure E (clock w)) as [e|].
    { exists w1, (inl e). do 2 (split; [reflexivity|]). right. exists e; split; auto. left. repeat split; cbn; now rewrite ?app_nil_r. }
    destruct (resolve (wfs w1) false d path) as [e|i] eqn:R.
    - assert (X : moved w w1 []) by (repeat split; cbn; now rewrite ?app_nil_r).
      destruct e; try (eexists w1, _; do 2 (split; [reflexivity|]); right; eexists; split; [reflexivity|left; exact X]).
      eexists _, _. do 2 (split; [reflexivity|]). right; eexists; split; [reflexivity|]. right. repeat split.
    - destruct (inodes (wfs w1) i).
      + eexists _, _. do 2 (split; [reflexivity|]). left; eexists; split; [reflexivity|]. repeat split.
      + eexists w1, _. do 2 (split; [reflexivity|]). right; eexists; split; [reflexivity|]. left. repeat split; cbn; now rewrite ?app_nil_r.
  Qed.

  Lemma fstat_spec w a k i b : wf_fds w -> fds w = a ++ (k, i) :: b ->
    exists w' r, sys_fstat E w k = Ok (w', r) /\ wfs w' = now w /\
      ((exists s, r = inr s /\ moved w w' [Checked i s]) \/ (exists e, r = inl e /\ moved w w' [])).
  Proof.
    intros WF FD. unfold sys_fstat, enter. set (w1 := mkWorld _ _ _ _ _).
    assert (I : inode_of w1 (Fd k) = Ok i).
    { cbn. rewrite FD. rewrite find_mid; auto. rewrite <- FD. apply WF. }
    rewrite I. cbn [bind].
    assert (X : moved w w1 []) by (repeat split; cbn; now rewrite ?app_nil_r).
    destruct (failure E (clock w)) as [e|]; [eexists w1, _; do 2 (split; [reflexivity|]); right; eauto|].
    destruct (inodes (wfs w1) i).
    - eexists _, _; do 2 (split; [reflexivity|]). left; eexists; split; [reflexivity|]. repeat split.
    - eexists w1, _; do 2 (split; [reflexivity|]); right; eauto.
  Qed.

  Lemma ftruncate_spec w a k i b : wf_fds w -> fds w = a ++ (k, i) :: b ->
    exists w' r, sys_ftruncate E w k = Ok (w', r) /\
      ((r = None /\ moved w w' [Truncated i]) \/ (exists e, r = Some e /\ moved w w' [])).
  Proof.
    intros WF FD. unfold sys_ftruncate, enter. set (w1 := mkWorld _ _ _ _ _).
    assert (I : inode_of w1 (Fd k) = Ok i).
    { cbn. rewrite FD. rewrite find_mid; auto. rewrite <- FD. apply WF. }
    rewrite I. cbn [bind].
    assert (X : moved w w1 []) by (repeat split; cbn; now rewrite ?app_nil_r).
    destruct (failure E (clock w)) as [e|]; [eexists w1, _; split; [reflexivity|]; right; eauto|].
    destruct (inodes (wfs w1) i).
    - eexists _, _; split; [reflexivity|]. left; split; [reflexivity|]. repeat split.
    - eexists w1, _; split; [reflexivity|]; right; eauto.
  Qed.

  Lemma openat_gen w fd d path fl mode :
    inode_of (fst (enter E w)) fd = Ok d -> O_TRUNC fl = false ->
    exists w' r, sys_openat E w fd path fl mode = Ok (w', r) /\
      ((exists k i, r = inr k /\
          ((~ (O_CREAT fl = true /\ O_EXCL fl = true) /\ gained w w' k i [Opened d path i])
           \/ (O_CREAT fl = true /\ exists n, path_names path = [n] /\ ends_in_slash path = false /\ gained w w' k i [Created d n i])))
       \/ (exists e, r = inl e /\ moved w w' [])).
  Proof.
    intros I NT. unfold sys_openat, enter in *. cbn [fst] in I. set (w1 := mkWorld _ _ _ _ _) in *.
    rewrite I. cbn [bind].
    assert (X : moved w w1 []) by (repeat split; cbn; now rewrite ?app_nil_r).
    assert (FAIL : forall e, exists w' r, Ok (w1, @inl errno nat e) = Ok (w', r) /\
      ((exists k i, r = inr k /\
          ((~ (O_CREAT fl = true /\ O_EXCL fl = true) /\ gained w w' k i [Opened d path i])
           \/ (O_CREAT fl = true /\ exists n, path_names path = [n] /\ ends_in_slash path = false /\ gained w w' k i [Created d n i])))
       \/ (exists e, r = inl e /\ moved w w' []))).
    { intros e. exists w1, (inl e). split; [reflexivity|]. right; eauto. }
    assert (OPEN : forall i, ~ (O_CREAT fl = true /\ O_EXCL fl = true) -> exists w' r, open_existing w1 d path fl i = Ok (w', r) /\
      ((exists k i, r = inr k /\
          ((~ (O_CREAT fl = true /\ O_EXCL fl = true) /\ gained w w' k i [Opened d path i])
           \/ (O_CREAT fl = true /\ exists n, path_names path = [n] /\ ends_in_slash path = false /\ gained w w' k i [Created d n i])))
       \/ (exists e, r = inl e /\ moved w w' []))).
    { intros i NE. unfold open_existing. destruct (inodes (wfs w1) i); [|apply FAIL].
      destruct (O_WR fl && is_dir (wfs w1) i); [apply FAIL|]. rewrite NT. cbn.
      eexists _, _; split; [reflexivity|]. left. eexists _, i; split; [reflexivity|]. left. split; auto. repeat split. }
    destruct (failure E (clock w)) as [e|]; [apply FAIL|].
    destruct (O_CREAT fl) eqn:CR.
    2:{ destruct (resolve (wfs w1) true d path); [apply FAIL|]. apply OPEN. intros [? _]; discriminate. }
    destruct (resolve (wfs w1) false d path) as [e|i] eqn:R.
    - destruct e; try apply FAIL.
      destruct (path_names path) as [|n [|n' l]] eqn:PN; try apply FAIL.
      destruct (ends_in_slash path) eqn:ES; [apply FAIL|].
      unfold open_new. destruct (inodes (wfs w1) d) as [[[es| | | |] u g p]|]; try apply FAIL.
      destruct (inodes (wfs w1) (nextino (wfs w1))); try apply FAIL. cbn.
      eexists _, _; split; [reflexivity|]. left. eexists _, _; split; [reflexivity|]. right. split; auto. exists n. repeat split.
    - destruct (O_EXCL fl) eqn:EX; [apply FAIL|].
      destruct (resolve (wfs w1) true d path); [apply FAIL|]. apply OPEN. intros [_ ?]; discriminate.
  Qed.
  Lemma openat_spec w a k0 d b path fl mode : wf_fds w -> fds w = a ++ (k0, d) :: b -> O_TRUNC fl = false ->
    exists w' r, sys_openat E w (Fd k0) path fl mode = Ok (w', r) /\
      ((exists k i, r = inr k /\
          ((~ (O_CREAT fl = true /\ O_EXCL fl = true) /\ gained w w' k i [Opened d path i])
           \/ (O_CREAT fl = true /\ exists n, path_names path = [n] /\ ends_in_slash path = false /\ gained w w' k i [Created d n i])))
       \/ (exists e, r = inl e /\ moved w w' [])).
  Proof.
    intros WF FD NT. apply openat_gen; auto. cbn. rewrite FD, find_mid; auto. rewrite <- FD. apply WF.
  Qed.
End Calls.
