(** Proofs about DirModel.v, II: DeleteDirectoryTree under interference: descriptors. *)
From Verif Require Import Prelude PreludeFacts Str StrFacts Libc LibcFacts FsModel SafeModel SafeSpec SafeProofs SafeProofs2 SafeProofs3 SafeProofs4 SafeProofs5 DirModel DirSpec DirProofs.
Set Implicit Arguments.

Section Env.
  Variable E : environment.
  Variable next : fs -> nat -> list name -> option name.
  Variable refuse : nat -> option errno.
  Notation Delete := (DeleteDirectoryTreeInternal E next refuse).
  Notation loop := (delete_loop E next refuse).

  (** comes to an end with the same descriptors, if it does *)
  Definition keeps (w : world) (A : Type) (x : res (world * A)) : Prop :=
    x = Fuel \/ exists w' a, x = Ok (w', a) /\ wf_fds w' /\ fds w' = fds w.
  Lemma keeps_bind w A B (x : res (world * A)) (k : world * A -> res (world * B)) :
    keeps w x -> (forall w1 a, wf_fds w1 -> fds w1 = fds w -> keeps w (k (w1, a))) -> keeps w (bind x k).
  Proof. intros [->|(w' & a & -> & W & F)] K; [now left|]. cbn [bind]. now apply K. Qed.
  Lemma keeps_ret w w' A (a : A) : wf_fds w' -> fds w' = fds w -> keeps w (Ok (w', a)).
  Proof. intros. right. eauto. Qed.
  Lemma keeps_from w w1 A (x : res (world * A)) : keeps w1 x -> fds w1 = fds w -> keeps w x.
  Proof. intros [->|(w' & a & -> & W & F)] X; [now left|right]. exists w', a. split; auto. split; auto. congruence. Qed.
  Lemma enter_moved w : wf_fds w -> wf_fds (fst (enter E w)) /\ fds (fst (enter E w)) = fds w.
  Proof. intros [A B]. cbn. split; [split; auto|auto]. Qed.
  Lemma keeps_stat w p : wf_fds w -> keeps w (sys_fstatat E w AT_FDCWD p).
  Proof.
    intros WF. destruct (enter_moved WF) as [W F]. unfold sys_fstatat. unfold enter in *. cbn [fst] in *. set (w1 := mkWorld _ _ _ _ _) in *. cbn [inode_of bind].
    destruct (failure E (clock w)); [now apply keeps_ret|].
    destruct (resolve (wfs w1) false (cwd (wfs w1)) p) as [[]|i]; try now apply keeps_ret. destruct (inodes (wfs w1) i); now apply keeps_ret.
  Qed.
  Lemma keeps_unlink w p : wf_fds w -> keeps w (sys_unlink E refuse w p).
  Proof.
    intros WF. destruct (enter_moved WF) as [W F]. unfold sys_unlink. unfold enter in *. cbn [fst] in *. set (w1 := mkWorld _ _ _ _ _) in *.
    destruct (failure E (clock w)); [now apply keeps_ret|].
    destruct (at_name (wfs w1) (cwd (wfs w1)) p) as [e|[d n]]; [now apply keeps_ret|].
    destruct (lookup (wfs w1) d n) as [e|i]; [now apply keeps_ret|]. destruct (is_dir (wfs w1) i); [now apply keeps_ret|].
    destruct (ends_in_slash p); [now apply keeps_ret|]. destruct (refuse (clock w1)); now apply keeps_ret.
  Qed.
  Lemma keeps_rmdir w p : wf_fds w -> keeps w (sys_rmdir E refuse w p).
  Proof.
    intros WF. destruct (enter_moved WF) as [W F]. unfold sys_rmdir. unfold enter in *. cbn [fst] in *. set (w1 := mkWorld _ _ _ _ _) in *.
    destruct (failure E (clock w)); [now apply keeps_ret|].
    destruct (at_name (wfs w1) (cwd (wfs w1)) p) as [e|[d n]]; [now apply keeps_ret|].
    destruct (bytes_eqb n DOT); [now apply keeps_ret|]. destruct (bytes_eqb n DOTDOT); [now apply keeps_ret|].
    destruct (lookup (wfs w1) d n) as [e|i]; [now apply keeps_ret|]. destruct (is_dir (wfs w1) i); cbn [negb]; [|now apply keeps_ret].
    destruct (i =? rootdir (wfs w1)); [now apply keeps_ret|].
    destruct (without DOTDOT (entries (wfs w1) i)); [|now apply keeps_ret]. destruct (refuse (clock w1)); now apply keeps_ret.
  Qed.
  Lemma keeps_read w a k i b seen : wf_fds w -> fds w = a ++ (k, i) :: b -> keeps w (DirRead E next w k seen).
  Proof.
    intros WF FD. destruct (enter_moved WF) as [W F]. unfold DirRead. unfold enter in *. cbn [fst] in *. set (w1 := mkWorld _ _ _ _ _) in *.
    rewrite (@inode_mid w1 a k i b) by auto. cbn [bind]. destruct (failure E (clock w)); now apply keeps_ret.
  Qed.
  Lemma keeps_loop rec a dirh i b path : (forall w p, wf_fds w -> keeps w (rec w p)) ->
    forall k w seen failed, wf_fds w -> fds w = a ++ (dirh, i) :: b -> keeps w (loop rec k w path dirh seen failed).
  Proof.
    intros R. induction k as [|k IH]; intros w seen failed WF FD; [now left|]. cbn [delete_loop].
    assert (GO : forall w1 s f, wf_fds w1 -> fds w1 = fds w -> keeps w (loop rec k w1 path dirh s f)).
    { intros w1 s f W F. eapply keeps_from; [apply IH; auto; congruence|exact F]. }
    apply keeps_bind; [eapply keeps_read; eauto|]. intros w1 [n|] W1 F1; [|now apply keeps_ret].
    cbn zeta. destruct (bytes_eqb n DOT || bytes_eqb n DOTDOT); [now apply GO|].
    apply keeps_bind. { eapply keeps_from; [now apply keeps_stat|exact F1]. }
    intros w2 [e|st] W2 F2. { destruct e; now apply GO. }
    assert (UN : keeps w (let* ' (w3, r) := sys_unlink E refuse w2 (subpath path n) in
        loop rec k w3 path dirh (n :: seen) (match r with None | Some ENOENT => failed | Some _ => true end))).
    { apply keeps_bind. { eapply keeps_from; [now apply keeps_unlink|exact F2]. } intros w3 r W3 F3. now apply GO. }
    destruct (st_kind st); auto.
    apply keeps_bind. { eapply keeps_from; [now apply R|exact F2]. } intros w3 ok W3 F3.
    apply keeps_bind. { eapply keeps_from; [now apply keeps_rmdir|exact F3]. } intros w4 r W4 F4. now apply GO.
  Qed.
  Lemma keeps_delete : forall fuel w path, wf_fds w -> keeps w (Delete fuel w path).
  Proof.
    induction fuel as [|fuel IH]; intros w path WF; [now left|]. cbn [DeleteDirectoryTreeInternal].
    destruct (@DirOpen_spec E w path WF) as (w1 & r & evs & evs' & -> & W1 & _ & _ & _ & C). cbn [bind].
    destruct r as [e|fd]. { destruct e; now apply keeps_ret. }
    destruct C as (i & F1 & _).
    destruct (@keeps_loop (Delete fuel) (fds w) fd i [] path IH (S fuel) w1 [] false W1) as [->|(w2 & b & -> & W2 & F2)]; [exact F1|now left|].
    cbn [bind]. unfold DirClose. destruct (@close_mid w2 (fds w) fd i [] W2) as (w3 & -> & W3 & F3 & _); [congruence|]. cbn [bind].
    apply keeps_ret; auto. now rewrite app_nil_r in F3.
  Qed.

  (** more fuel changes nothing *)
  Definition leq (A : Type) (x y : res A) : Prop := x = Fuel \/ x = y.
  Lemma leq_refl A (x : res A) : leq x x.
  Proof. now right. Qed.
  Lemma leq_bind A B (x y : res A) (k k' : A -> res B) : leq x y -> (forall a, leq (k a) (k' a)) -> leq (bind x k) (bind y k').
  Proof. intros [->| ->] K; [now left|]. destruct y; cbn [bind]; auto; apply leq_refl. Qed.
  Lemma loop_mono rec rec' path dirh : (forall w p, leq (rec w p) (rec' w p)) ->
    forall k k' w seen failed, k <= k' -> leq (loop rec k w path dirh seen failed) (loop rec' k' w path dirh seen failed).
  Proof.
    intros R. induction k as [|k IH]; intros k' w seen failed LE; [now left|]. destruct k' as [|k']; [lia|]. cbn [delete_loop].
    assert (GO : forall w1 s f, leq (loop rec k w1 path dirh s f) (loop rec' k' w1 path dirh s f)) by (intros; apply IH; lia).
    apply leq_bind; [apply leq_refl|]. intros [w1 [n|]]; [|apply leq_refl]. cbn zeta. destruct (bytes_eqb n DOT || bytes_eqb n DOTDOT); [apply GO|].
    apply leq_bind; [apply leq_refl|]. intros [w2 [e|st]]; [destruct e; apply GO|].
    destruct (st_kind st); try (apply leq_bind; [apply leq_refl|]; intros [w3 r]; apply GO).
    apply leq_bind; [apply R|]. intros [w3 ok]. apply leq_bind; [apply leq_refl|]. intros [w4 r]. apply GO.
  Qed.
  Lemma delete_mono : forall fuel fuel' w path, fuel <= fuel' -> leq (Delete fuel w path) (Delete fuel' w path).
  Proof.
    induction fuel as [|fuel IH]; intros fuel' w path LE; [now left|]. destruct fuel' as [|fuel']; [lia|]. cbn [DeleteDirectoryTreeInternal].
    apply leq_bind; [apply leq_refl|]. intros [w1 [e|fd]]; [apply leq_refl|].
    apply leq_bind; [|intros [w2 b]; apply leq_refl]. apply loop_mono; [|lia]. intros w2 p. apply IH. lia.
  Qed.
  Lemma delete_more fuel fuel' w path r : Delete fuel w path = Ok r -> fuel <= fuel' -> Delete fuel' w path = Ok r.
  Proof. intros D LE. destruct (@delete_mono fuel fuel' w path LE) as [X|X]; congruence. Qed.
  Lemma loop_more fuel fuel' k k' w path dirh seen failed r : loop (Delete fuel) k w path dirh seen failed = Ok r -> fuel <= fuel' -> k <= k' ->
    loop (Delete fuel') k' w path dirh seen failed = Ok r.
  Proof.
    intros D LE LE'. destruct (@loop_mono (Delete fuel) (Delete fuel') path dirh) with (k := k) (k' := k') (w := w) (seen := seen) (failed := failed) as [X|X]; auto; try congruence.
    intros. now apply delete_mono.
  Qed.
End Env.
