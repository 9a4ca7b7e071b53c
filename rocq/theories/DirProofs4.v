(** Proofs about DirModel.v, IV: DeleteDirectoryTree when nobody else is at work. *)
From Verif Require Import Prelude PreludeFacts Str StrFacts Libc LibcFacts FsModel SafeModel SafeSpec SafeProofs SafeProofs2 SafeProofs3 SafeProofs4 SafeProofs5 DirModel DirSpec DirProofs DirProofs2 DirProofs3.
Set Implicit Arguments.

Section Quiet.
  Variable E : environment.
  Hypothesis Q : quiet E.
  Variable next : fs -> nat -> list name -> option name.
  Hypothesis RA : reads_all next.
  Variable refuse : nat -> option errno.
  Hypothesis RE : forall n, refuse n <> Some ENOENT.
  Notation T := (trusted_uid E).
  Notation Delete := (DeleteDirectoryTreeInternal E next refuse).
  Notation loop := (delete_loop E next refuse).
  Notation granted := (forall n, refuse n = None).

  (** the world as it is when a call is made *)
  Definition tick (w : world) : world := mkWorld (wfs w) (S (clock w)) (fds w) (nextfd w) (log w).
  Lemma q_enter w : enter E w = (tick w, None).
  Proof. unfold enter, tick. destruct Q as [Q1 Q2]. now rewrite Q1, Q2. Qed.
  Lemma tick_wf w : wf_fds w -> wf_fds (tick w).
  Proof. intros [A B]. split; auto. Qed.
  (** [w'] is [w] but for the file system [f] and the time *)
  Definition same_but (w : world) (f : fs) (w' : world) : Prop := wf_fds w' /\ fds w' = fds w /\ wfs w' = f.

  Lemma q_DirOpen w path d : wf_fds w -> sound_dirs (wfs w) -> is_dir (wfs w) d = true ->
    safely T (wfs w) (start (wfs w) path) (path_names path) d -> resolve (wfs w) true (cwd (wfs w)) path = inr d ->
    exists w' fd, DirOpen E w path = Ok (w', inr fd) /\ wf_fds w' /\ fds w' = fds w ++ [(fd, d)] /\ wfs w' = wfs w.
  Proof.
    intros WF [DR DC] D S R. assert (NE : path <> []) by (intros ->; discriminate R).
    destruct (@q_safe_open E Q w path RDONLY CF_PERMS_DEFAULT WF DR DC NE) as (w1 & r & EQ & C); auto; try discriminate.
    unfold DirOpen, safe_open. rewrite EQ. cbn [bind]. destruct r as [e|sfd].
    { exfalso. destruct C as (_ & _ & C). apply C. exists d. split; auto. }
    destruct C as (i & S' & _ & WF1 & F1 & (AO & _)). assert (i = d) by (eapply safely_fun; eauto). subst i. specialize (AO eq_refl).
    unfold sys_opendir. rewrite q_enter. unfold tick. cbn [wfs]. rewrite AO, R, D. cbn [new_fd bind fds nextfd clock log record wfs].
    set (w2 := mkWorld _ _ _ _ _).
    assert (G : gained w1 w2 (nextfd w1) d [Opened (cwd (wfs w)) path d]) by (unfold gained; cbn; rewrite ?AO; auto).
    pose proof (gained_wf G WF1) as WF2. destruct G as (F2 & _ & _ & _).
    assert (FS : forall w0 a k b, wf_fds w0 -> fds w0 = a ++ (k, d) :: b -> wfs w0 = wfs w -> exists w', fstat_ino E w0 k = Ok (w', inr d) /\ wf_fds w' /\ fds w' = fds w0 /\ wfs w' = wfs w).
    { intros w0 a k b W0 F0 X0. unfold fstat_ino, sys_fstat. rewrite q_enter. rewrite (@inode_mid (tick w0) a k d b) by (auto using tick_wf). cbn [bind].
      unfold tick at 1. cbn [wfs]. rewrite X0. apply is_dir_inode in D as (es & u & g & p & D). rewrite D. cbn [bind].
      match goal with |- context [inode_of ?x (Fd k)] => rewrite (@inode_mid x a k d b) end; [|destruct W0; split; auto|exact F0]. cbn [bind].
      eexists. split; [reflexivity|]. split; [destruct W0; split; auto|]. cbn. auto. }
    destruct (@FS w2 (fds w) sfd [(nextfd w1, d)]) as (w3 & -> & WF3 & F3 & X3); [auto|rewrite F2, F1, <- app_assoc; reflexivity|reflexivity|]. cbn [bind].
    destruct (@FS w3 (fds w ++ [(sfd, d)]) (nextfd w1) []) as (w4 & -> & WF4 & F4 & X4); auto. { rewrite F3, F2, F1. reflexivity. } cbn [bind].
    destruct (@close_mid w4 (fds w) sfd d [(nextfd w1, d)] WF4) as (w5 & -> & WF5 & F5 & _ & _ & X5). { rewrite F4, F3, F2, F1, <- app_assoc. reflexivity. } cbn [bind].
    rewrite Nat.eqb_refl. cbn [negb]. exists w5, (nextfd w1). split; [reflexivity|]. split; auto. split; auto. congruence.
  Qed.
  Lemma q_read w a k d b seen : wf_fds w -> fds w = a ++ (k, d) :: b -> DirRead E next w k seen = Ok (tick w, next (wfs w) d seen).
  Proof. intros WF F. unfold DirRead. rewrite q_enter. rewrite (@inode_mid (tick w) a k d b) by (auto using tick_wf). reflexivity. Qed.
  Lemma q_stat w p i x : wf_fds w -> resolve (wfs w) false (cwd (wfs w)) p = inr i -> inodes (wfs w) i = Some x ->
    exists w', sys_fstatat E w AT_FDCWD p = Ok (w', inr (stat_of x)) /\ same_but w (wfs w) w'.
  Proof.
    intros WF R X. unfold sys_fstatat. rewrite q_enter. unfold tick. cbn [inode_of bind wfs]. rewrite R, X. eexists. split; [reflexivity|].
    split; [destruct WF; split; auto|auto].
  Qed.
  Lemma q_unlink w p d n i : wf_fds w -> at_name (wfs w) (cwd (wfs w)) p = inr (d, n) -> lookup (wfs w) d n = inr i -> is_dir (wfs w) i = false -> ends_in_slash p = false ->
    exists w' r, sys_unlink E refuse w p = Ok (w', r) /\
      ((r = None /\ same_but w (remove_entry (wfs w) d n) w') \/ (exists e, r = Some e /\ e <> ENOENT /\ ~ granted /\ same_but w (wfs w) w')).
  Proof.
    intros WF A L D ES. unfold sys_unlink. rewrite q_enter. unfold tick. cbn [wfs clock]. rewrite A, L, D, ES.
    destruct (refuse (S (clock w))) as [e|] eqn:R.
    - eexists _, _. split; [reflexivity|]. right. exists e. split; auto. split; [intros ->; eapply RE; eauto|]. split; [intros G; specialize (G (S (clock w))); congruence|].
      split; [destruct WF; split; auto|auto].
    - eexists _, _. split; [reflexivity|]. left. split; auto. split; [destruct WF; split; auto|auto].
  Qed.
  Lemma q_rmdir w p d n i : wf_fds w -> at_name (wfs w) (cwd (wfs w)) p = inr (d, n) -> n <> DOT -> n <> DOTDOT -> lookup (wfs w) d n = inr i -> is_dir (wfs w) i = true ->
    i <> rootdir (wfs w) ->
    exists w' r, sys_rmdir E refuse w p = Ok (w', r) /\
      ((r = None /\ without DOTDOT (contents (wfs w) i) = [] /\ same_but w (remove_entry (wfs w) d n) w') \/
       (exists e, r = Some e /\ (without DOTDOT (contents (wfs w) i) = [] -> ~ granted) /\ same_but w (wfs w) w')).
  Proof.
    intros WF A N1 N2 L D NR. unfold sys_rmdir. rewrite q_enter. unfold tick. cbn [wfs clock]. rewrite A, L, D.
    rewrite (proj2 (bytes_eqb_neq _ _) N1), (proj2 (bytes_eqb_neq _ _) N2), (proj2 (Nat.eqb_neq _ _) NR). cbn [negb]. rewrite entries_contents.
    assert (SB : forall f, same_but w f (with_fs (mkWorld (wfs w) (S (clock w)) (fds w) (nextfd w) (log w)) f)) by (intros f; split; [destruct WF; split; auto|auto]).
    assert (SB0 : same_but w (wfs w) (mkWorld (wfs w) (S (clock w)) (fds w) (nextfd w) (log w))) by (split; [destruct WF; split; auto|auto]).
    destruct (without DOTDOT (contents (wfs w) i)) as [|x l] eqn:W.
    - destruct (refuse (S (clock w))) as [e|] eqn:R.
      + eexists _, _. split; [reflexivity|]. right. exists e. split; auto. split; auto. intros _ G. specialize (G (S (clock w))). congruence.
      + eexists _, _. split; [reflexivity|]. left. auto.
    - eexists _, _. split; [reflexivity|]. right. eexists. split; [reflexivity|]. split; auto. discriminate.
  Qed.

  (** everything below [d] is gone *)
  Definition empty_dirs (f : fs) (d : nat) (f' : fs) : Prop :=
    forall j, dir_below f d j -> contents f' j = filter (fun e => bytes_eqb (fst e) PARENT) (contents f j).
  Record ready (w : world) (path : list byte) (d : nat) : Prop := mkReady
    { rd_wf : wf_fds w; rd_dirs : sound_dirs (wfs w); rd_tree : tree (wfs w) d; rd_dir : is_dir (wfs w) d = true;
      rd_path : leads_to E (wfs w) path d;
      rd_len : forall ns i, below (wfs w) d ns i -> length path + text_length ns < PATH_MAX }.
  Definition done (w : world) (path : list byte) (d : nat) : Prop :=
    exists fuel w' b, Delete fuel w path = Ok (w', b) /\ wf_fds w' /\ fds w' = fds w /\ pruned (wfs w) d (wfs w') /\
      (b = true -> empty_dirs (wfs w) d (wfs w')) /\ (granted -> b = true).

  Section Loop.
    Variables (w0 : world) (path : list byte) (d dirh : nat).
    Notation f := (wfs w0).
    Hypothesis RD : ready w0 path d.
    Hypothesis REC : forall w n i, child f d n i -> ready w (path ++ SLASH :: n) i -> pruned f d (wfs w) -> done w (path ++ SLASH :: n) i.
    Record inv (w : world) (seen : list name) (failed : bool) : Prop := mkInv
      { iv_wf : wf_fds w; iv_fds : fds w = fds w0 ++ [(dirh, d)]; iv_pruned : pruned f d (wfs w);
        iv_nodup : NoDup seen; iv_incl : incl seen (DOT :: map fst (contents f d));
        iv_todo : forall n i, child f d n i -> ~ In n seen -> In (n, i) (contents (wfs w) d) /\ forall ns j, below f i ns j -> inodes (wfs w) j = inodes f j;
        iv_done : failed = false -> forall n i, child f d n i -> In n seen ->
           ~ In n (map fst (contents (wfs w) d)) /\ forall j, dir_below f i j -> contents (wfs w) j = filter (fun e => bytes_eqb (fst e) PARENT) (contents f j);
        iv_granted : granted -> failed = false }.
    Lemma d_below : dir_below f d d.
    Proof. exists []. split; [constructor|apply (rd_dir RD)]. Qed.
    Lemma path_ne : path <> [].
    Proof. destruct (rd_path RD (pruned_refl f d)) as [_ R]. intros ->. discriminate R. Qed.
    (** the path of an object in the directory, in any later state *)
    Lemma sub_walk g n i : pruned f d g -> child g d n i ->
      lookup g d n = inr i /\ walk MAXLINKS g true (start g path) (pieces path) = inr d.
    Proof.
      intros P C. pose proof (tree_pruned (rd_tree RD) P) as TG. split.
      - apply child_lookup; auto. apply (tree_nodup TG (below_here g d)).
      - destruct (rd_path RD P) as [_ R]. unfold resolve in R. pose proof path_ne as NE. destruct path as [|c p] eqn:EP; [easy|]. rewrite <- EP in *.
        apply walk_names; auto. rewrite (pruned_dir d P). apply (rd_dir RD).
    Qed.
    Lemma name_ok n i : child f d n i -> plain n /\ n <> [].
    Proof. intros C. destruct (tree_name (rd_tree RD) (below_here f d) C) as [A B]. split; [now apply plain_of|auto]. Qed.
    Lemma sub_eq n i : child f d n i -> subpath path n = path ++ SLASH :: n.
    Proof. intros C. apply subpath_eq. pose proof (rd_len RD (below_child C)) as L. cbn [text_length] in L. lia. Qed.
    Lemma start_sub g n : start g (path ++ SLASH :: n) = start g path.
    Proof. unfold start. now rewrite absolute_sub by apply path_ne. Qed.
    Lemma resolve_sub g n i follow : pruned f d g -> child g d n i -> follow = false \/ no_link g i ->
      resolve g follow (cwd g) (path ++ SLASH :: n) = inr i.
    Proof.
      intros P C FL. destruct (sub_walk P C) as [L W]. destruct (name_ok (pruned_child P C)) as [PL NE].
      unfold resolve. destruct (path ++ SLASH :: n) as [|c p] eqn:EP; [destruct path; discriminate EP|]. rewrite <- EP.
      change (if absolute (path ++ SLASH :: n) then rootdir g else cwd g) with (start g (path ++ SLASH :: n)). rewrite start_sub, names_sub by auto.
      eapply walk_snoc; eauto.
    Qed.
    Lemma at_sub g n i : pruned f d g -> child g d n i -> at_name g (cwd g) (path ++ SLASH :: n) = inr (d, n).
    Proof.
      intros P C. destruct (sub_walk P C) as [L W]. destruct (name_ok (pruned_child P C)) as [PL NE].
      unfold at_name. destruct (path ++ SLASH :: n) as [|c p] eqn:EP; [destruct path; discriminate EP|]. rewrite <- EP.
      change (if absolute (path ++ SLASH :: n) then rootdir g else cwd g) with (start g (path ++ SLASH :: n)). rewrite start_sub.
      rewrite pieces_sub by auto. rewrite rev_app_distr. cbn [rev app]. rewrite rev_involutive, W. reflexivity.
    Qed.
    Lemma dirs_pruned g : pruned f d g -> sound_dirs g.
    Proof. intros P. destruct (rd_dirs RD) as [A B]. unfold sound_dirs. rewrite !(pruned_dir _ P). destruct P as (-> & -> & _). auto. Qed.
    (** the object itself can be deleted in turn *)
    Lemma ready_sub w n i : wf_fds w -> pruned f d (wfs w) -> child (wfs w) d n i -> is_dir (wfs w) i = true -> ready w (path ++ SLASH :: n) i.
    Proof.
      intros WF P C D. pose proof (pruned_child P C) as C0. destruct (name_ok C0) as [PL NE]. pose proof (tree_pruned (rd_tree RD) P) as TG. constructor; auto.
      - now apply dirs_pruned.
      - eapply tree_child; eauto.
      - intros g P2.
        assert (P3 : pruned f d g).
        { eapply pruned_trans; [exact P| |exact P2]. intros j B. eapply pruned_dir_below; [exact P|]. eapply dir_below_child; eauto. }
        assert (CG : child g d n i).
        { destruct C as (I & N). split; auto. destruct P2 as (_ & _ & _ & P2). destruct (P2 d) as [X|((ns & B & _) & _)].
          - unfold contents in *. now rewrite X.
          - exfalso. eapply (tree_not_above TG); [split; [exact I|exact N]|exact B]. }
        assert (DG : is_dir g i = true) by (now rewrite (pruned_dir i P2)).
        assert (NL : no_link g i) by (apply is_dir_inode in DG as (es & u & gg & p & DG); intros t u' g' p'; congruence).
        split; [|apply resolve_sub; auto].
        rewrite start_sub, names_sub by auto. destruct (rd_path RD P3) as [S _]. eapply safely_app; [exact (safely_names _ S)|].
        destruct (sub_walk P3 CG) as [L _]. apply is_dir_inode in DG as (es & u & gg & p & DG).
        eapply safely_step; [exact L|exact DG| |exact DG|right; split; reflexivity|constructor].
        rewrite resolve_names; auto. 2:{ rewrite <- (app_nil_r n). now apply plain_abs. }
        rewrite plain_names by auto. rewrite walk_eq, L, DG. apply walk_nil.
      - intros ns j B. pose proof (rd_len RD (below_step C0 (pruned_below P B))) as L. cbn [text_length] in L. rewrite app_length. cbn [length]. lia.
    Qed.

    (** one object done: the rest of the invariant follows *)
    Lemma inv_next w seen failed n i w' failed' g :
      inv w seen failed -> child (wfs w) d n i -> ~ In n seen ->
      pruned (wfs w) i g -> (wfs w' = g \/ wfs w' = remove_entry g d n) -> wf_fds w' -> fds w' = fds w ->
      (failed' = false -> failed = false /\ wfs w' = remove_entry g d n /\ empty_dirs (wfs w) i g) ->
      (granted -> failed' = false) ->
      inv w' (n :: seen) failed'.
    Proof.
      intros IV C NI P FS WF F OK GR. destruct IV as [W FD PR ND IN TODO DONE G].
      pose proof (pruned_child PR C) as C0. pose proof (tree_pruned (rd_tree RD) PR) as TG. pose proof (rd_tree RD) as TF.
      assert (UPB : forall j, dir_below (wfs w) i j -> dir_below f d j).
      { intros j B. eapply pruned_dir_below; [exact PR|]. eapply dir_below_child; eauto. }
      assert (PG : pruned f d g) by (eapply pruned_trans; [exact PR|exact UPB|exact P]).
      assert (NP : n <> PARENT) by (apply C).
      assert (DD : is_dir g d = true) by (rewrite (pruned_dir d PG); apply (rd_dir RD)).
      assert (PW : pruned f d (wfs w')).
      { destruct FS as [->| ->]; auto. eapply pruned_trans; [exact PG| |apply remove_pruned; [exact DD|exact NP|exists []; split; [constructor|exact DD]]].
        intros j B. eapply pruned_dir_below; eauto. }
      assert (GD : inodes g d = inodes (wfs w) d).
      { destruct P as (_ & _ & _ & P). destruct (P d) as [X|((ns & B & _) & _)]; auto. exfalso. eapply (tree_not_above TG); eauto. }
      (* outside of the object nothing changes *)
      assert (OUT : forall n' i' ns j, child f d n' i' -> n' <> n -> below f i' ns j -> inodes (wfs w') j = inodes (wfs w) j).
      { intros n' i' ns j C' NN B.
        assert (JD : j <> d) by (intros ->; eapply (tree_not_above TF); eauto).
        assert (X : inodes g j = inodes (wfs w) j).
        { pose proof P as (_ & _ & _ & P'). destruct (P' j) as [X|((ns' & B' & D') & _)]; auto. exfalso. apply NN.
          apply (tree_apart TF C' C0 B (pruned_below PR B')). now rewrite <- (pruned_dir j PR). }
        destruct FS as [->| ->]; [exact X|rewrite remove_other; auto]. }
      constructor; auto.
      - congruence.
      - constructor; auto.
      - intros x [<-|I]; [|now apply IN]. right. apply in_map_iff. exists (n, i). split; [reflexivity|apply C0].
      - intros n' i' C' NI'. assert (NN : n' <> n) by (intros ->; apply NI'; now left).
        destruct (TODO n' i' C') as [A B]; [intros X; apply NI'; now right|]. split.
        + assert (AG : In (n', i') (contents g d)) by (unfold contents in *; now rewrite GD).
          destruct FS as [->| ->]; [exact AG|]. rewrite remove_contents. apply filter_In. split; auto. cbn. now rewrite (proj2 (bytes_eqb_neq _ _) NN).
        + intros ns j BJ. rewrite (OUT n' i' ns j C' NN BJ). eapply B; eauto.
      - intros X. destruct (OK X) as (F0 & WE & ED). intros n' i' C' I'.
        destruct (list_eq_dec ascii_dec n' n) as [->|NN].
        + assert (i' = i). { pose proof (proj1 (tree_nodup TF (below_here f d))) as N. destruct C' as [I1 _], C0 as [I2 _]. pose proof (assoc_in _ _ _ N I1). pose proof (assoc_in _ _ _ N I2). congruence. }
          subst i'. split.
          * rewrite WE, remove_contents. intros I. apply in_map_iff in I as ((a & b) & <- & I). apply filter_In in I as [_ I]. cbn in I. now rewrite bytes_eqb_refl in I.
          * intros j B. destruct (TODO n i C0 NI) as [_ SAME]. pose proof B as (ns & BN & DJ).
            assert (JD : j <> d) by (intros ->; eapply (tree_not_above TF); eauto).
            assert (CJ : contents (wfs w') j = contents g j) by (unfold contents; rewrite WE, remove_other; auto). rewrite CJ.
            assert (BW : dir_below (wfs w) i j).
            { exists ns. split; [|now rewrite (pruned_dir j PR)]. clear -BN SAME. revert SAME.
              induction BN as [i|i m k ns j Ck Bk IH]; intros SAME; [constructor|]. econstructor.
              - destruct Ck as (I & N). split; [|exact N]. unfold contents in *. rewrite (SAME [] i); [exact I|constructor].
              - apply IH. intros ns' j' B'. eapply SAME. econstructor; eauto. }
            rewrite (ED j BW). unfold contents. now rewrite (SAME ns j BN).
        + assert (IS : In n' seen) by (destruct I'; [congruence|auto]). destruct (DONE F0 n' i' C' IS) as [A B]. split.
          * rewrite WE, remove_contents. intros I. apply A. apply in_map_iff in I as (x & <- & I). apply filter_In in I as [I _].
            apply in_map_iff. exists x. split; auto. unfold contents in *. now rewrite <- GD.
          * intros j (ns & BN & DJ). unfold contents at 1. rewrite (OUT n' i' ns j C' NN BN). fold (contents (wfs w) j). apply B. exists ns. auto.
    Qed.
    Lemma inv_skip w seen failed w' n failed' : inv w seen failed -> ~ In n seen -> n = DOT \/ n = PARENT -> In n (DOT :: map fst (contents f d)) ->
      wf_fds w' -> fds w' = fds w -> wfs w' = wfs w -> failed' = failed -> inv w' (n :: seen) failed'.
    Proof.
      intros [W FD PR ND IN TODO DONE G] NI DT I WF F FS ->. constructor; auto; try congruence.
      - constructor; auto.
      - intros x [<-|X]; auto.
      - intros n' i' C' NI'. rewrite FS. apply TODO; auto. intros X. apply NI'. now right.
      - intros X n' i' C' [<-|I']; [exfalso; destruct C' as (_ & N1 & N2); destruct DT; contradiction|]. rewrite FS. now apply DONE.
    Qed.

    Lemma loop_done : forall m w seen failed, S (length (contents f d)) - length seen <= m -> inv w seen failed ->
      exists fuel k w' b, loop (Delete fuel) k w path dirh seen failed = Ok (w', b) /\ wf_fds w' /\ fds w' = fds w /\ pruned f d (wfs w') /\
        (b = false -> empty_dirs f d (wfs w')) /\ (granted -> b = false).
    Proof.
      induction m as [m IH] using lt_wf_ind. intros w seen failed LM IV. pose proof IV as [W FD PR ND IN TODO DONE G].
      assert (RDX : forall fuel k, loop (Delete fuel) (S k) w path dirh seen failed =
        match next (wfs w) d seen with
        | None => Ok (tick w, failed)
        | Some d_name => if bytes_eqb d_name DOT || bytes_eqb d_name DOTDOT then loop (Delete fuel) k (tick w) path dirh (d_name :: seen) failed
            else let* ' (w, lsb) := sys_fstatat E (tick w) AT_FDCWD (subpath path d_name) in
              match lsb with
              | inl ENOENT => loop (Delete fuel) k w path dirh (d_name :: seen) failed
              | inl _ => loop (Delete fuel) k w path dirh (d_name :: seen) true
              | inr lsb => match st_kind lsb with
                  | Dir _ => let* ' (w, ok) := Delete fuel w (subpath path d_name) in
                      let failed := if ok then failed else true in
                      let* ' (w, r) := sys_rmdir E refuse w (subpath path d_name) in
                      loop (Delete fuel) k w path dirh (d_name :: seen) (match r with None => failed | Some _ => true end)
                  | _ => let* ' (w, r) := sys_unlink E refuse w (subpath path d_name) in
                      loop (Delete fuel) k w path dirh (d_name :: seen) (match r with None | Some ENOENT => failed | Some _ => true end)
                  end
              end
        end).
      { intros fuel k. cbn [delete_loop]. rewrite (@q_read w (fds w0) dirh d [] seen W FD). cbn [bind]. destruct (next (wfs w) d seen); reflexivity. }
      specialize (RA (wfs w) d seen) as RAN. destruct (next (wfs w) d seen) as [n|].
      2:{ exists 0, 1, (tick w), failed. rewrite RDX. split; [reflexivity|]. split; [now apply tick_wf|]. split; [reflexivity|]. split; [exact PR|]. split; [|exact G].
          intros ->. intros j (ns & B & D). cbn [tick wfs].
          assert (SEEN : forall n i, child f d n i -> In n seen).
          { intros n i C. destruct (in_dec (list_eq_dec ascii_dec) n seen) as [I|NI]; auto. destruct (TODO n i C NI) as [A _]. apply RAN. right. apply in_map_iff. exists (n, i). auto. }
          inversion B as [|? n i ns' ? C B']; subst.
          - destruct (pruned_contents d PR) as (keep & K & KP). rewrite K. apply filter_ext_in. intros [n i] I. cbn [fst].
            destruct (list_eq_dec ascii_dec n PARENT) as [->|NP]; [now rewrite KP, bytes_eqb_refl|]. rewrite (proj2 (bytes_eqb_neq _ _) NP).
            destruct (keep n) eqn:KN; auto. exfalso.
            assert (IW : In (n, i) (contents (wfs w) d)) by (rewrite K; apply filter_In; split; auto).
            destruct (list_eq_dec ascii_dec n DOT) as [->|N1].
            + apply (proj2 (tree_nodup (rd_tree RD) B)). apply in_map_iff. exists (DOT, i). auto.
            + destruct (DONE eq_refl n i) as [A _]; [split; auto|eapply SEEN; split; eauto|]. apply A. apply in_map_iff. exists (n, i). auto.
          - destruct (DONE eq_refl n i C (SEEN _ _ C)) as [_ A]. apply A. exists ns'. auto. }
      destruct RAN as [NI NIN].
      assert (INN : In n (DOT :: map fst (contents f d))).
      { destruct NIN as [->|I]; [now left|right]. destruct (pruned_contents d PR) as (keep & K & _). rewrite K in I. apply in_map_iff in I as (x & <- & I). apply filter_In in I as [I _]. now apply in_map. }
      assert (LS : length (n :: seen) <= S (length (contents f d))).
      { rewrite <- (map_length fst (contents f d)). change (S (length (map fst (contents f d)))) with (length (DOT :: map fst (contents f d))).
        apply NoDup_incl_length; [now constructor|]. intros x [<-|X]; auto. }
      cbn [length] in LS.
      (* going on after this name *)
      assert (GO : forall w' failed', inv w' (n :: seen) failed' -> fds w' = fds w ->
        exists fuel k w'' b, loop (Delete fuel) k w' path dirh (n :: seen) failed' = Ok (w'', b) /\ wf_fds w'' /\ fds w'' = fds w /\ pruned f d (wfs w'') /\
        (b = false -> empty_dirs f d (wfs w'')) /\ (granted -> b = false)).
      { intros w' failed' IV' F'. destruct (IH (S (length (contents f d)) - length (n :: seen))) with (w := w') (seen := n :: seen) (failed := failed') as (fuel & k & w'' & b & H); auto.
        - cbn [length]. lia.
        - exists fuel, k, w'', b. now rewrite F' in H. }
      destruct (bytes_eqb n DOT || bytes_eqb n DOTDOT) eqn:DT.
      { destruct (GO (tick w) failed) as (fuel & k & w'' & b & H & R); [|reflexivity|].
        - apply (@inv_skip w seen failed (tick w) n failed); auto using tick_wf. apply orb_true_iff in DT as [DT|DT]; apply bytes_eqb_eq in DT; auto.
        - exists fuel, (S k), w'', b. rewrite RDX. auto. }
      apply orb_false_iff in DT as [DT1 DT2]. apply bytes_eqb_neq in DT1, DT2. destruct NIN as [->|I]; [easy|].
      apply in_map_iff in I as ([n' i] & X & I). cbn [fst] in X. subst n'.
      assert (C : child (wfs w) d n i) by (split; auto). pose proof (pruned_child PR C) as C0. destruct (name_ok C0) as [PL NE].
      rewrite (sub_eq C0) in RDX.
      assert (XI : exists x, inodes (wfs w) i = Some x).
      { destruct (inodes (wfs w) i) as [x|] eqn:X; eauto. exfalso. eapply (tree_sound (tree_pruned (rd_tree RD) PR)); [eapply below_child; eauto|auto]. }
      destruct XI as [x XI].
      destruct (@q_stat (tick w) (path ++ SLASH :: n) i x (tick_wf W)) as (w1 & EQ1 & W1 & F1 & FS1); [apply resolve_sub; auto|exact XI|].
      cbn [tick wfs fds] in F1, FS1. setoid_rewrite EQ1 in RDX. cbn [bind] in RDX.
      destruct (is_dir (wfs w) i) eqn:DI.
      - (* a directory *)
        assert (KD : exists es, st_kind (stat_of x) = Dir es).
        { apply is_dir_inode in DI as (es & u & g & p & DI). rewrite XI in DI. injection DI as ->. exists es. reflexivity. }
        destruct KD as [es KD]. setoid_rewrite KD in RDX.
        assert (RS : ready w1 (path ++ SLASH :: n) i) by (apply ready_sub; rewrite ?FS1; auto).
        assert (PR1 : pruned f d (wfs w1)) by (rewrite FS1; auto).
        destruct (@REC w1 n i C0 RS PR1) as (fuel1 & w2 & ok & EQ2 & W2 & F2 & P2 & ED2 & G2). rewrite FS1 in P2, ED2.
        assert (PG : pruned f d (wfs w2)).
        { eapply pruned_trans; [exact PR| |exact P2]. intros j B. eapply pruned_dir_below; [exact PR|]. eapply dir_below_child; eauto. }
        pose proof (tree_pruned (rd_tree RD) PR) as TG.
        assert (GD : inodes (wfs w2) d = inodes (wfs w) d).
        { destruct P2 as (_ & _ & _ & P'). destruct (P' d) as [X|((ns & B & _) & _)]; auto. exfalso. eapply (tree_not_above TG); eauto. }
        assert (C2 : child (wfs w2) d n i) by (split; auto; unfold contents in *; now rewrite GD).
        assert (RT : i <> rootdir (wfs w2)).
        { destruct PG as (-> & _). intros ->. pose proof (tree_root (rd_tree RD) (below_child C0)). discriminate. }
        destruct (@q_rmdir w2 (path ++ SLASH :: n) d n i W2 (at_sub PG C2) DT1 DT2 (proj1 (sub_walk PG C2))) as (w3 & r & EQ3 & CASE); auto.
        { now rewrite (pruned_dir i P2). }
        set (failed3 := match r with None => if ok then failed else true | Some _ => true end).
        assert (EMP : ok = true -> without DOTDOT (contents (wfs w2) i) = []).
        { intros O. rewrite (ED2 O i) by (exists []; split; [constructor|auto]). unfold without. rewrite filter_filter. clear.
          induction (contents (wfs w) i) as [|[m k] l IH]; cbn; auto. change (bytes_eqb m PARENT) with (bytes_eqb m DOTDOT). destruct (bytes_eqb m DOTDOT); cbn; auto. }
        destruct (GO w3 failed3) as (fuel & k & w'' & b & H & R).
        { eapply (inv_next (g := wfs w2) IV C NI P2).
          - destruct CASE as [(_ & _ & _ & _ & X)|(e & _ & _ & _ & _ & X)]; auto.
          - destruct CASE as [(_ & _ & X & _)|(e & _ & _ & X & _)]; auto.
          - destruct CASE as [(_ & _ & _ & X & _)|(e & _ & _ & _ & X & _)]; congruence.
          - unfold failed3. destruct CASE as [(-> & _ & _ & _ & X)|(e & -> & _)]; [|discriminate]. destruct ok; [|discriminate]. intros ->. auto.
          - intros GR. unfold failed3. rewrite (G2 GR) in *. destruct CASE as [(-> & _)|(e & -> & X & _)]; auto. exfalso. apply X; auto. }
        { destruct CASE as [(_ & _ & _ & X & _)|(e & _ & _ & _ & X & _)]; congruence. }
        exists (Nat.max fuel1 fuel), (S k), w'', b. rewrite RDX. split; [|exact R].
        rewrite (@delete_more E next refuse _ _ _ _ _ EQ2 (Nat.le_max_l fuel1 fuel)). cbn [bind]. rewrite EQ3. cbn [bind].
        eapply loop_more; [exact H|apply Nat.le_max_r|lia].
      - (* something else *)
        assert (KD : match st_kind (stat_of x) with Dir _ => False | _ => True end).
        { unfold is_dir in DI. rewrite XI in DI. destruct x as [[] u g p]; cbn; auto. discriminate. }
        destruct (@q_unlink w1 (path ++ SLASH :: n) d n i W1) as (w2 & r & EQ2 & CASE); rewrite ?FS1; auto.
        { apply at_sub with (i := i); auto. }
        { exact (proj1 (sub_walk PR C)). }
        { now apply ends_sub. }
        rewrite FS1 in CASE.
        set (failed2 := match r with None | Some ENOENT => failed | Some _ => true end).
        assert (F2E : match CASE with _ => failed2 = false end -> r = None /\ failed = false).
        { unfold failed2. destruct CASE as [(-> & _)|(e & -> & NE' & _)]; auto. destruct e; auto; try discriminate. now elim NE'. }
        destruct (GO w2 failed2) as (fuel & k & w'' & b & H & R).
        { eapply (inv_next (g := wfs w) IV C NI (pruned_refl _ _)).
          - destruct CASE as [(_ & _ & _ & X)|(e & _ & _ & _ & _ & _ & X)]; auto.
          - destruct CASE as [(_ & X & _)|(e & _ & _ & _ & X & _)]; auto.
          - destruct CASE as [(_ & _ & X & _)|(e & _ & _ & _ & _ & X & _)]; congruence.
          - intros X. destruct (F2E X) as [-> ->]. destruct CASE as [(_ & _ & _ & Y)|(e & Y & _)]; [|discriminate]. split; auto. split; auto.
            intros j (ns & B & D). exfalso. inversion B as [|? m0 k0 ns' ? Ck]; subst; [congruence|]. pose proof (child_dir Ck). congruence.
          - intros GR. unfold failed2. destruct CASE as [(-> & _)|(e & _ & _ & X & _)]; auto. contradiction. }
        { destruct CASE as [(_ & _ & X & _)|(e & _ & _ & _ & _ & X & _)]; congruence. }
        exists fuel, (S k), w'', b. rewrite RDX. split; [|exact R].
        assert (EQL : (let* ' (w3, r) := sys_unlink E refuse w1 (path ++ SLASH :: n) in
                      loop (Delete fuel) k w3 path dirh (n :: seen) (match r with None | Some ENOENT => failed | Some _ => true end)) = Ok (w'', b)).
        { rewrite EQ2. cbn [bind]. exact H. }
        destruct (st_kind (stat_of x)); auto. contradiction.
    Qed.
  End Loop.

  Theorem delete_done : forall h w path d, ready w path d -> (forall ns i, below (wfs w) d ns i -> length ns <= h) -> done w path d.
  Proof.
    induction h as [h IH] using lt_wf_ind. intros w path d RD DP.
    destruct (rd_path RD (pruned_refl (wfs w) d)) as [SF RS].
    destruct (@q_DirOpen w path d (rd_wf RD) (rd_dirs RD) (rd_dir RD) SF RS) as (w1 & fd & EQ & W1 & F1 & FS1).
    destruct (@loop_done w path d fd RD) with (m := S (length (contents (wfs w) d))) (w := w1) (seen := @nil name) (failed := false) as (fuel & k & w2 & b & EQ2 & W2 & F2 & P2 & ED2 & G2).
    - intros v n i C RV PV. destruct h as [|h]. { pose proof (DP _ _ (below_child C)) as X. cbn in X. lia. }
      apply (IH h); auto. intros ns j B. pose proof (DP _ _ (below_step C (pruned_below PV B))) as X. cbn in X. lia.
    - cbn [length]. lia.
    - constructor; auto.
      + rewrite FS1. apply pruned_refl.
      + constructor.
      + intros x [].
      + intros n i C _. rewrite FS1. split; [apply C|auto].
      + intros _ n i _ [].
    - destruct (@close_mid w2 (fds w) fd d [] W2) as (w3 & EQ3 & W3 & F3 & _ & _ & FS3); [congruence|]. rewrite app_nil_r in F3.
      exists (S (Nat.max fuel k)), w3, (negb b). split.
      + cbn [DeleteDirectoryTreeInternal]. rewrite EQ. cbn [bind]. rewrite (@loop_more E next refuse fuel (Nat.max fuel k) k (S (Nat.max fuel k)) _ _ _ _ _ _ EQ2) by lia. cbn [bind]. unfold DirClose. rewrite EQ3. reflexivity.
      + split; auto. split; auto. rewrite FS3. split; auto. split.
        * intros X. apply ED2. now destruct b.
        * intros GR. now rewrite (G2 GR).
  Qed.
End Quiet.
