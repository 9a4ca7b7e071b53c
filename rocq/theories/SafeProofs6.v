(** Proofs about SafeModel.v, VI: safe_chown, safe_lchown, safe_chmod and safe_chdir under every schedule. *)
From Verif Require Import Prelude PreludeFacts Str StrFacts Libc LibcFacts FsModel SafeModel SafeSpec SafeProofs SafeProofs2.
Set Implicit Arguments.

Lemma trail_harmless T d ns evs i : trail T false false d ns evs i -> harmless evs.
Proof.
  induction 1; try discriminate.
  - constructor.
  - repeat constructor. auto.
  - apply Forall_app; split; [eapply looks_harmless; eauto|]. repeat constructor.
Qed.

Section Calls.
  Variable E : environment.

  Ltac enter_fd I WF FD :=
    match goal with |- context [inode_of ?w1 (Fd ?k)] =>
      assert (I : inode_of w1 (Fd k) = Ok _) by (cbn; rewrite FD, find_mid; [reflexivity|]; rewrite <- FD; apply WF) end.

  Lemma readlinkat_spec w a k d b path n : wf_fds w -> fds w = a ++ (k, d) :: b ->
    exists w' r, sys_readlinkat E w (Fd k) path n = Ok (w', r) /\
      ((exists t, r = inr t /\ moved w w' [Target d path t]) \/ (exists e, r = inl e /\ moved w w' [])).
  Proof.
    intros WF FD. unfold sys_readlinkat, enter. set (w1 := mkWorld _ _ _ _ _).
    assert (I : inode_of w1 (Fd k) = Ok d) by (cbn; rewrite FD, find_mid; auto; rewrite <- FD; apply WF).
    rewrite I. cbn [bind].
    assert (X : moved w w1 []) by (repeat split; cbn; now rewrite ?app_nil_r).
    destruct (failure E (clock w)) as [e|]; [eauto 10|].
    destruct (resolve (wfs w1) false d path) as [e|i]; [eauto 10|].
    destruct (inodes (wfs w1) i) as [[[] ? ? ?]|]; eauto 10.
    eexists _, _. split; [reflexivity|]. left. eexists; split; [reflexivity|]. repeat split.
  Qed.
  Lemma lchownat_spec w a k d b path o g : wf_fds w -> fds w = a ++ (k, d) :: b ->
    exists w' r, sys_lchownat E w (Fd k) path o g = Ok (w', r) /\
      ((r = None /\ exists i, moved w w' [Chowned d path i]) \/ (exists e, r = Some e /\ moved w w' [])).
  Proof.
    intros WF FD. unfold sys_lchownat, enter. set (w1 := mkWorld _ _ _ _ _).
    assert (I : inode_of w1 (Fd k) = Ok d) by (cbn; rewrite FD, find_mid; auto; rewrite <- FD; apply WF).
    rewrite I. cbn [bind].
    assert (X : moved w w1 []) by (repeat split; cbn; now rewrite ?app_nil_r).
    destruct (failure E (clock w)) as [e|]; [eauto 10|].
    destruct (resolve (wfs w1) false d path) as [e|i]; [eauto 10|].
    destruct (inodes (wfs w1) i); [|eauto 10].
    eexists _, _. split; [reflexivity|]. left. split; auto. exists i. repeat split.
  Qed.
  Lemma fchmodat_spec u w a k d b path m : wf_fds w -> fds w = a ++ (k, d) :: b ->
    exists w' r, sys_fchmodat E u w (Fd k) path m = Ok (w', r) /\
      ((r = None /\ exists i o, (u = 0%Z \/ o = u) /\ moved w w' [Chmoded i o]) \/ (exists e, r = Some e /\ moved w w' [])).
  Proof.
    intros WF FD. unfold sys_fchmodat, enter. set (w1 := mkWorld _ _ _ _ _).
    assert (I : inode_of w1 (Fd k) = Ok d) by (cbn; rewrite FD, find_mid; auto; rewrite <- FD; apply WF).
    rewrite I. cbn [bind].
    assert (X : moved w w1 []) by (repeat split; cbn; now rewrite ?app_nil_r).
    destruct (failure E (clock w)) as [e|]; [eauto 10|].
    destruct (resolve (wfs w1) true d path) as [e|i]; [eauto 10|].
    destruct (inodes (wfs w1) i) as [x|]; [|eauto 10].
    destruct (Z.eqb_spec u 0); [|destruct (Z.eqb_spec u (iuid x))]; cbn [orb]; [| |eauto 10];
      (eexists _, _; split; [reflexivity|]; left; split; [auto|]; exists i, (iuid x); split; [auto|repeat split]).
  Qed.
  Lemma fchmod_spec w a k i b m : wf_fds w -> fds w = a ++ (k, i) :: b ->
    exists w' r, sys_fchmod E w k m = Ok (w', r) /\
      ((r = None /\ exists o, moved w w' [Chmoded i o]) \/ (exists e, r = Some e /\ moved w w' [])).
  Proof.
    intros WF FD. unfold sys_fchmod, enter. set (w1 := mkWorld _ _ _ _ _).
    assert (I : inode_of w1 (Fd k) = Ok i) by (cbn; rewrite FD, find_mid; auto; rewrite <- FD; apply WF).
    rewrite I. cbn [bind].
    assert (X : moved w w1 []) by (repeat split; cbn; now rewrite ?app_nil_r).
    destruct (failure E (clock w)) as [e|]; [eauto 10|].
    destruct (inodes (wfs w1) i) as [x|]; [|eauto 10].
    eexists _, _; split; [reflexivity|]; left; split; [auto|]; exists (iuid x); repeat split.
  Qed.
  Lemma fchdir_spec w a k i b : wf_fds w -> fds w = a ++ (k, i) :: b ->
    exists w' r, sys_fchdir E w k = Ok (w', r) /\ moved w w' [] /\ (r = None -> cwd (wfs w') = i).
  Proof.
    intros WF FD. unfold sys_fchdir, enter. set (w1 := mkWorld _ _ _ _ _).
    assert (I : inode_of w1 (Fd k) = Ok i) by (cbn; rewrite FD, find_mid; auto; rewrite <- FD; apply WF).
    rewrite I. cbn [bind].
    assert (X : moved w w1 []) by (repeat split; cbn; now rewrite ?app_nil_r).
    destruct (failure E (clock w)) as [e|]; [eexists _, _; repeat split; eauto; try apply X; discriminate|].
    destruct (is_dir (wfs w1) i).
    - eexists _, _; split; [reflexivity|]. split; [|auto]. repeat split; cbn; now rewrite ?app_nil_r.
    - eexists _, _; split; [reflexivity|]. split; [exact X|discriminate].
  Qed.

  Notation trusted := (fun u : Z => u = 0%Z \/ u = p_uid E).

  Notation reached := (reached trusted).
  Lemma reached_harmless path evs i : reached path evs i -> harmless evs.
  Proof. intros (d & d0 & evs' & -> & T). constructor; auto. eapply trail_harmless; eauto. Qed.

  Lemma open_ro w path : wf_fds w -> outcome w (fds w) (reached path) (safe_open E w path RDONLY).
  Proof.
    intros WF. eapply outcome_mono; [|apply safe_open_spec; auto; discriminate]. cbn beta. intros evs i (d0 & evs' & -> & T).
    eexists _, d0, evs'. split; [reflexivity|]. exact T.
  Qed.

  Notation chain := (chain trusted (fun u : Z => u = 0%Z \/ u = euid E) dirname basename).
  Lemma chain_harmless nf l q evs d s : chain nf l q evs d s -> harmless evs.
  Proof.
    induction 1 as [l q evs d s R|l q evs d s t evs' d' s' R LK NF SL C IH].
    - apply Forall_app; split; [eapply reached_harmless; eauto|repeat constructor].
    - apply Forall_app; split; [eapply reached_harmless; eauto|]. apply Forall_app; split; [repeat constructor|exact IH].
  Qed.

  Lemma parent_spec nofollow : forall countdown w path link (ls : option stat), wf_fds w ->
    link = option_map (fun l => (st_uid l, st_gid l)) ls ->
    outcome w (fds w) (fun evs d => exists s, chain nofollow ls path evs d s) (safe_open_true_parent_dir E countdown w path nofollow link).
  Proof.
    induction countdown as [|countdown IH]; intros w path link ls WF LS.
    all: cbn [safe_open_true_parent_dir].
    all: destruct (@open_ro w (dirname path) WF) as (w1 & r & evs & -> & WF1 & L1 & N1 & C); cbn [bind].
    all: destruct r as [e|dirfd]; [destruct C as [F H]; apply outcome_fail with (evs := evs); auto|].
    all: destruct C as (d & F1 & K1 & R).
    all: (assert (FAILcase : forall w' evs' e, wf_fds w' -> fds w' = fds w ++ [(dirfd, d)] -> log w' = log w ++ evs' -> nextfd w <= nextfd w' -> harmless evs' ->
        outcome w (fds w) (fun evs d => exists s, chain nofollow ls path evs d s) (let* w := sys_close w' dirfd in Ok (w, inl e))) by
      (intros w' evs' e WF' FD' L' N' H'; destruct (@close_mid _ (fds w) dirfd d [] WF' FD') as (w2 & -> & WF2 & F2 & N2 & L2 & _);
       cbn [bind]; rewrite app_nil_r in F2; apply outcome_fail with (evs := evs'); auto; congruence || lia)).
    all: destruct (@fstatat_spec E w1 (fds w) dirfd d [] (basename path) WF1 F1) as (w2 & r & -> & _ & CASE); cbn [bind].
    all: pose proof (reached_harmless R) as HR.
    all: destruct CASE as [(s & -> & M)|(e & -> & M)].
    2,4: (assert (H1 : exists evs1, moved w1 w2 evs1 /\ looks d (basename path) evs1) by
        (destruct M as [M|M]; eexists; (split; [exact M|]); [constructor|apply looks1]);
        clear M; destruct H1 as (evs1 & M & LK); pose proof (moved_wf M WF1) as WF2; destruct M as (F & N & L); rewrite F1 in F;
        apply FAILcase with (evs' := evs ++ evs1); auto; [rewrite L, L1, app_assoc; auto|lia|];
        apply Forall_app; split; [auto|]; eapply looks_harmless; eauto).
    all: pose proof (moved_wf M WF1) as WF2; destruct M as (F2 & N2 & L2); rewrite F1 in F2.
    all: assert (L2' : log w2 = log w ++ (evs ++ [Saw d (basename path) (Some s)])) by (rewrite L2, L1, app_assoc; auto).
    all: assert (H2 : harmless (evs ++ [Saw d (basename path) (Some s)])) by (apply Forall_app; split; auto; repeat constructor).
    all: match goal with |- context [if ?c then _ else _] => destruct c eqn:LT end; [apply FAILcase with (evs' := evs ++ [Saw d (basename path) (Some s)]); auto; lia|].
    all: assert (LOK : link_ok (fun u : Z => u = 0%Z \/ u = euid E) ls s) by
      (destruct ls as [l|]; [|exact I]; subst link; cbn in LT; unfold link_ok, acceptable, same_owner;
       destruct (Z.eqb_spec (st_uid l) 0); [auto|]; destruct (Z.eqb_spec (st_uid l) (euid E)); [auto|];
       destruct (Z.eqb_spec (st_uid l) (st_uid s)); [|discriminate]; destruct (Z.eqb_spec (st_gid l) (st_gid s)); [|discriminate]; auto).
    all: assert (DONE : nofollow = true \/ S_ISLNK s = false -> outcome w (fds w) (fun evs d => exists s, chain nofollow ls path evs d s) (Ok (w2, inr dirfd))) by
      (intros ND; exists w2, (inr dirfd), (evs ++ [Saw d (basename path) (Some s)]); split; [auto|]; split; [auto|]; split; [auto|]; split; [lia|];
       exists d; split; [auto|]; split; [auto|]; exists s; now apply chain_end).
    all: destruct (S_ISLNK s && negb nofollow) eqn:SL; [|apply DONE; destruct (S_ISLNK s), nofollow; auto; discriminate].
    - apply FAILcase with (evs' := evs ++ [Saw d (basename path) (Some s)]); auto; lia.
    - apply andb_prop in SL as [SL NF]. apply negb_true_iff in NF. subst nofollow.
      destruct countdown as [|c']; [apply FAILcase with (evs' := evs ++ [Saw d (basename path) (Some s)]); auto; lia|].
      destruct (@readlinkat_spec w2 (fds w) dirfd d [] (basename path) (st_size s + 1) WF2 F2) as (w3 & r & -> & CASE). cbn [bind].
      destruct CASE as [(lk & -> & M)|(e & -> & M)]; pose proof (moved_wf M WF2) as WF3; destruct M as (F3 & N3 & L3); rewrite F2 in F3.
      2:{ rewrite app_nil_r in L3. apply FAILcase with (evs' := evs ++ [Saw d (basename path) (Some s)]); auto; [congruence|lia]. }
      assert (L3' : log w3 = log w ++ (evs ++ [Saw d (basename path) (Some s); Target d (basename path) lk])) by (rewrite L3, L2', <- !app_assoc; auto).
      assert (H3 : harmless (evs ++ [Saw d (basename path) (Some s); Target d (basename path) lk])) by (apply Forall_app; split; auto; repeat constructor).
      destruct (st_size s <? length lk); [apply FAILcase with (evs' := evs ++ [Saw d (basename path) (Some s); Target d (basename path) lk]); auto; lia|].
      match goal with |- context [safe_open_true_parent_dir E (S c') w3 ?q false ?l] => destruct (IH w3 q l (Some s) WF3 eq_refl) as (w4 & r & evs4 & EQ & WF4 & L4 & N4 & C4) end.
      rewrite EQ. cbn [bind]. destruct r as [e|fd].
      + destruct C4 as [F4 H4]. rewrite F3 in F4. destruct (@close_mid _ (fds w) dirfd d [] WF4 F4) as (w5 & -> & WF5 & F5 & N5 & L5 & _). cbn [bind].
        rewrite app_nil_r in F5. apply outcome_fail with (evs := (evs ++ [Saw d (basename path) (Some s); Target d (basename path) lk]) ++ evs4); auto.
        * rewrite L5, L4, L3'. now rewrite <- app_assoc.
        * lia.
        * apply Forall_app; split; auto.
      + destruct C4 as (i & F4 & K4 & s' & CH). rewrite F3, <- app_assoc in F4. cbn [app] in F4.
        destruct (@close_mid _ (fds w) dirfd d [(fd, i)] WF4 F4) as (w5 & -> & WF5 & F5 & N5 & L5 & _). cbn [bind].
        exists w5, (inr fd), (evs ++ [Saw d (basename path) (Some s); Target d (basename path) lk] ++ evs4). split; auto. split; auto.
        split; [rewrite L5, L4, L3'; now rewrite <- !app_assoc|]. split; [lia|]. exists i. split; auto. split; [lia|].
        exists s'. eapply chain_link; eauto.
  Qed.

  Theorem chown_spec w path o g nofollow : wf_fds w ->
    exists w' ret evs, safe_chown_impl E w path o g nofollow = Ok (w', ret) /\ fds w' = fds w /\ log w' = log w ++ evs /\
      match ret with
      | Some e => harmless evs
      | None => exists pre d s i, evs = pre ++ [Chowned d (basename path) i] /\ chain nofollow None path pre d s
      end.
  Proof.
    intros WF. unfold safe_chown_impl.
    destruct (@parent_spec nofollow SYMLINK_MAX_DEPTH w path None None WF eq_refl) as (w1 & r & evs & -> & WF1 & L1 & N1 & C). cbn [bind].
    destruct r as [e|fd]; [destruct C; eauto 10|]. destruct C as (d & F1 & K1 & s & CH).
    destruct (@lchownat_spec w1 (fds w) fd d [] (basename path) o g WF1 F1) as (w2 & r & -> & CASE). cbn [bind].
    destruct CASE as [(-> & i & M)|(e & -> & M)]; pose proof (moved_wf M WF1) as WF2; destruct M as (F2 & N2 & L2); rewrite F1 in F2;
      destruct (@close_mid _ (fds w) fd d [] WF2 F2) as (w3 & -> & WF3 & F3 & N3 & L3 & _); cbn [bind]; rewrite app_nil_r in F3.
    - exists w3, None, (evs ++ [Chowned d (basename path) i]). split; auto. split; auto. split; [rewrite L3, L2, L1, app_assoc; auto|]. eauto 10.
    - exists w3, (Some e), evs. split; auto. split; auto. split; [rewrite L3, L2, L1, app_nil_r; auto|]. eapply chain_harmless; eauto.
  Qed.

  Theorem chmod_spec w path mode : wf_fds w ->
    exists w' ret evs, safe_chmod E w path mode = Ok (w', ret) /\ fds w' = fds w /\ log w' = log w ++ evs /\
      match ret with
      | Some e => harmless evs
      | None => exists pre1 d s0 s pre2 i owner, evs = pre1 ++ [Saw d (basename path) (Some s)] ++ pre2 ++ [Chmoded i owner] /\
                  chain false None path pre1 d s0 /\
                  match st_kind s with
                  | Fifo | Sock => pre2 = [] /\ (st_uid s = 0%Z \/ owner = st_uid s)
                  | _ => reached path pre2 i
                  end
      end.
  Proof.
    intros WF. unfold safe_chmod.
    destruct (@parent_spec false SYMLINK_MAX_DEPTH w path None None WF eq_refl) as (w1 & r & evs & -> & WF1 & L1 & N1 & C). cbn [bind].
    destruct r as [e|fd]; [destruct C; eauto 10|]. destruct C as (d & F1 & K1 & s0 & CH). pose proof (chain_harmless CH) as HC.
    assert (FAILcase : forall w' evs' (e : errno), wf_fds w' -> fds w' = fds w ++ [(fd, d)] -> log w' = log w ++ evs' -> harmless evs' ->
      exists w2 ret evs, (let* w := sys_close w' fd in Ok (w, Some e)) = Ok (w2, ret) /\ fds w2 = fds w /\ log w2 = log w ++ evs /\
        match ret with
        | Some e => harmless evs
        | None => exists pre1 d s0 s pre2 i owner, evs = pre1 ++ [Saw d (basename path) (Some s)] ++ pre2 ++ [Chmoded i owner] /\
                  chain false None path pre1 d s0 /\
                  match st_kind s with
                  | Fifo | Sock => pre2 = [] /\ (st_uid s = 0%Z \/ owner = st_uid s)
                  | _ => reached path pre2 i
                  end
        end).
    { intros w' evs' e WF' F' L' H'. destruct (@close_mid _ (fds w) fd d [] WF' F') as (w3 & -> & WF3 & F3 & N3 & L3 & _); cbn [bind]; rewrite app_nil_r in F3.
      exists w3, (Some e), evs'. repeat (split; auto). congruence. }
    destruct (@fstatat_spec E w1 (fds w) fd d [] (basename path) WF1 F1) as (w2 & r & -> & _ & CASE); cbn [bind].
    destruct CASE as [(s & -> & M)|(e & -> & M)].
    2:{ assert (H1 : exists evs1, moved w1 w2 evs1 /\ looks d (basename path) evs1).
        { destruct M as [M|M]; eexists; (split; [exact M|]); [constructor|apply looks1]. }
        clear M; destruct H1 as (evs1 & M & LK); pose proof (moved_wf M WF1) as WF2; destruct M as (F & N & L); rewrite F1 in F.
        apply FAILcase with (evs' := evs ++ evs1); auto; [rewrite L, L1, app_assoc; auto|]. apply Forall_app; split; [auto|]; eapply looks_harmless; eauto. }
    pose proof (moved_wf M WF1) as WF2; destruct M as (F2 & N2 & L2); rewrite F1 in F2.
    assert (L2' : log w2 = log w ++ (evs ++ [Saw d (basename path) (Some s)])) by (rewrite L2, L1, app_assoc; auto).
    assert (H2 : harmless (evs ++ [Saw d (basename path) (Some s)])) by (apply Forall_app; split; auto; repeat constructor).
    set (fifo := match st_kind s with Fifo | Sock => true | _ => false end).
    set (special := let '(w, r) := sys_seteuid E w2 (st_uid s) in
                match r with
                | Some e => let* w := sys_close w fd in Ok (w, Some e)
                | None => let* ' (w, ret) := sys_fchmodat E (st_uid s) w (Fd fd) (basename path) mode in let* w := sys_close w fd in Ok (w, ret)
                end).
    set (normal := let* ' (w, r) := safe_open E w2 path RDONLY in
                match r with
                | inl e => let* w := sys_close w fd in Ok (w, Some e)
                | inr file_fd => let* ' (w, ret) := sys_fchmod E w file_fd mode in let* w := sys_close w file_fd in let* w := sys_close w fd in Ok (w, ret)
                end).
    replace (match st_kind s with Fifo | Sock => special | _ => normal end) with (if fifo then special else normal) by (unfold fifo; destruct (st_kind s); auto).
    destruct fifo eqn:FI.
    - unfold special, sys_seteuid, enter.
      set (w3 := mkWorld _ _ _ _ _).
      assert (WF3 : wf_fds w3) by exact WF2. assert (F3 : fds w3 = fds w ++ [(fd, d)]) by exact F2.
      destruct (failure E (clock w2)) as [e|]; [apply FAILcase with (evs' := evs ++ [Saw d (basename path) (Some s)]); auto|].
      destruct ((euid E =? 0)%Z || (euid E =? st_uid s)%Z); [|apply FAILcase with (evs' := evs ++ [Saw d (basename path) (Some s)]); auto].
      destruct (@fchmodat_spec (st_uid s) w3 (fds w) fd d [] (basename path) mode WF3 F3) as (w4 & r & -> & CASE). cbn [bind].
      destruct CASE as [(-> & i & o & OW & M)|(e & -> & M)]; pose proof (moved_wf M WF3) as WF4; destruct M as (F4 & N4 & L4); rewrite F3 in F4; change (log w3) with (log w2) in L4.
      + destruct (@close_mid _ (fds w) fd d [] WF4 F4) as (w5 & -> & WF5 & F5 & N5 & L5 & _); cbn [bind]; rewrite app_nil_r in F5.
        exists w5, None, ((evs ++ [Saw d (basename path) (Some s)]) ++ [Chmoded i o]). split; auto. split; auto.
        split; [rewrite L5, L4, L2', <- app_assoc; auto|]. exists evs, d, s0, s, [], i, o. split; [rewrite <- app_assoc; auto|]. split; auto.
        unfold fifo in FI. destruct (st_kind s); try discriminate; auto.
      + rewrite app_nil_r in L4. apply FAILcase with (evs' := evs ++ [Saw d (basename path) (Some s)]); auto. congruence.
    - unfold normal. destruct (@open_ro w2 path WF2) as (w3 & r & evs3 & -> & WF3 & L3 & N3 & C). cbn [bind]. destruct r as [e|k].
      + destruct C as [F3 H3]. apply FAILcase with (evs' := (evs ++ [Saw d (basename path) (Some s)]) ++ evs3); auto; [congruence|rewrite L3, L2', <- app_assoc; auto|].
        apply Forall_app; auto.
      + destruct C as (i & F3 & K3 & R). destruct (@fchmod_spec w3 (fds w2) k i [] mode WF3 F3) as (w4 & r & -> & CASE). cbn [bind].
        assert (CL : forall evs4, moved w3 w4 evs4 -> exists w6, (forall ret : option errno, (let* w := sys_close w4 k in let* w := sys_close w fd in Ok (w, ret)) = Ok (w6, ret)) /\
            fds w6 = fds w /\ log w6 = log w3 ++ evs4).
        { intros evs4 M. pose proof (moved_wf M WF3) as WF4; destruct M as (F4 & N4 & L4). rewrite F3 in F4.
          destruct (@close_mid w4 (fds w2) k i [] WF4 F4) as (w5 & -> & WF5 & F5 & N5 & L5 & _). cbn [bind]. rewrite app_nil_r, F2 in F5.
          destruct (@close_mid w5 (fds w) fd d [] WF5 F5) as (w6 & -> & WF6 & F6 & N6 & L6 & _). cbn [bind]. rewrite app_nil_r in F6.
          exists w6. split; auto. split; auto. congruence. }
        destruct CASE as [(-> & o & M)|(e & -> & M)]; destruct (CL _ M) as (w6 & EQ & F6 & L6); rewrite EQ.
        * exists w6, None, ((evs ++ [Saw d (basename path) (Some s)]) ++ evs3 ++ [Chmoded i o]). split; auto. split; auto.
          split; [rewrite L6, L3, L2', <- !app_assoc; auto|]. exists evs, d, s0, s, evs3, i, o. split; [rewrite <- !app_assoc; auto|]. split; auto.
          unfold fifo in FI. destruct (st_kind s); try discriminate; auto.
        * exists w6, (Some e), ((evs ++ [Saw d (basename path) (Some s)]) ++ evs3). split; auto. split; auto.
          split; [rewrite L6, L3, L2', <- !app_assoc, app_nil_r; auto|]. apply Forall_app; split; auto. eapply reached_harmless; eauto.
  Qed.

  Theorem chdir_spec w path : wf_fds w ->
    exists w' ret evs, safe_chdir E w path = Ok (w', ret) /\ fds w' = fds w /\ log w' = log w ++ evs /\ harmless evs /\
      (ret = None -> exists i, cwd (wfs w') = i /\ reached path evs i).
  Proof.
    intros WF. unfold safe_chdir. destruct (@open_ro w path WF) as (w1 & r & evs & -> & WF1 & L1 & N1 & C). cbn [bind].
    destruct r as [e|fd]; [destruct C; exists w1, (Some e), evs; repeat (split; auto); discriminate|]. destruct C as (i & F1 & K1 & R).
    destruct (@fchdir_spec w1 (fds w) fd i [] WF1 F1) as (w2 & r & -> & M & CW). cbn [bind].
    pose proof (moved_wf M WF1) as WF2; destruct M as (F2 & N2 & L2); rewrite F1 in F2.
    destruct (@close_mid _ (fds w) fd i [] WF2 F2) as (w3 & -> & WF3 & F3 & N3 & L3 & S3); cbn [bind]; rewrite app_nil_r in F3, L2.
    exists w3, r, evs. split; auto. split; auto. split; [congruence|]. split; [eapply reached_harmless; eauto|].
    intros ->. exists i. split; auto. rewrite S3. auto.
  Qed.
End Calls.
