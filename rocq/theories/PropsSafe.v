(** C86-C90: symlink-safe file operations (libutils/file_lib.c: safe_open, safe_creat, safe_fopen,
    safe_chdir, safe_chown, safe_lchown, safe_chmod). *)
From Verif Require Import Prelude PreludeFacts Str StrFacts Libc LibcFacts FsModel SafeModel SafeSpec SafeProofs SafeProofs2 SafeProofs3 SafeProofs4 SafeProofs5 SafeProofs6 SafeProofs7.
Set Implicit Arguments.

(** a small file system: [/l -> /t] both of user 1000; [/m -> /s], link of user 1000, file of root;
    [/r -> /m], link of root; [/q -> /s], link of user 1; [/x], file of root; [/d/k -> /s], link of root *)
Definition small_inodes : list inode :=
  [ mkInode (Dir [(lit "l", 1); (lit "t", 2); (lit "m", 3); (lit "s", 4); (lit "r", 5); (lit "x", 6); (lit "q", 7); (lit "d", 8); (lit "k", 10); (lit "p", 11)]) 0 0 493;
    mkInode (Lnk (lit "/t")) 1000 1000 511;
    mkInode (Reg (lit "data")) 1000 1000 420;
    mkInode (Lnk (lit "/s")) 1000 1000 511;
    mkInode (Reg (lit "secret")) 0 0 384;
    mkInode (Lnk (lit "/m")) 0 0 511;
    mkInode (Reg (lit "old")) 0 0 420;
    mkInode (Lnk (lit "/s")) 1 1 511;
    mkInode (Dir [(lit "k", 9)]) 0 0 493;
    mkInode (Lnk (lit "/s")) 0 0 511;
    mkInode (Reg (lit "bystander")) 0 0 420;
    mkInode Fifo 1000 1000 420 ].
Definition small : fs := mkFs (fun k => nth_error small_inodes k) 0 0 12.
Definition small_world : world := mkWorld small 0 [] 3 [].
Definition calm (u : Z) : environment := mkEnv (fun _ f => f) (fun _ => None) u u.
Definition result (x : res (world * (errno + nat))) : option (errno + nat) :=
  match x with
  | Ok (w, inl e) => Some (inl e)
  | Ok (w, inr fd) => match find_fd (fds w) fd with Some i => Some (inr i) | None => None end
  | _ => None
  end.
Lemma calm_quiet u : quiet (calm u).
Proof. split; reflexivity. Qed.
Lemma small_wf : wf_fds small_world.
Proof. split; constructor. Qed.
Lemma small_dirs : sound_dirs small.
Proof. split; reflexivity. Qed.

Ltac names := repeat match goal with
  | |- context [path_names ?t] => let v := eval vm_compute in (path_names t) in replace (path_names t) with v by (vm_compute; reflexivity)
  | |- context [start ?f ?t] => let v := eval vm_compute in (start f t) in replace (start f t) with v by (vm_compute; reflexivity)
  | |- context [absolute ?t] => let v := eval vm_compute in (absolute t) in replace (absolute t) with v by (vm_compute; reflexivity)
  end; cbn [app].
Ltac calc := vm_compute; reflexivity.

(** * C86: descriptors and changes, whatever others do and whatever fails *)
Lemma trail_changes T c t d ns evs i : trail T c t d ns evs i ->
  harmless evs \/ exists pre e, evs = pre ++ [e] /\ harmless pre /\ ((c = true /\ exists d n, e = Created d n i) \/ (t = true /\ e = Truncated i)).
Proof.
  induction 1 as [d|d n ns b a i evs j A N T1 IH|d n sl rt b a i LK A S|d n rt i C LK].
  - left; constructor.
  - destruct IH as [H|(pre & e & -> & H & C)]; [left; repeat constructor; auto|].
    right. exists (Saw d n (Some b) :: Opened d n i :: Checked i a :: pre), e. split; auto. split; auto. repeat constructor; auto.
  - pose proof (looks_harmless LK) as H. destruct (t && negb (st_size a =? 0)) eqn:TT.
    + right. exists (rt ++ [Saw d n (Some b); Opened d (n ++ sl) i; Checked i a]), (Truncated i). split; [now rewrite <- app_assoc|].
      split; [apply Forall_app; split; auto; repeat constructor|]. right. apply andb_prop in TT. tauto.
    + left. apply Forall_app; split; auto; repeat constructor.
  - right. exists rt, (Created d n i). split; auto. split; [eapply looks_harmless; eauto|]. left. eauto.
Qed.

(** Never a use of a closed descriptor, never an assertion failure, no descriptor leaked or
    closed for others; a failing call has changed nothing; a succeeding one has changed at
    most one thing, last: it created the file it returns, or cut it to length 0 — each only
    if asked to. *)
Theorem C86_safe_open E w path fl perms :
  wf_fds w -> (O_TRUNC fl = true -> O_WR fl = true) ->
  exists w' r evs, safe_open_create_perms E w path fl perms = Ok (w', r) /\ wf_fds w' /\ log w' = log w ++ evs /\
    match r with
    | inl e => fds w' = fds w /\ harmless evs
    | inr fd => exists i, fds w' = fds w ++ [(fd, i)] /\ ~ In fd (map fst (fds w)) /\
        (harmless evs \/ exists pre e, evs = pre ++ [e] /\ harmless pre /\
            ((O_CREAT fl = true /\ exists d n, e = Created d n i) \/ (O_TRUNC fl = true /\ e = Truncated i)))
    end.
Proof.
  intros WF TW. destruct (@safe_open_spec E w path fl perms WF TW) as (w' & r & evs & EQ & WF' & L & N & C).
  exists w', r, evs. split; auto. split; auto. split; auto. destruct r as [e|fd]; auto.
  destruct C as (i & F & K & d0 & evs' & -> & T). exists i. split; auto. split.
  { intros IN. apply in_map_iff in IN as ((a & b) & X & IN). destruct WF as [_ B]. rewrite Forall_forall in B. apply B in IN. cbn in *. lia. }
  destruct (trail_changes T) as [H|(pre & e & -> & H & C)]; [left; constructor; auto|].
  right. eexists (Opened _ _ d0 :: pre), e. split; [reflexivity|]. split; auto. constructor; auto.
Qed.
Print Assumptions C86_safe_open.
Theorem C86_safe_creat E w path mode : wf_fds w ->
  exists w' r evs, safe_creat E w path mode = Ok (w', r) /\ wf_fds w' /\ log w' = log w ++ evs /\
    match r with
    | inl e => fds w' = fds w /\ harmless evs
    | inr fd => exists i, fds w' = fds w ++ [(fd, i)] /\ ~ In fd (map fst (fds w)) /\
        (harmless evs \/ exists pre e, evs = pre ++ [e] /\ harmless pre /\ ((exists d n, e = Created d n i) \/ e = Truncated i))
    end.
Proof.
  intros WF. unfold safe_creat. match goal with |- context [safe_open_create_perms E w path ?fl ?p] =>
    destruct (@C86_safe_open E w path fl p WF (fun _ => eq_refl)) as (w' & r & evs & EQ & WF' & L & C) end.
  exists w', r, evs. split; [exact EQ|]. split; [exact WF'|]. split; [exact L|]. destruct r as [e|fd]; [exact C|].
  destruct C as (i & F & K & C). exists i. split; auto. split; auto. destruct C as [C|(pre & e & X & H & C)]; auto.
  right. exists pre, e. split; auto. split; auto. tauto.
Qed.
Print Assumptions C86_safe_creat.
(** truncating [/l] as root: one change, to the file [/t] *)
Example C86_instance :
  match safe_creat (calm 0) small_world (lit "/l") 420 with
  | Ok (w', inr fd) => fd = 4 /\ fds w' = [(4, 2)] /\ skipn 4 (log w') = [Truncated 2] /\ inodes (wfs w') 2 = Some (mkInode (Reg []) 1000 1000 420)
  | _ => False
  end.
Proof. vm_compute. auto. Qed.

(** * C87: every component is checked *)
Theorem C87_every_component_checked E w path fl perms w' fd :
  wf_fds w -> (O_TRUNC fl = true -> O_WR fl = true) ->
  safe_open_create_perms E w path fl perms = Ok (w', inr fd) ->
  exists d d0 evs i, fds w' = fds w ++ [(fd, i)] /\
    log w' = log w ++ Opened d (if absolute path then [SLASH] else DOT) d0 :: evs /\
    trail (trusted_uid E) (O_CREAT fl) (O_TRUNC fl) d0 (pieces path) evs i.
Proof.
  intros WF TW EQ. destruct (@safe_open_spec E w path fl perms WF TW) as (w2 & r & evs & EQ2 & WF' & L & N & C).
  rewrite EQ in EQ2. injection EQ2 as <- <-. destruct C as (i & F & K & d0 & evs' & -> & T). eauto 10.
Qed.
Print Assumptions C87_every_component_checked.

Lemma looks_no_open d n l pre d' n' s m j post : looks d n l -> l = pre ++ Saw d' n' s :: Opened d' m j :: post -> False.
Proof.
  intros LK ->. apply Forall_app in LK as [_ LK]. inversion LK as [|? ? _ LK2]; subst. inversion LK2 as [|? ? (s' & X) _]; subst. discriminate.
Qed.
Lemma split_looks (d : nat) (n : name) rt : looks d n rt -> forall (rest pre : list event) d' n' s m j post,
  rt ++ rest = pre ++ Saw d' n' s :: Opened d' m j :: post ->
  (exists rt2, pre = rt ++ rt2 /\ rest = rt2 ++ Saw d' n' s :: Opened d' m j :: post) \/ (exists r rt', rt = rt' ++ [r] /\ pre = rt' /\ r = Saw d' n' s /\ rest = Opened d' m j :: post).
Proof.
  induction 1 as [|e rt (s0 & ->) LK IH]; cbn [app]; intros rest pre d' n' s m j post EQ; [left; eauto|].
  destruct pre as [|p pre]; cbn [app] in EQ.
  - injection EQ as X1 X2 X3 EQ. subst. destruct rt as [|e2 rt]; cbn [app] in EQ.
    + right. exists (Saw d' n' s), []. auto.
    + inversion LK as [|? ? (s2 & ->) _]; subst. discriminate EQ.
  - injection EQ as <- EQ. destruct (IH _ _ _ _ _ _ _ _ EQ) as [(rt2 & -> & ->)|(r & rt' & -> & -> & -> & ->)].
    + left. exists rt2. auto.
    + right. exists (Saw d' n' s), (Saw d n s0 :: rt'). auto.
Qed.

Lemma trail_owner T c t d ns evs i : trail T c t d ns evs i -> forall pre d' n s m j post,
  evs = pre ++ Saw d' n (Some s) :: Opened d' m j :: post -> exists after post', post = Checked j after :: post' /\ acceptable T s after.
Proof.
  induction 1 as [d|d n ns b a i evs j A N T1 IH|d n sl rt b a i LK A S|d n rt i C LK]; intros pre d' n' s m j' post EQ.
  - destruct pre; discriminate.
  - destruct pre as [|e1 pre]; cbn [app] in EQ.
    { injection EQ; intros; subst; eauto. }
    injection EQ as <- EQ. destruct pre as [|e2 pre]; [discriminate EQ|]. injection EQ as <- EQ.
    destruct pre as [|e3 pre]; [discriminate EQ|]. injection EQ as <- EQ. eauto.
  - apply (split_looks LK) in EQ as [(rt2 & -> & EQ)|(r & rt' & -> & _ & _ & EQ)]; [|discriminate EQ].
    destruct rt2 as [|e1 rt2]; cbn [app] in EQ.
    { injection EQ; intros; subst; eauto. }
    injection EQ as <- EQ. destruct rt2 as [|e2 pre]; [discriminate EQ|]. injection EQ as <- EQ.
    destruct pre as [|e3 pre]; [discriminate EQ|]. injection EQ as <- EQ.
    destruct (t && negb (st_size a =? 0)); [|destruct pre; discriminate EQ]. destruct pre as [|? [|? ?]]; discriminate EQ.
  - apply (split_looks LK) in EQ as [(rt2 & -> & EQ)|(r & rt' & -> & _ & _ & EQ)]; [|discriminate EQ].
    destruct rt2 as [|? [|? ?]]; discriminate EQ.
Qed.
Lemma trail_cut T c t d ns evs i : trail T c t d ns evs i -> In (Truncated i) evs ->
  exists pre d' n m s after, evs = pre ++ [Saw d' n (Some s); Opened d' m i; Checked i after; Truncated i] /\ acceptable T s after.
Proof.
  induction 1 as [d|d n ns b a i evs j A N T1 IH|d n sl rt b a i LK A S|d n rt i C LK]; intros IN.
  - destruct IN.
  - destruct IN as [X|[X|[X|IN]]]; try discriminate X. destruct (IH IN) as (pre & d' & n' & m & s & after & -> & ACC).
    eexists (Saw d n (Some b) :: Opened d n i :: Checked i a :: pre), d', n', m, s, after. split; auto.
  - destruct (t && negb (st_size a =? 0)).
    + exists rt, d, n, (n ++ sl), b, a. auto.
    + apply in_app_or in IN as [IN|[X|[X|[X|[]]]]]; try discriminate X.
      unfold looks in LK. rewrite Forall_forall in LK. apply LK in IN as (s & X). discriminate X.
  - apply in_app_or in IN as [IN|[X|[]]]; try discriminate X.
    unfold looks in LK. rewrite Forall_forall in LK. apply LK in IN as (s & X). discriminate X.
Qed.

(** The point of it, for a process of root: whatever others do in the meantime, if the
    process saw something of another user at a name and then opened the name, what it opened
    was of that user and group when it checked; so was the file it cut to length 0. *)
Theorem C87_root_not_led_astray E w path fl perms w' fd evs :
  wf_fds w -> (O_TRUNC fl = true -> O_WR fl = true) -> euid E = 0%Z ->
  safe_open_create_perms E w path fl perms = Ok (w', inr fd) -> log w' = log w ++ evs ->
  (forall pre d n s m j post, evs = pre ++ Saw d n (Some s) :: Opened d m j :: post -> st_uid s <> 0%Z ->
     exists after post', post = Checked j after :: post' /\ same_owner s after) /\
  (forall i, In (Truncated i) evs -> exists pre d n m s after, evs = pre ++ [Saw d n (Some s); Opened d m i; Checked i after; Truncated i] /\
     (st_uid s <> 0%Z -> same_owner s after)).
Proof.
  intros WF TW RT EQ L. destruct (@C87_every_component_checked E w path fl perms w' fd WF TW EQ) as (d & d0 & evs' & i & F & L2 & T).
  rewrite L in L2. apply app_inv_head in L2. subst evs.
  assert (TU : forall u, trusted_uid E u -> u = 0%Z) by (unfold trusted_uid; rewrite RT; cbn; tauto).
  split.
  - intros pre d' n s m j post EV NZ. destruct pre as [|e pre]; [discriminate EV|]. injection EV as <- EV.
    destruct (trail_owner T _ _ _ _ _ _ _ EV) as (after & post' & -> & [A|A]); [apply TU in A; contradiction|]. eauto.
  - intros j IN. destruct IN as [X|IN]; [discriminate X|].
    assert (J : j = i).
    { destruct (trail_changes T) as [H|(pre & e & -> & H & C)].
      - unfold harmless in H. rewrite Forall_forall in H. apply H in IN. discriminate IN.
      - apply in_app_or in IN as [IN|[X|[]]]; [unfold harmless in H; rewrite Forall_forall in H; apply H in IN; discriminate IN|].
        destruct C as [(_ & d' & n & ->)|(_ & ->)]; [discriminate X|]. now injection X. }
    subst j. destruct (trail_cut T IN) as (pre & d' & n & m & s & after & -> & [A|A]).
    + exists (Opened d (if absolute path then [SLASH] else DOT) d0 :: pre), d', n, m, s, after. split; auto. intros NZ. apply TU in A. contradiction.
    + exists (Opened d (if absolute path then [SLASH] else DOT) d0 :: pre), d', n, m, s, after. auto.
Qed.
Print Assumptions C87_root_not_led_astray.
Example C87_instance : result (safe_open (calm 0) small_world (lit "/l") RDONLY) = Some (inr 2) /\
  result (safe_open (calm 0) small_world (lit "/m") RDONLY) = Some (inl ENOLINK).
Proof. vm_compute. auto. Qed.

(** What does not hold. 1. "All components are checked": only the first link of a component is
    checked, so a link of root that points to a link of somebody else leads anywhere. *)
Theorem C87_chain_of_links_refuted :
  ~ (forall E w path w' fd i, quiet E -> wf_fds w -> sound_dirs (wfs w) -> euid E = 0%Z ->
       safe_open E w path RDONLY = Ok (w', inr fd) -> In (fd, i) (fds w') ->
       forall l x y, passes (wfs w) (start (wfs w) path) (path_names path) l -> inodes (wfs w) l = Some x -> inodes (wfs w) i = Some y ->
         acceptable (documented_uid E) (stat_of x) (stat_of y)).
Proof.
  intros H.
  assert (V : match safe_open (calm 0) small_world (lit "/r") RDONLY with Ok (w', inr fd) => fds w' = [(fd, 4)] | _ => False end) by (vm_compute; auto).
  destruct (safe_open (calm 0) small_world (lit "/r") RDONLY) as [[w' [e|fd]]| | |] eqn:EQ; try contradiction.
  assert (IN : In (fd, 4) (fds w')) by (rewrite V; now left).
  specialize (H (calm 0) small_world (lit "/r") w' fd 4 (calm_quiet 0) small_wf small_dirs eq_refl EQ IN 3 (mkInode (Lnk (lit "/s")) 1000 1000 511) (mkInode (Reg (lit "secret")) 0 0 384)).
  assert (P : passes (wfs small_world) (start (wfs small_world) (lit "/r")) (path_names (lit "/r")) 3).
  { names. eapply passes_link; [calc|calc|discriminate|]. names. eapply passes_here; calc. }
  specialize (H P eq_refl eq_refl). unfold acceptable, documented_uid, same_owner in H. cbn in H. lia.
Qed.
Print Assumptions C87_chain_of_links_refuted.

(** 2. The running user's own links: `bool p_uid = geteuid()` makes every ordinary user number 1.
    User 1000 cannot follow his own link, ... *)
Theorem C87_own_links_refuted :
  ~ (forall E w path i, quiet E -> wf_fds w -> sound_dirs (wfs w) ->
       safely (documented_uid E) (wfs w) (start (wfs w) path) (path_names path) i ->
       exists w' fd, safe_open E w path RDONLY = Ok (w', inr fd)).
Proof.
  intros H. destruct (H (calm 1000) small_world (lit "/m") 4 (calm_quiet 1000) small_wf small_dirs) as (w' & fd & EQ).
  - names. eapply safely_step; [calc|calc|calc|calc| |constructor]. left. right. reflexivity.
  - assert (V : result (safe_open (calm 1000) small_world (lit "/m") RDONLY) = Some (inl ENOLINK)) by (vm_compute; auto).
    rewrite EQ in V. cbn in V. destruct (find_fd (fds w') fd); discriminate.
Qed.
Print Assumptions C87_own_links_refuted.
(** ... but follows links of user 1, which nobody trusts. *)
Theorem C87_foreign_links_refuted :
  ~ (forall E w path w' fd i, quiet E -> wf_fds w -> sound_dirs (wfs w) -> safe_open E w path RDONLY = Ok (w', inr fd) -> In (fd, i) (fds w') ->
       safely (documented_uid E) (wfs w) (start (wfs w) path) (path_names path) i).
Proof.
  intros H.
  assert (V : match safe_open (calm 1000) small_world (lit "/q") RDONLY with Ok (w', inr fd) => fds w' = [(fd, 4)] | _ => False end) by (vm_compute; auto).
  destruct (safe_open (calm 1000) small_world (lit "/q") RDONLY) as [[w' [e|fd]]| | |] eqn:EQ; try contradiction.
  assert (IN : In (fd, 4) (fds w')) by (rewrite V; now left).
  specialize (H (calm 1000) small_world (lit "/q") w' fd 4 (calm_quiet 1000) small_wf small_dirs EQ IN).
  inversion H as [|d n seen x j y ns k LK X R Y A S]; subst. vm_compute in LK. injection LK as <-. vm_compute in X. injection X as <-.
  vm_compute in R. injection R as <-. vm_compute in Y. injection Y as <-.
  unfold acceptable, documented_uid, same_owner in A. cbn in A. lia.
Qed.
Print Assumptions C87_foreign_links_refuted.

(** 3. "We make sure that can't happen if the file existed, by comparing with fstat()": not if
    what existed was root's.  Here the file of root at [/x] is replaced, between the look and the
    open, by a link of user 1000; the process of root opens what that link points to. *)
Definition swap : environment :=
  mkEnv (fun n f => if n =? 2 then set_inode f 0 (mkInode (Dir [(lit "x", 3); (lit "s", 4)]) 0 0 511) else f) (fun _ => None) 0 0.
Theorem C87_switched_link_refuted :
  ~ (forall E w path w' fd i, wf_fds w -> sound_dirs (wfs w) -> euid E = 0%Z -> safe_open E w path RDONLY = Ok (w', inr fd) -> In (fd, i) (fds w') ->
       (* what is at the path afterwards is the file opened, or a trustworthy link to it *)
       forall l x y, resolve (wfs w') false 0 path = inr l -> inodes (wfs w') l = Some x -> inodes (wfs w') i = Some y ->
         acceptable (documented_uid E) (stat_of x) (stat_of y)).
Proof.
  intros H.
  assert (V : match safe_open swap small_world (lit "/x") RDONLY with
              | Ok (w', inr fd) => fds w' = [(fd, 4)] /\ resolve (wfs w') false 0 (lit "/x") = inr 3
                   /\ inodes (wfs w') 3 = Some (mkInode (Lnk (lit "/s")) 1000 1000 511) /\ inodes (wfs w') 4 = Some (mkInode (Reg (lit "secret")) 0 0 384)
              | _ => False end) by (vm_compute; auto).
  destruct (safe_open swap small_world (lit "/x") RDONLY) as [[w' [e|fd]]| | |] eqn:EQ; try contradiction.
  destruct V as (F & R & X & Y). assert (IN : In (fd, 4) (fds w')) by (rewrite F; now left).
  specialize (H swap small_world (lit "/x") w' fd 4 small_wf small_dirs eq_refl EQ IN 3 _ _ R X Y).
  unfold acceptable, documented_uid, same_owner in H. cbn in H. lia.
Qed.
Print Assumptions C87_switched_link_refuted.

(** * C88: with nobody else at work *)
(** safe_open of an existing file succeeds exactly if every name on the way is trusted, and then
    it is the file open(2) would open, cut if asked; otherwise nothing changes.  (Opening [/] for
    writing is left out: it returns a read-only descriptor, below.) *)
Theorem C88_same_file_as_open E w path fl perms :
  quiet E -> wf_fds w -> sound_dirs (wfs w) -> path <> [] -> (O_TRUNC fl = true -> O_WR fl = true) -> O_CREAT fl = false ->
  (pieces path = [] -> O_WR fl = false) ->
  exists w' r, safe_open_create_perms E w path fl perms = Ok (w', r) /\
    match r with
    | inr fd => exists i, safely (trusted_uid E) (wfs w) (start (wfs w) path) (path_names path) i /\ O_WR fl && is_dir (wfs w) i = false /\
                  resolves (wfs w) (start (wfs w) path) (path_names path) i /\
                  fds w' = fds w ++ [(fd, i)] /\ after_open (O_TRUNC fl) (wfs w) i (wfs w')
    | inl e => fds w' = fds w /\ wfs w' = wfs w /\
               ~ exists i, safely (trusted_uid E) (wfs w) (start (wfs w) path) (path_names path) i /\ O_WR fl && is_dir (wfs w) i = false
    end.
Proof.
  intros Q WF [DR DC] NE TW CR PW. destruct (@q_safe_open E Q w path fl perms WF DR DC NE TW CR PW) as (w' & r & EQ & C).
  exists w', r. split; auto. destruct r as [e|fd]; auto. destruct C as (i & S & W & _ & F & AO). exists i. split; auto. split; auto.
  split; auto. eapply safely_resolves; eauto. apply names_plain.
Qed.
Print Assumptions C88_same_file_as_open.
(** resolution has one result *)
Theorem C88_resolution_unique f d ns i j : resolves f d ns i -> resolves f d ns j -> i = j.
Proof. intros A B. eapply resolves_fun; eauto. Qed.
Print Assumptions C88_resolution_unique.
Example C88_instance : safely (trusted_uid (calm 0)) small 0 (path_names (lit "/l")) 2 /\ resolves small 0 (path_names (lit "/d/k")) 4.
Proof.
  split.
  - names. eapply safely_step; [calc|calc|calc|calc| |constructor]. right. split; reflexivity.
  - names. eapply res_step; [calc|intros; discriminate|]. eapply res_link; [calc|calc|discriminate|]. names.
    eapply res_step; [calc|intros; discriminate|]. constructor.
Qed.
(** the first name that is not trusted stops it, with ENOLINK *)
Theorem C88_untrusted_link E w path fl perms ns n rest d s x j y :
  quiet E -> wf_fds w -> sound_dirs (wfs w) -> (O_TRUNC fl = true -> O_WR fl = true) -> O_CREAT fl && O_EXCL fl = false ->
  pieces path = ns ++ n :: rest -> ends_in_slash path = false -> (rest = [] -> O_WR fl && is_dir (wfs w) j = false) ->
  safely (trusted_uid E) (wfs w) (start (wfs w) path) ns d ->
  lookup (wfs w) d n = inr s -> inodes (wfs w) s = Some x -> resolve (wfs w) true d n = inr j -> inodes (wfs w) j = Some y ->
  ~ acceptable (trusted_uid E) (stat_of x) (stat_of y) ->
  exists w', safe_open_create_perms E w path fl perms = Ok (w', inl ENOLINK) /\ fds w' = fds w /\ wfs w' = wfs w.
Proof.
  intros Q WF [DR DC] TW CE PN ES WD S LK X R Y NA.
  destruct (@q_untrusted E Q w path fl perms ns n rest d s x j y) as (w' & EQ & _ & F & FS); auto. eauto.
Qed.
Print Assumptions C88_untrusted_link.
(** a file that is not there is created there, with the permissions given, and nothing else *)
Theorem C88_creates E w path fl perms ns n d :
  quiet E -> wf_fds w -> sound_dirs (wfs w) -> (O_TRUNC fl = true -> O_WR fl = true) -> O_CREAT fl = true ->
  pieces path = ns ++ [n] -> ends_in_slash path = false -> safely (trusted_uid E) (wfs w) (start (wfs w) path) ns d ->
  lookup (wfs w) d n = inl ENOENT -> is_dir (wfs w) d = true -> inodes (wfs w) (nextino (wfs w)) = None ->
  exists w' fd i, safe_open_create_perms E w path fl perms = Ok (w', inr fd) /\ fds w' = fds w ++ [(fd, i)] /\
    new_file_in (wfs w) d n (euid E) (egid E) perms i (wfs w').
Proof. intros Q WF [DR DC] TW CR PN ES S LK D FR. eapply q_create; eauto. Qed.
Print Assumptions C88_creates.
(** safe_open gives new files the mode 0600, safe_creat the mode it is told *)
Theorem C88_mode_of_new_files E w path fl mode ns n d :
  quiet E -> wf_fds w -> sound_dirs (wfs w) -> (O_TRUNC fl = true -> O_WR fl = true) -> O_CREAT fl = true ->
  pieces path = ns ++ [n] -> ends_in_slash path = false -> safely (trusted_uid E) (wfs w) (start (wfs w) path) ns d ->
  lookup (wfs w) d n = inl ENOENT -> is_dir (wfs w) d = true -> inodes (wfs w) (nextino (wfs w)) = None ->
  (exists w' fd i, safe_open E w path fl = Ok (w', inr fd) /\ fds w' = fds w ++ [(fd, i)] /\ new_file_in (wfs w) d n (euid E) (egid E) 384 i (wfs w')) /\
  (exists w' fd i, safe_creat E w path mode = Ok (w', inr fd) /\ fds w' = fds w ++ [(fd, i)] /\ new_file_in (wfs w) d n (euid E) (egid E) mode i (wfs w')).
Proof.
  intros Q WF SD TW CR PN ES S LK D FR. split; unfold safe_open, safe_creat.
  (* the syntactic match makes an attempt to prove this of other modes fail quickly *)
  - unfold CF_PERMS_DEFAULT. lazymatch goal with |- context [safe_open_create_perms E w path fl 384] =>
    exact (@C88_creates E w path fl 384 ns n d Q WF SD TW CR PN ES S LK D FR) end.
  - lazymatch goal with |- context [safe_open_create_perms E w path (mkFlags true true false true) mode] =>
    exact (@C88_creates E w path (mkFlags true true false true) mode ns n d Q WF SD (fun _ => eq_refl) eq_refl PN ES S LK D FR) end.
Qed.
Print Assumptions C88_mode_of_new_files.
Example C88_creates_instance :
  match safe_open (calm 7) small_world (lit "/d/new") (mkFlags true true true false) with
  | Ok (w', inr fd) => fds w' = [(fd, 12)] /\ inodes (wfs w') 12 = Some (mkInode (Reg []) 7 7 384) /\ resolve (wfs w') true 0 (lit "/d/new") = inr 12
  | _ => False
  end.
Proof. vm_compute. auto. Qed.
(** with O_CREAT an existing file is opened like without, not at all with O_EXCL, and a dangling
    link is never created through *)
Theorem C88_creat_existing E w path fl perms ns n d s x j y :
  quiet E -> wf_fds w -> sound_dirs (wfs w) -> (O_TRUNC fl = true -> O_WR fl = true) -> O_CREAT fl && O_EXCL fl = false ->
  pieces path = ns ++ [n] -> ends_in_slash path = false -> safely (trusted_uid E) (wfs w) (start (wfs w) path) ns d ->
  lookup (wfs w) d n = inr s -> inodes (wfs w) s = Some x -> resolve (wfs w) true d n = inr j -> inodes (wfs w) j = Some y ->
  acceptable (trusted_uid E) (stat_of x) (stat_of y) -> O_WR fl && is_dir (wfs w) j = false ->
  exists w' fd, safe_open_create_perms E w path fl perms = Ok (w', inr fd) /\ fds w' = fds w ++ [(fd, j)] /\ after_open (O_TRUNC fl) (wfs w) j (wfs w').
Proof.
  intros Q WF [DR DC] TW CE PN ES S LK X R Y A WD.
  destruct (@q_creat_existing E Q w path fl perms ns n d s x j y) as (w' & fd & EQ & _ & F & AO); auto. eauto.
Qed.
Print Assumptions C88_creat_existing.
Theorem C88_excl_existing E w path fl perms ns n d s x :
  quiet E -> wf_fds w -> sound_dirs (wfs w) -> (O_TRUNC fl = true -> O_WR fl = true) -> O_CREAT fl = true -> O_EXCL fl = true ->
  pieces path = ns ++ [n] -> ends_in_slash path = false -> safely (trusted_uid E) (wfs w) (start (wfs w) path) ns d ->
  lookup (wfs w) d n = inr s -> inodes (wfs w) s = Some x ->
  exists w', safe_open_create_perms E w path fl perms = Ok (w', inl EEXIST) /\ fds w' = fds w /\ wfs w' = wfs w.
Proof.
  intros Q WF [DR DC] TW CR EX PN ES S LK X.
  destruct (@q_exists_excl E Q w path fl perms ns n d s x) as (w' & EQ & _ & F & FS); auto. eauto.
Qed.
Print Assumptions C88_excl_existing.
Theorem C88_dangling_link E w path fl perms ns n d s x :
  quiet E -> wf_fds w -> sound_dirs (wfs w) -> (O_TRUNC fl = true -> O_WR fl = true) -> O_CREAT fl = true -> O_EXCL fl = false ->
  pieces path = ns ++ [n] -> ends_in_slash path = false -> safely (trusted_uid E) (wfs w) (start (wfs w) path) ns d ->
  lookup (wfs w) d n = inr s -> inodes (wfs w) s = Some x -> resolve (wfs w) true d n = inl ENOENT ->
  exists w', safe_open_create_perms E w path fl perms = Ok (w', inl EACCES) /\ fds w' = fds w /\ wfs w' = wfs w.
Proof.
  intros Q WF [DR DC] TW CR EX PN ES S LK X R.
  destruct (@q_dangling E Q w path fl perms ns n d s x) as (w' & EQ & _ & F & FS); auto. eauto.
Qed.
Print Assumptions C88_dangling_link.
(** "Same errors as open()": opening [/] for writing succeeds (with a descriptor opened for
    reading) where open(2) says EISDIR *)
Theorem C88_root_for_writing_refuted :
  ~ (forall E w path fl w' fd i, quiet E -> wf_fds w -> sound_dirs (wfs w) -> safe_open E w path fl = Ok (w', inr fd) -> In (fd, i) (fds w') ->
       O_WR fl && is_dir (wfs w) i = false).
Proof.
  intros H.
  assert (V : match safe_open (calm 0) small_world (lit "/") (mkFlags true false false false) with Ok (w', inr fd) => fds w' = [(fd, 0)] | _ => False end) by (vm_compute; auto).
  destruct (safe_open (calm 0) small_world (lit "/") (mkFlags true false false false)) as [[w' [e|fd]]| | |] eqn:EQ; try contradiction.
  assert (IN : In (fd, 0) (fds w')) by (rewrite V; now left).
  specialize (H (calm 0) small_world (lit "/") _ w' fd 0 (calm_quiet 0) small_wf small_dirs EQ IN). discriminate H.
Qed.
Print Assumptions C88_root_for_writing_refuted.

(** * C89: safe_chown and safe_lchown *)
(** Whatever others do: no descriptor is leaked; a failing call changes nothing; a succeeding one
    changes the owner of exactly one object, the one called as the path's last name in the
    directory it found by checked steps.  For safe_lchown that is the directory the path names. *)
Theorem C89_lchown E w path o g : wf_fds w ->
  exists w' ret evs, safe_lchown E w path o g = Ok (w', ret) /\ fds w' = fds w /\ log w' = log w ++ evs /\
    match ret with
    | Some e => harmless evs
    | None => exists pre d s i, evs = pre ++ [Saw d (basename path) (Some s); Chowned d (basename path) i] /\ reached (trusted_uid E) (dirname path) pre d
    end.
Proof.
  intros WF. destruct (@chown_spec E w path o g true WF) as (w' & ret & evs & EQ & F & L & C). exists w', ret, evs. split; auto. split; auto. split; auto.
  destruct ret; auto. destruct C as (pre & d & s & i & -> & CH). inversion CH; subst; [|discriminate]. exists evs, d, s, i. split; [now rewrite <- app_assoc|]. auto.
Qed.
Print Assumptions C89_lchown.
Theorem C89_chown E w path o g : wf_fds w ->
  exists w' ret evs, safe_chown E w path o g = Ok (w', ret) /\ fds w' = fds w /\ log w' = log w ++ evs /\
    match ret with
    | Some e => harmless evs
    | None => exists pre d s i, evs = pre ++ [Chowned d (basename path) i] /\ chain (trusted_uid E) (documented_uid E) dirname basename false None path pre d s
    end.
Proof. intros WF. apply (@chown_spec E w path o g false WF). Qed.
Print Assumptions C89_chown.
(** With nobody else at work safe_lchown changes the object itself, and so does safe_chown if
    it is not a link *)
Theorem C89_quiet_lchown E w path o g ns n d i x :
  quiet E -> wf_fds w -> sound_dirs (wfs w) -> pieces path = ns ++ [n] -> safely (trusted_uid E) (wfs w) (start (wfs w) path) ns d ->
  lookup (wfs w) d n = inr i -> inodes (wfs w) i = Some x ->
  exists w', safe_lchown E w path o g = Ok (w', None) /\ fds w' = fds w /\ owned (wfs w) i o g (wfs w').
Proof. intros Q WF [DR DC] PN S LK X. eapply q_chown; eauto. Qed.
Print Assumptions C89_quiet_lchown.
Theorem C89_quiet_chown_partial E w path o g ns n d i x :
  quiet E -> wf_fds w -> sound_dirs (wfs w) -> pieces path = ns ++ [n] -> safely (trusted_uid E) (wfs w) (start (wfs w) path) ns d ->
  lookup (wfs w) d n = inr i -> inodes (wfs w) i = Some x -> S_ISLNK (stat_of x) = false ->
  exists w', safe_chown E w path o g = Ok (w', None) /\ fds w' = fds w /\ owned (wfs w) i o g (wfs w').
Proof. intros Q WF [DR DC] PN S LK X NL. eapply q_chown; eauto. Qed.
Print Assumptions C89_quiet_chown_partial.
Example C89_instance :
  match safe_lchown (calm 0) small_world (lit "/d/k") 5 6, safe_chown (calm 0) small_world (lit "/d/../d") 5 6, safe_chown (calm 0) small_world (lit "/x") 5 6 with
  | Ok (w1, None), Ok (_, Some ENOENT), Ok (w3, None) => inodes (wfs w1) 9 = Some (mkInode (Lnk (lit "/s")) 5 6 511) /\ inodes (wfs w3) 6 = Some (mkInode (Reg (lit "old")) 5 6 420)
  | _, _, _ => False
  end.
Proof. vm_compute. auto. Qed.
(** On a link it uses the link's name in the directory of the target: safe_chown of [/d/k], a link
    to [/s], changes the owner of the bystander [/k], and not of [/s] *)
Theorem C89_chown_of_link_refuted :
  ~ (forall E w path o g w' i, quiet E -> wf_fds w -> sound_dirs (wfs w) -> euid E = 0%Z -> safe_chown E w path o g = Ok (w', None) ->
       resolves (wfs w) (start (wfs w) path) (path_names path) i -> owned (wfs w) i o g (wfs w')).
Proof.
  intros H.
  assert (V : match safe_chown (calm 0) small_world (lit "/d/k") 5 6 with
              | Ok (w', None) => inodes (wfs w') 4 = Some (mkInode (Reg (lit "secret")) 0 0 384) /\ inodes (wfs w') 10 = Some (mkInode (Reg (lit "bystander")) 5 6 420)
              | _ => False end) by (vm_compute; auto).
  destruct (safe_chown (calm 0) small_world (lit "/d/k") 5 6) as [[w' [e|]]| | |] eqn:EQ; try contradiction.
  destruct V as (V1 & V2).
  assert (R : resolves (wfs small_world) (start (wfs small_world) (lit "/d/k")) (path_names (lit "/d/k")) 4) by exact (proj2 C88_instance).
  destruct (H (calm 0) small_world (lit "/d/k") 5%Z 6%Z w' 4 (calm_quiet 0) small_wf small_dirs eq_refl EQ R) as (_ & _ & _ & OW).
  specialize (OW 4). rewrite V1 in OW. discriminate OW.
Qed.
Print Assumptions C89_chown_of_link_refuted.

(** * C90: safe_chmod, safe_chdir, safe_fopen *)
(** Whatever others do: no descriptor is leaked; a failing safe_chmod changes nothing; a
    succeeding one changes the permissions of exactly one file: one opened by checked steps from
    the path, or, if a FIFO or socket was seen, one of the FIFO's owner (or root's FIFO). *)
Theorem C90_chmod E w path mode : wf_fds w ->
  exists w' ret evs, safe_chmod E w path mode = Ok (w', ret) /\ fds w' = fds w /\ log w' = log w ++ evs /\
    match ret with
    | Some e => harmless evs
    | None => exists pre1 d s0 s pre2 i owner, evs = pre1 ++ [Saw d (basename path) (Some s)] ++ pre2 ++ [Chmoded i owner] /\
                chain (trusted_uid E) (documented_uid E) dirname basename false None path pre1 d s0 /\
                match st_kind s with
                | Fifo | Sock => pre2 = [] /\ (st_uid s = 0%Z \/ owner = st_uid s)
                | _ => reached (trusted_uid E) path pre2 i
                end
    end.
Proof. apply chmod_spec. Qed.
Print Assumptions C90_chmod.
Example C90_instance :
  match safe_chmod (calm 0) small_world (lit "/l") 511, safe_chmod (calm 0) small_world (lit "/t") 511, safe_chmod (calm 0) small_world (lit "/p") 511 with
  | Ok (w1, _), Ok (w2, None), Ok (w3, None) => inodes (wfs w2) 2 = Some (mkInode (Reg (lit "data")) 1000 1000 511) /\ inodes (wfs w3) 11 = Some (mkInode Fifo 1000 1000 511)
  | _, _, _ => False
  end.
Proof. vm_compute. auto. Qed.
Theorem C90_chdir E w path : wf_fds w ->
  exists w' ret evs, safe_chdir E w path = Ok (w', ret) /\ fds w' = fds w /\ log w' = log w ++ evs /\ harmless evs /\
    (ret = None -> exists i, cwd (wfs w') = i /\ reached (trusted_uid E) path evs i).
Proof. apply chdir_spec. Qed.
Print Assumptions C90_chdir.
Example C90_chdir_instance :
  match safe_chdir (calm 0) small_world (lit "d") with Ok (w', None) => cwd (wfs w') = 8 | _ => False end.
Proof. vm_compute. auto. Qed.

(** the letters of a mode string, in any order: what safe_fopen asks of safe_open *)
Definition has_letter (c : byte) (mode : list byte) : bool := existsb (fun x => beq x c) mode.
Lemma fopen_gen mode : forall fl,
  match fopen_flags mode fl with
  | Some r => Forall (fun c => In c (lit "rwa+btx")) mode /\
      O_WR r = O_WR fl || has_letter "w" mode || has_letter "a" mode || has_letter "+" mode /\
      O_CREAT r = O_CREAT fl || has_letter "w" mode || has_letter "a" mode /\
      O_TRUNC r = O_TRUNC fl || has_letter "w" mode /\ O_EXCL r = O_EXCL fl || has_letter "x" mode
  | None => ~ Forall (fun c => In c (lit "rwa+btx")) mode
  end.
Proof.
  induction mode as [|c mode IH]; intros fl.
  - cbn. rewrite !orb_false_r. repeat split; auto.
  - cbn [fopen_flags].
    assert (STEP : forall fl', In c (lit "rwa+btx") ->
       O_WR fl' = O_WR fl || beq c "w" || beq c "a" || beq c "+" -> O_CREAT fl' = O_CREAT fl || beq c "w" || beq c "a" ->
       O_TRUNC fl' = O_TRUNC fl || beq c "w" -> O_EXCL fl' = O_EXCL fl || beq c "x" ->
       match fopen_flags mode fl' with
       | Some r => Forall (fun c => In c (lit "rwa+btx")) (c :: mode) /\
          O_WR r = O_WR fl || has_letter "w" (c :: mode) || has_letter "a" (c :: mode) || has_letter "+" (c :: mode) /\
          O_CREAT r = O_CREAT fl || has_letter "w" (c :: mode) || has_letter "a" (c :: mode) /\
          O_TRUNC r = O_TRUNC fl || has_letter "w" (c :: mode) /\ O_EXCL r = O_EXCL fl || has_letter "x" (c :: mode)
       | None => ~ Forall (fun c => In c (lit "rwa+btx")) (c :: mode)
       end).
    { intros fl' IN A B C D. specialize (IH fl'). destruct (fopen_flags mode fl') as [r|].
      - destruct IH as (F & E1 & E2 & E3 & E4). split; [constructor; auto|]. rewrite E1, E2, E3, E4, A, B, C, D. unfold has_letter. cbn [existsb].
        destruct (O_WR fl), (O_CREAT fl), (O_TRUNC fl), (O_EXCL fl), (beq c "w"), (beq c "a"), (beq c "+"), (beq c "x"); cbn; repeat split;
          now rewrite ?orb_true_r, ?orb_false_r.
      - intros X. inversion X; contradiction. }
    destruct (beq c "r") eqn:B1; [apply beq_true in B1 as ->; apply STEP; [cbn; tauto|..]; cbn; now rewrite ?orb_false_r|].
    destruct (beq c "w") eqn:B2; [apply beq_true in B2 as ->; apply STEP; [cbn; tauto|..]; cbn; now rewrite ?orb_false_r, ?orb_true_r|].
    destruct (beq c "a") eqn:B3; [apply beq_true in B3 as ->; apply STEP; [cbn; tauto|..]; cbn; now rewrite ?orb_false_r, ?orb_true_r|].
    destruct (beq c "+") eqn:B4; [apply beq_true in B4 as ->; apply STEP; [cbn; tauto|..]; cbn; now rewrite ?orb_false_r, ?orb_true_r|].
    destruct (beq c "b") eqn:B5; [apply beq_true in B5 as ->; apply STEP; [cbn; tauto|..]; cbn; now rewrite ?orb_false_r, ?orb_true_r|].
    destruct (beq c "t") eqn:B6; [apply beq_true in B6 as ->; apply STEP; [cbn; tauto|..]; cbn; now rewrite ?orb_false_r, ?orb_true_r|].
    destruct (beq c "x") eqn:B7; [apply beq_true in B7 as ->; apply STEP; [cbn; tauto|..]; cbn; now rewrite ?orb_false_r, ?orb_true_r|].
    cbn [orb]. intros X. inversion X as [|? ? IN]; subst. clear - IN B1 B2 B3 B4 B5 B6 B7.
    cbn in IN. repeat destruct IN as [<-|IN]; try discriminate. destruct IN.
Qed.
Theorem C90_fopen_flags mode :
  match fopen_flags mode RDONLY with
  | Some fl => Forall (fun c => In c (lit "rwa+btx")) mode /\
      O_WR fl = has_letter "w" mode || has_letter "a" mode || has_letter "+" mode /\
      O_CREAT fl = has_letter "w" mode || has_letter "a" mode /\
      O_TRUNC fl = has_letter "w" mode /\ O_EXCL fl = has_letter "x" mode
  | None => ~ Forall (fun c => In c (lit "rwa+btx")) mode
  end.
Proof. exact (fopen_gen mode RDONLY). Qed.
Print Assumptions C90_fopen_flags.
(** so safe_fopen never runs into safe_open's assertion *)
Theorem C90_fopen_truncates_only_for_writing mode fl : fopen_flags mode RDONLY = Some fl -> O_TRUNC fl = true -> O_WR fl = true.
Proof. intros EQ T. pose proof (C90_fopen_flags mode) as H. rewrite EQ in H. destruct H as (_ & -> & _ & H & _). rewrite H in T. now rewrite T. Qed.
Print Assumptions C90_fopen_truncates_only_for_writing.
Example C90_fopen_instance : fopen_flags (lit "a+b") RDONLY = Some (mkFlags true true false false) /\ fopen_flags (lit "rq") RDONLY = None.
Proof. split; reflexivity. Qed.
