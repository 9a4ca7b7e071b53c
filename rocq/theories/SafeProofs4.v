(** Proofs about SafeModel.v, IV: safe_open when nobody else is at work, the result. *)
From Verif Require Import Prelude PreludeFacts Str StrFacts Libc LibcFacts FsModel SafeModel SafeSpec SafeProofs SafeProofs2 SafeProofs3.
Set Implicit Arguments.

(** same file system and descriptors *)
Definition still (w w' : world) : Prop := wfs w' = wfs w /\ fds w' = fds w /\ nextfd w' = nextfd w.
Lemma still_wf w w' : still w w' -> wf_fds w -> wf_fds w'.
Proof. intros (_ & F & N) [A B]. split; rewrite F; auto. now rewrite N. Qed.
Definition opened (w w' : world) (fd i : nat) : Prop :=
  wfs w' = wfs w /\ fds w' = fds w ++ [(fd, i)] /\ nextfd w' = S (nextfd w) /\ fd = nextfd w.
Lemma opened_wf w w' fd i : opened w w' fd i -> wf_fds w -> wf_fds w'.
Proof.
  intros (_ & F & N & K) WF. apply (@gained_wf w (mkWorld (wfs w) 0 (fds w') (nextfd w') (log w)) fd i []) in WF.
  - exact WF.
  - repeat split; auto. cbn. now rewrite app_nil_r.
Qed.

Definition stat_result (f : fs) (d : nat) (n : name) : errno + stat :=
  match lookup f d n with inl e => inl e | inr i => match inodes f i with Some x => inr (stat_of x) | None => inl EIO end end.
Definition open_result (f : fs) (d : nat) (p : list byte) (wr : bool) : errno + nat :=
  match resolve f true d p with
  | inl e => inl e
  | inr i => match inodes f i with None => inl EIO | Some _ => if wr && is_dir f i then inl EISDIR else inr i end
  end.

Section Quiet.
  Variable E : environment.
  Hypothesis Q : quiet E.
  Notation trusted := (fun u : Z => u = 0%Z \/ u = p_uid E).

  Lemma q_fstatat w a k d b n : wf_fds w -> fds w = a ++ (k, d) :: b -> n <> [] -> plain n ->
    exists w', sys_fstatat E w (Fd k) n = Ok (w', stat_result (wfs w) d n) /\ still w w'.
  Proof.
    intros WF FD NE P. unfold sys_fstatat, enter. destruct Q as [Q1 Q2]. rewrite Q1, Q2.
    set (w1 := mkWorld _ _ _ _ _).
    assert (I : inode_of w1 (Fd k) = Ok d) by (cbn; rewrite FD, find_mid; auto; rewrite <- FD; apply WF).
    rewrite I. cbn [bind]. rewrite resolve_plain_no by auto. unfold stat_result. change (wfs w1) with (wfs w).
    destruct (lookup (wfs w) d n) as [e|i]; [destruct e|destruct (inodes (wfs w) i)]; eexists; (split; [reflexivity|repeat split]).
  Qed.

  Lemma q_openat_gen w fd d p fl mode : inode_of w fd = Ok d -> O_CREAT fl = false -> O_TRUNC fl = false ->
    exists w' r, sys_openat E w fd p fl mode = Ok (w', r) /\
      match open_result (wfs w) d p (O_WR fl) with
      | inl e => r = inl e /\ still w w'
      | inr i => exists fd, r = inr fd /\ opened w w' fd i
      end.
  Proof.
    intros I C T. unfold sys_openat, enter. destruct Q as [Q1 Q2]. rewrite Q1, Q2.
    set (w1 := mkWorld _ _ _ _ _).
    assert (I1 : inode_of w1 fd = Ok d) by exact I.
    rewrite I1. cbn [bind]. rewrite C. unfold open_result. change (wfs w1) with (wfs w).
    destruct (resolve (wfs w) true d p) as [e|i]; [eexists _, _; split; [reflexivity|repeat split]|].
    unfold open_existing. change (wfs w1) with (wfs w). destruct (inodes (wfs w) i) as [x|]; [|eexists _, _; split; [reflexivity|repeat split]].
    destruct (O_WR fl && is_dir (wfs w) i); [eexists _, _; split; [reflexivity|repeat split]|].
    rewrite T. cbn. eexists _, _. split; [reflexivity|]. eexists. split; [reflexivity|]. repeat split.
  Qed.
  Lemma q_openat w a k d b p fl mode : wf_fds w -> fds w = a ++ (k, d) :: b -> O_CREAT fl = false -> O_TRUNC fl = false ->
    exists w' r, sys_openat E w (Fd k) p fl mode = Ok (w', r) /\
      match open_result (wfs w) d p (O_WR fl) with
      | inl e => r = inl e /\ still w w'
      | inr i => exists fd, r = inr fd /\ opened w w' fd i
      end.
  Proof. intros WF FD. apply q_openat_gen. cbn. rewrite FD, find_mid; auto. rewrite <- FD; apply WF. Qed.

  Lemma q_fstat w a k i b x : wf_fds w -> fds w = a ++ (k, i) :: b -> inodes (wfs w) i = Some x ->
    exists w', sys_fstat E w k = Ok (w', inr (stat_of x)) /\ still w w'.
  Proof.
    intros WF FD X. unfold sys_fstat, enter. destruct Q as [Q1 Q2]. rewrite Q1, Q2.
    set (w1 := mkWorld _ _ _ _ _).
    assert (I : inode_of w1 (Fd k) = Ok i) by (cbn; rewrite FD, find_mid; auto; rewrite <- FD; apply WF).
    rewrite I. cbn [bind]. change (wfs w1) with (wfs w). rewrite X. eexists; (split; [reflexivity|repeat split]).
  Qed.

  (** what the process makes of before and after *)
  Definition accb (x y : inode) : bool :=
    negb (negb (iuid x =? 0)%Z && negb (iuid x =? p_uid E)%Z && (negb (iuid x =? iuid y)%Z || negb (igid x =? igid y)%Z)).
  Lemma accb_iff x y : accb x y = true <-> acceptable trusted (stat_of x) (stat_of y).
  Proof.
    unfold accb, acceptable, same_owner, stat_of; cbn.
    destruct (Z.eqb_spec (iuid x) 0), (Z.eqb_spec (iuid x) (p_uid E)), (Z.eqb_spec (iuid x) (iuid y)), (Z.eqb_spec (igid x) (igid y)); cbn; intuition (try discriminate; auto).
  Qed.

  Lemma q_verify w a k i x y : wf_fds w -> fds w = a ++ [(k, i)] -> inodes (wfs w) i = Some y ->
    exists w', wf_fds w' /\ wfs w' = wfs w /\ nextfd w' = nextfd w /\
      if accb x y then verify E w k (stat_of x) = Ok (w', inr (size_of (ikind y))) /\ fds w' = a ++ [(k, i)]
      else verify E w k (stat_of x) = Ok (w', inl ENOLINK) /\ fds w' = a.
  Proof.
    intros WF FD Y. unfold verify. destruct (@q_fstat w a k i [] y WF FD Y) as (w1 & -> & ST). cbn [bind].
    pose proof (still_wf ST WF) as WF1. destruct ST as (S1 & S2 & S3). rewrite FD in S2.
    change (st_uid (stat_of x)) with (iuid x). change (st_uid (stat_of y)) with (iuid y).
    change (st_gid (stat_of x)) with (igid x). change (st_gid (stat_of y)) with (igid y).
    unfold accb. match goal with |- context [if negb ?c then _ else _] => destruct c eqn:T end; cbn [negb].
    - destruct (@close_mid _ a k i [] WF1 S2) as (w2 & -> & WF2 & F2 & N2 & L2 & S4). cbn [bind]. rewrite app_nil_r in F2.
      exists w2. split; auto. split; [congruence|]. split; [congruence|]. auto.
    - exists w1. split; auto.
  Qed.

  Lemma set_same f i x k : inodes (set_inode f i x) k = if k =? i then Some x else inodes f k.
  Proof. reflexivity. Qed.

  Lemma q_finish w a k i y trunc : wf_fds w -> fds w = a ++ [(k, i)] -> inodes (wfs w) i = Some y ->
    exists w', finish_open E w k trunc (Some (size_of (ikind y))) = Ok (w', inr k) /\ wf_fds w' /\ fds w' = a ++ [(k, i)] /\ nextfd w' = nextfd w /\
      after_open trunc (wfs w) i (wfs w').
  Proof.
    intros WF FD Y. unfold finish_open.
    assert (SAME : trunc && negb (size_of (ikind y) =? 0) = false -> after_open trunc (wfs w) i (wfs w)).
    { intros T. do 4 (split; auto). intros k'. destruct (Nat.eqb_spec k' i) as [->|]; auto. rewrite Y. cbn. f_equal.
      destruct trunc; auto. unfold cut. destruct y as [[es|c|t| |] u g p]; cbn in *; auto.
      destruct c; [auto|discriminate]. }
    destruct trunc; [|eexists; split; [reflexivity|]; auto].
    destruct (size_of (ikind y)) eqn:SZ; [eexists; split; [reflexivity|]; auto|].
    unfold sys_ftruncate, enter. destruct Q as [Q1 Q2]. rewrite Q1, Q2.
    set (w1 := mkWorld _ _ _ _ _).
    assert (I : inode_of w1 (Fd k) = Ok i) by (cbn; rewrite FD, find_mid; auto; rewrite <- FD; apply WF).
    rewrite I. cbn [bind]. change (wfs w1) with (wfs w). rewrite Y. cbn [bind]. eexists. split; [reflexivity|].
    cbn [fds nextfd wfs record with_fs]. split; [exact WF|]. split; auto. split; auto. split; [discriminate|]. do 3 (split; auto). intros k'. rewrite set_same.
    destruct (k' =? i); auto. rewrite Y. reflexivity.
  Qed.

  (** the walk of safe_open, in terms of the file system only *)
  Fixpoint swalk (wr : bool) (f : fs) (d : nat) (ns : list name) : errno + nat :=
    match ns with
    | [] => inr d
    | n :: ns =>
        match lookup f d n with
        | inl e => inl e
        | inr i =>
            match inodes f i with
            | None => inl EIO
            | Some x =>
                match resolve f true d n with
                | inl e => inl e
                | inr j =>
                    match inodes f j with
                    | None => inl EIO
                    | Some y =>
                        if match ns with [] => wr && is_dir f j | _ => false end then inl EISDIR
                        else if accb x y then swalk wr f j ns else inl ENOLINK
                    end
                end
            end
        end
    end.
  Lemma swalk_iff wr f : forall ns d i, ns <> [] -> (swalk wr f d ns = inr i <-> safely trusted f d ns i /\ wr && is_dir f i = false).
  Proof.
    induction ns as [|n ns IH]; intros d i NE; [easy|]. cbn [swalk]. split.
    - destruct (lookup f d n) as [|s] eqn:LK; [discriminate|]. destruct (inodes f s) as [x|] eqn:X; [|discriminate].
      destruct (resolve f true d n) as [|j] eqn:R; [discriminate|]. destruct (inodes f j) as [y|] eqn:Y; [|discriminate].
      destruct ns as [|n' ns].
      + destruct (wr && is_dir f j) eqn:WD; [discriminate|]. destruct (accb x y) eqn:A; [|discriminate].
        cbn. intros H; injection H as <-. split; auto. eapply safely_step; eauto; [now apply accb_iff|constructor].
      + destruct (accb x y) eqn:A; [|discriminate]. intros H. apply IH in H as [H1 H2]; [|easy].
        split; auto. eapply safely_step; eauto. now apply accb_iff.
    - intros [S WD]. inversion S as [|? ? seen x j y ? ? LK X R Y A S']; subst. rewrite LK, X, R, Y.
      apply accb_iff in A. rewrite A. destruct ns as [|n' ns].
      + inversion S'; subst. now rewrite WD.
      + apply IH; [easy|]. auto.
  Qed.

  Lemma swalk_app wr f n : forall ns d, swalk wr f d (ns ++ [n]) = match swalk false f d ns with inl e => inl e | inr j => swalk wr f j [n] end.
  Proof.
    induction ns as [|m ns IH]; intros d; [reflexivity|]. cbn [app]. cbn [swalk].
    destruct (lookup f d m) as [|s]; auto. destruct (inodes f s) as [x|]; auto.
    destruct (resolve f true d m) as [|j]; auto. destruct (inodes f j) as [y|]; auto.
    replace (match ns ++ [n] with [] => wr && is_dir f j | _ => false end) with false by (destruct ns; auto).
    replace (match ns with [] => false && is_dir f j | _ => false end) with false by (destruct ns; auto).
    destruct (accb x y); auto.
  Qed.

  (** the result of a loop that stops: the error, or the file *)
  Definition ends (x : res (world * (errno + nat))) (a : list (nat * nat)) (f : fs) (e : errno) : Prop :=
    exists w', x = Ok (w', inl e) /\ wf_fds w' /\ fds w' = a /\ wfs w' = f.

  Lemma q_close_fail w a k d f e : wf_fds w -> fds w = a ++ [(k, d)] -> wfs w = f -> ends (let* w := sys_close w k in Ok (w, inl e)) a f e.
  Proof.
    intros WF FD FS. destruct (@close_mid _ a k d [] WF FD) as (w2 & -> & WF2 & F2 & N2 & L2 & S2). cbn [bind]. rewrite app_nil_r in F2.
    exists w2. repeat (split; auto). congruence.
  Qed.

  Lemma q_mid fuel path w a cur d comp rest orig perms :
    next_component path = (comp, Some rest, []) -> comp <> [] -> plain comp ->
    wf_fds w -> fds w = a ++ [(cur, d)] ->
    match swalk false (wfs w) d [comp] with
    | inl e => ends (components_loop E (S fuel) w cur path orig perms) a (wfs w) e
    | inr j => exists w' k, components_loop E (S fuel) w cur path orig perms = components_loop E fuel w' k rest orig perms
                 /\ wf_fds w' /\ fds w' = a ++ [(k, j)] /\ wfs w' = wfs w /\ nextfd w <= k
    end.
  Proof.
    intros NC NE P WF FD. cbn [components_loop]. rewrite NC.
    destruct (@q_fstatat w a cur d [] comp WF FD NE P) as (w1 & -> & ST). cbn [bind].
    pose proof (still_wf ST WF) as WF1. destruct ST as (S1 & S2 & S3). rewrite FD in S2.
    unfold stat_result. cbn [swalk]. destruct (lookup (wfs w) d comp) as [e|s]; [apply q_close_fail with (d := d); auto|].
    destruct (inodes (wfs w) s) as [x|] eqn:X; [|apply q_close_fail with (d := d); auto].
    destruct (@q_openat w1 a cur d [] comp RDONLY 0 WF1 S2) as (w2 & r & -> & C); auto. cbn [bind].
    rewrite S1 in C. unfold open_result in C. cbn [O_WR RDONLY andb] in *.
    destruct (resolve (wfs w) true d comp) as [e|j].
    { destruct C as [-> ST]. pose proof (still_wf ST WF1) as WF2. destruct ST as (T1 & T2 & T3). rewrite S2 in T2.
      destruct (@close_mid _ a cur d [] WF2 T2) as (w3 & -> & WF3 & F3 & N3 & L3 & S4). cbn [bind]. rewrite app_nil_r in F3.
      exists w3. split; auto. split; auto. split; auto. congruence. }
    destruct (inodes (wfs w) j) as [y|] eqn:Y.
    2:{ destruct C as [-> ST]. pose proof (still_wf ST WF1) as WF2. destruct ST as (T1 & T2 & T3). rewrite S2 in T2.
      destruct (@close_mid _ a cur d [] WF2 T2) as (w3 & -> & WF3 & F3 & N3 & L3 & S4). cbn [bind]. rewrite app_nil_r in F3.
      exists w3. split; auto. split; auto. split; auto. congruence. }
    destruct C as (k & -> & O). pose proof (opened_wf O WF1) as WF2. destruct O as (T1 & T2 & T3 & T4).
    rewrite S2, <- app_assoc in T2. cbn [app] in T2.
    destruct (@close_mid _ a cur d [(k, j)] WF2 T2) as (w3 & -> & WF3 & F3 & N3 & L3 & S4). cbn [bind].
    assert (Y3 : inodes (wfs w3) j = Some y) by (rewrite S4, T1, S1; auto).
    destruct (@q_verify w3 a k j x y WF3 F3 Y3) as (w4 & WF4 & S5 & N5 & V).
    destruct (accb x y); destruct V as [-> F4]; cbn [bind].
    - exists w4, k. split; auto. split; auto. split; auto. split; [congruence|]. lia.
    - exists w4. split; auto. split; auto. split; auto. congruence.
  Qed.

  Lemma q_walk orig perms : forall fuel path w a cur d, length path < fuel -> path <> [] -> match path with [] => True | c :: _ => beq c SLASH = false end ->
    wf_fds w -> fds w = a ++ [(cur, d)] ->
    exists ns n sl, pieces path = ns ++ [n] /\ n <> [] /\ plain n /\ forallb (fun c => beq c SLASH) sl = true /\
      (ends_in_slash path = false -> sl = []) /\ (ends_in_slash path = true -> sl <> []) /\
      match swalk false (wfs w) d ns with
      | inl e => ends (components_loop E fuel w cur path orig perms) a (wfs w) e
      | inr j => exists w' k, components_loop E fuel w cur path orig perms = last_component E 3 w' k n sl orig perms
                   /\ wf_fds w' /\ fds w' = a ++ [(k, j)] /\ wfs w' = wfs w
      end.
  Proof.
    induction fuel as [|fuel IH]; intros path w a cur d LEN NE HD WF FD; [lia|].
    destruct (next_component path) as [[comp next] sl] eqn:NC.
    destruct (next_spec NE HD NC) as (CN & CF & SF & SPEC).
    destruct next as [rest|].
    - destruct SPEC as (RN & RH & -> & PC & RL & sl' & SF' & SN' & PE).
      pose proof (@q_mid fuel path w a cur d comp rest orig perms NC CN CF WF FD) as M.
      rewrite PC. assert (EE : ends_in_slash path = ends_in_slash rest) by (rewrite PE, app_assoc; now apply ends_app). rewrite EE.
      destruct (swalk false (wfs w) d [comp]) as [e|j] eqn:SW.
      + destruct (IH rest w a cur d) as (ns & n & sl & H1 & H2 & H3 & H4 & H5 & H6 & _); auto; [lia|].
        exists (comp :: ns), n, sl. rewrite H1. do 6 (split; auto).
        assert (W : swalk false (wfs w) d (comp :: ns) = inl e).
        { cbn [swalk] in SW |- *. destruct (lookup (wfs w) d comp); auto. destruct (inodes (wfs w) n0); auto.
          destruct (resolve (wfs w) true d comp); auto. destruct (inodes (wfs w) n1); auto.
          replace (match ns with [] => false && is_dir (wfs w) n1 | _ => false end) with false by (destruct ns; auto).
          cbn [andb] in SW. destruct (accb i i0); [discriminate|auto]. }
        rewrite W. exact M.
      + destruct M as (w' & k & -> & WF' & F' & S' & NK).
        destruct (IH rest w' a k j) as (ns & n & sl & H1 & H2 & H3 & H4 & H5 & H6 & H7); auto; [lia|].
        exists (comp :: ns), n, sl. rewrite H1. do 6 (split; auto). rewrite S' in H7.
        assert (W : swalk false (wfs w) d (comp :: ns) = swalk false (wfs w) j ns).
        { cbn [swalk] in SW |- *. destruct (lookup (wfs w) d comp); [discriminate|]. destruct (inodes (wfs w) n0); [|discriminate].
          destruct (resolve (wfs w) true d comp); [discriminate|]. destruct (inodes (wfs w) n1); [|discriminate].
          replace (match ns with [] => false && is_dir (wfs w) n1 | _ => false end) with false by (destruct ns; auto).
          cbn [andb] in SW. destruct (accb i i0); [congruence|discriminate]. }
        rewrite W. exact H7.
    - destruct SPEC as (PE & PC). exists [], comp, sl. rewrite PC. do 4 (split; auto).
      split; [rewrite PE; intros X; eapply end_sl; eauto|].
      split. { intros X ->. rewrite PE, app_nil_r in X. now rewrite plain_noslash_end in X. }
      cbn [swalk]. exists w, cur. cbn [components_loop]. rewrite NC. auto.
  Qed.

  Lemma q_last_exists attempts w a cur d comp sl orig perms s x :
    wf_fds w -> fds w = a ++ [(cur, d)] -> comp <> [] -> plain comp ->
    (O_TRUNC orig = true -> O_WR orig = true) ->
    lookup (wfs w) d comp = inr s -> inodes (wfs w) s = Some x ->
    if O_CREAT orig && O_EXCL orig then ends (last_component E attempts w cur comp sl orig perms) a (wfs w) EEXIST
    else match open_result (wfs w) d (comp ++ sl) (O_WR orig) with
         | inl e => ends (last_component E attempts w cur comp sl orig perms) a (wfs w)
                      (if O_CREAT orig && (match e with ENOENT => true | _ => false end) then EACCES else e)
         | inr j => exists y, inodes (wfs w) j = Some y /\
             if accb x y then exists w' k, last_component E attempts w cur comp sl orig perms = Ok (w', inr k) /\
                 wf_fds w' /\ fds w' = a ++ [(k, j)] /\ nextfd w <= k /\ after_open (O_TRUNC orig) (wfs w) j (wfs w')
             else ends (last_component E attempts w cur comp sl orig perms) a (wfs w) ENOLINK
         end.
  Proof.
    intros WF FD NE P TW LK X. revert w WF FD LK X.
    induction attempts as [|attempts IH]; intros w WF FD LK X.
    all: cbn [last_component].
    all: set (trunc := O_WR orig && O_TRUNC orig).
    all: assert (TR : trunc = O_TRUNC orig) by (unfold trunc; destruct (O_TRUNC orig); [rewrite TW; auto|apply andb_false_r]).
    all: set (fl := if trunc then _ else orig).
    all: assert (FT : O_TRUNC fl = false) by (unfold fl; rewrite TR; destruct (O_TRUNC orig) eqn:?; auto).
    all: assert (FC : O_CREAT fl = O_CREAT orig) by (unfold fl; destruct trunc; auto).
    all: assert (FE : O_EXCL fl = O_EXCL orig) by (unfold fl; destruct trunc; auto).
    all: assert (FW : O_WR fl = O_WR orig) by (unfold fl; destruct trunc; auto).
    all: clearbody fl.
    all: (destruct (@q_fstatat w a cur d [] comp WF FD NE P) as (w1 & -> & ST); cbn [bind]).
    all: unfold stat_result; rewrite LK, X.
    all: pose proof (still_wf ST WF) as WF1; destruct ST as (S1 & S2 & S3); rewrite FD in S2.
    all: rewrite FC, FE; destruct (O_CREAT orig && O_EXCL orig) eqn:CE; [apply q_close_fail with (d := d); auto|].
    all: set (fl' := mkFlags _ false _ _).
    all: (destruct (@q_openat w1 a cur d [] (comp ++ sl) fl' perms WF1 S2) as (w2 & r & -> & C); [reflexivity|exact FT|]; cbn [bind]).
    all: rewrite S1 in C; change (O_WR fl') with (O_WR fl) in C; rewrite FW in C.
    all: destruct (open_result (wfs w) d (comp ++ sl) (O_WR orig)) as [e|j] eqn:OR.
    2,4: (assert (HY : exists y, inodes (wfs w) j = Some y) by
       (unfold open_result in OR; destruct (resolve (wfs w) true d (comp ++ sl)); [discriminate|]; destruct (inodes (wfs w) n) eqn:Y; [|discriminate];
        destruct (O_WR orig && is_dir (wfs w) n); [discriminate|]; injection OR as <-; eauto);
      destruct HY as (y & Y); exists y; split; [exact Y|];
      destruct C as (k & -> & O); pose proof (opened_wf O WF1) as WF2; destruct O as (T1 & T2 & T3 & T4);
      rewrite S2, <- app_assoc in T2; cbn [app] in T2;
      destruct (@close_mid _ a cur d [(k, j)] WF2 T2) as (w3 & -> & WF3 & F3 & N3 & L3 & S4); cbn [bind];
      assert (Y3 : inodes (wfs w3) j = Some y) by (rewrite S4, T1, S1; auto);
      destruct (@q_verify w3 a k j x y WF3 F3 Y3) as (w4 & WF4 & S5 & N5 & V);
      destruct (accb x y); destruct V as [-> F4]; cbn [bind];
      [ assert (Y4 : inodes (wfs w4) j = Some y) by (rewrite S5; auto);
        destruct (@q_finish w4 a k j y trunc WF4 F4 Y4) as (w5 & -> & WF5 & F5 & N6 & AO);
        exists w5, k; split; [auto|]; split; [auto|]; split; [auto|]; split; [lia|];
        rewrite <- TR; replace (wfs w) with (wfs w4) by congruence; exact AO
      | exists w4; split; [auto|]; split; [auto|]; split; [auto|]; congruence ]).
    all: destruct C as [-> ST]; pose proof (still_wf ST WF1) as WF2; destruct ST as (T1 & T2 & T3); rewrite S2 in T2.
    all: destruct (O_CREAT orig && match e with ENOENT => true | _ => false end) eqn:RT; [|apply q_close_fail with (d := d); auto; congruence].
    - apply q_close_fail with (d := d); auto; congruence.
    - assert (W2 : wfs w2 = wfs w) by congruence. specialize (IH w2 WF2 T2). rewrite W2 in IH.
      specialize (IH LK X). rewrite OR, RT in IH. exact IH.
  Qed.
End Quiet.
