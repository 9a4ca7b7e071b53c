(** Proofs about SafeModel.v, V: safe_open when nobody else is at work, creation and the theorems. *)
From Verif Require Import Prelude PreludeFacts Str StrFacts Libc LibcFacts FsModel SafeModel SafeSpec SafeProofs SafeProofs2 SafeProofs3 SafeProofs4.
Set Implicit Arguments.

Section Quiet.
  Variable E : environment.
  Hypothesis Q : quiet E.
  Notation trusted := (fun u : Z => u = 0%Z \/ u = p_uid E).

  Lemma q_last_missing attempts w a cur d comp sl orig perms e :
    wf_fds w -> fds w = a ++ [(cur, d)] -> comp <> [] -> plain comp ->
    stat_result (wfs w) d comp = inl e -> e <> ENOENT \/ O_CREAT orig = false ->
    ends (last_component E attempts w cur comp sl orig perms) a (wfs w) e.
  Proof.
    intros WF FD NE P SR C.
    destruct attempts; cbn [last_component];
      (destruct (@q_fstatat E Q w a cur d [] comp WF FD NE P) as (w1 & -> & ST); cbn [bind]; rewrite SR;
       pose proof (still_wf ST WF) as WF1; destruct ST as (S1 & S2 & S3); rewrite FD in S2;
       set (fl := if O_WR orig && O_TRUNC orig then _ else orig);
       assert (FC : O_CREAT fl = O_CREAT orig) by (unfold fl; destruct (O_WR orig && O_TRUNC orig); auto); rewrite FC;
       replace (match e with ENOENT => true | _ => false end && O_CREAT orig) with false
         by (destruct C as [C| ->]; [destruct e; easy|now rewrite andb_false_r]);
       apply q_close_fail with (d := d); auto).
  Qed.

  Lemma assoc_cons (n m : name) i (es : list (name * nat)) : assoc ((n, i) :: es) m = if bytes_eqb n m then Some i else assoc es m.
  Proof. reflexivity. Qed.

  Lemma q_last_new attempts w a cur d comp orig perms :
    wf_fds w -> fds w = a ++ [(cur, d)] -> comp <> [] -> plain comp ->
    O_CREAT orig = true -> (O_TRUNC orig = true -> O_WR orig = true) ->
    lookup (wfs w) d comp = inl ENOENT -> is_dir (wfs w) d = true -> inodes (wfs w) (nextino (wfs w)) = None ->
    exists w' k, last_component E attempts w cur comp [] orig perms = Ok (w', inr k) /\
      wf_fds w' /\ fds w' = a ++ [(k, nextino (wfs w))] /\
      new_file_in (wfs w) d comp (euid E) (egid E) perms (nextino (wfs w)) (wfs w').
  Proof.
    intros WF FD NE P CR TW LK DI FR.
    assert (SR : stat_result (wfs w) d comp = inl ENOENT) by (unfold stat_result; now rewrite LK).
    assert (ND : bytes_eqb comp DOT = false).
    { unfold lookup in LK. unfold is_dir in DI. destruct (inodes (wfs w) d) as [[[] ? ? ?]|]; try discriminate.
      destruct (bytes_eqb comp DOT); [discriminate|auto]. }
    unfold is_dir in DI. destruct (inodes (wfs w) d) as [[[es| | | |] u g p]|] eqn:ID; try discriminate. clear DI.
    assert (DN : d <> nextino (wfs w)) by congruence.
    destruct attempts; cbn [last_component];
      (destruct (@q_fstatat E Q w a cur d [] comp WF FD NE P) as (w1 & -> & ST); cbn [bind]; rewrite SR;
       pose proof (still_wf ST WF) as WF1; destruct ST as (S1 & S2 & S3); rewrite FD in S2;
       set (fl := if O_WR orig && O_TRUNC orig then _ else orig);
       assert (FC : O_CREAT fl = true) by (unfold fl; destruct (O_WR orig && O_TRUNC orig); auto); rewrite FC; cbn [andb massert];
       unfold sys_openat, enter; rewrite (proj1 Q), (proj2 Q); set (w2 := mkWorld _ _ _ _ _);
       assert (I : inode_of w2 (Fd cur) = Ok d) by (cbn; rewrite S2, find_mid; auto; rewrite <- S2; apply WF1);
       rewrite I; cbn [bind O_CREAT O_EXCL]; rewrite app_nil_r; change (wfs w2) with (wfs w1); rewrite S1;
       rewrite resolve_plain_no by auto; rewrite LK; rewrite plain_names by auto; rewrite plain_noslash_end by auto;
       unfold open_new; change (wfs w2) with (wfs w1); rewrite S1, ID, FR; cbn [record with_fs new_fd bind];
       set (w3 := mkWorld _ _ _ _ _);
       assert (F3 : fds w3 = a ++ (cur, d) :: [(nextfd w1, nextino (wfs w))]) by (cbn; rewrite S2, <- app_assoc; reflexivity);
       assert (WF3 : wf_fds w3) by
         (apply (@gained_wf w1 w3 (nextfd w1) (nextino (wfs w)) [Created d comp (nextino (wfs w))]); [|exact WF1];
          repeat split);
       destruct (@close_mid _ a cur d _ WF3 F3) as (w4 & C4 & WF4 & F4 & N4 & L4 & S4);
       change (nextfd _) with (nextfd w1) in C4 |- *; rewrite C4; cbn [bind finish_open];
       exists w4, (nextfd w1); split; [reflexivity|]; split; [auto|]; split; [exact F4|];
       rewrite S4; cbn [wfs w3]).
    all: (split; [reflexivity|]; split; [reflexivity|]; split; [exact FR|];
      assert (X1 : (nextino (wfs w) =? d) = false) by (apply Nat.eqb_neq; congruence);
      assert (X2 : (d =? d) = true) by apply Nat.eqb_refl;
      split; [cbn -[Nat.eqb]; rewrite X1, Nat.eqb_refl; reflexivity|];
      split; [unfold lookup; cbn -[bytes_eqb Nat.eqb]; rewrite X2, ND, assoc_cons, bytes_eqb_refl; reflexivity|];
      split; [intros m NM; unfold lookup; cbn -[bytes_eqb Nat.eqb]; rewrite X2, ID; destruct (bytes_eqb m DOT); auto; rewrite assoc_cons;
              replace (bytes_eqb comp m) with false; auto; symmetry; apply bytes_eqb_neq; congruence|];
      split; [exists es, ((comp, nextino (wfs w)) :: es), u, g, p; split; auto; cbn -[Nat.eqb]; now rewrite X2|];
      intros k K1 K2; cbn -[Nat.eqb]; apply Nat.eqb_neq in K1, K2; now rewrite K2, K1).
  Qed.

  Lemma safely_app f d ns j ms k : safely trusted f d ns j -> safely trusted f j ms k -> safely trusted f d (ns ++ ms) k.
  Proof. induction 1; cbn [app]; auto. intros. eapply safely_step; eauto. Qed.
  Lemma safely_split f ns ms : forall d k, safely trusted f d (ns ++ ms) k -> exists j, safely trusted f d ns j /\ safely trusted f j ms k.
  Proof.
    induction ns as [|n ns IH]; intros d k S; [exists d; split; [constructor|auto]|].
    cbn [app] in S. inversion S as [|? ? ? ? ? ? ? ? ? ? ? ? ? S2]; subst. destruct (IH _ _ S2) as (j' & A & B). exists j'. split; auto. eapply safely_step; eauto.
  Qed.
  Lemma swalk_safely f d ns j : swalk E false f d ns = inr j <-> safely trusted f d ns j.
  Proof.
    destruct ns as [|n ns].
    - cbn. split; [intros X; injection X as <-; constructor|]. inversion 1; auto.
    - rewrite swalk_iff by easy. cbn [andb]. tauto.
  Qed.


  Lemma q_start w path : is_dir (wfs w) (rootdir (wfs w)) = true -> is_dir (wfs w) (cwd (wfs w)) = true ->
    exists w1 k, sys_openat E w AT_FDCWD (if absolute path then [SLASH] else DOT) RDONLY 0 = Ok (w1, inr k) /\ opened w w1 k (start (wfs w) path).
  Proof.
    intros DR DC. destruct (@q_openat_gen E Q w AT_FDCWD (cwd (wfs w)) (if absolute path then [SLASH] else DOT) RDONLY 0) as (w1 & r & -> & C); auto.
    unfold open_result in C. cbn [O_WR RDONLY andb] in C. unfold start. exists w1.
    destruct (absolute path).
    - change (resolve (wfs w) true (cwd (wfs w)) [SLASH]) with (@inr errno nat (rootdir (wfs w))) in C. unfold is_dir in DR.
      destruct (inodes (wfs w) (rootdir (wfs w))) eqn:I; [|discriminate]. cbv iota in C. try rewrite I in C. destruct C as (k & -> & O). eauto.
    - assert (R : resolve (wfs w) true (cwd (wfs w)) DOT = inr (cwd (wfs w))).
      { rewrite resolve_names by easy. change (path_names DOT) with [DOT]. rewrite walk_eq, lookup_dot. unfold is_dir in DC.
        destruct (inodes (wfs w) (cwd (wfs w))) as [[[] ? ? ?]|] eqn:I; try discriminate. now rewrite I, walk_nil. }
      rewrite R in C. unfold is_dir in DC. destruct (inodes (wfs w) (cwd (wfs w))) eqn:I; [|discriminate]. cbv iota in C. try rewrite I in C. destruct C as (k & -> & O). eauto.
  Qed.

  (** safe_open comes down to opening the last component *)
  Lemma q_open w path fl perms : wf_fds w -> is_dir (wfs w) (rootdir (wfs w)) = true -> is_dir (wfs w) (cwd (wfs w)) = true ->
    path <> [] -> (O_TRUNC fl = true -> O_WR fl = true) ->
    let f := wfs w in
    (pieces path = [] /\ exists w1 k, safe_open_create_perms E w path fl perms = Ok (w1, inr k) /\ opened w w1 k (start f path))
    \/ exists ns n sl, pieces path = ns ++ [n] /\ n <> [] /\ plain n /\ forallb (fun c => beq c SLASH) sl = true /\
      (ends_in_slash path = false -> sl = []) /\ (ends_in_slash path = true -> sl <> []) /\
      match swalk E false f (start f path) ns with
      | inl e => ends (safe_open_create_perms E w path fl perms) (fds w) f e
      | inr j => exists w' k, safe_open_create_perms E w path fl perms = last_component E 3 w' k n sl fl perms
                   /\ wf_fds w' /\ fds w' = fds w ++ [(k, j)] /\ wfs w' = f
      end.
  Proof.
    intros WF DR DC NE TW. cbn zeta. unfold safe_open_create_perms.
    replace (negb (O_TRUNC fl) || O_WR fl) with true by (destruct (O_TRUNC fl); [rewrite TW|]; auto). cbn [massert].
    destruct path as [|c t]; [easy|]. set (path := c :: t) in *. set (p := if absolute path then drop_slashes path else path).
    assert (PP : pieces p = pieces path) by (unfold p; destruct (absolute path); [apply pieces_drop|reflexivity]).
    assert (PH : match p with [] => True | c :: _ => beq c SLASH = false end).
    { unfold p. destruct (absolute path) eqn:AB; [apply drop_head|exact AB]. }
    assert (PE2 : p <> [] -> ends_in_slash path = ends_in_slash p).
    { unfold p. destruct (absolute path); auto. unfold drop_slashes. destruct (span _ path) as [u v] eqn:SP. apply span_eq in SP as (-> & _).
      cbn [snd]. intros. now apply ends_app. }
    destruct (q_start w path DR DC) as (w1 & k & -> & O). cbn [bind].
    pose proof (opened_wf O WF) as WF1. destruct O as (S1 & F1 & N1 & K1).
    assert (PE : p = [] \/ p <> []) by (destruct p; [now left|now right]).
    destruct PE as [PE|PE].
    - left. rewrite <- PP, PE. split; auto. exists w1, k. split; auto. repeat split; auto.
    - right. replace (match p with [] => Ok (w1, inr k) | _ :: _ => components_loop E (S (length p)) w1 k p fl perms end)
        with (components_loop E (S (length p)) w1 k p fl perms) by (destruct p; [easy|reflexivity]).
      destruct (@q_walk E Q fl perms (S (length p)) p w1 (fds w) k (start (wfs w) path)) as (ns & n & sl & H1 & H2 & H3 & H4 & H5 & H6 & H7); auto.
      exists ns, n, sl. rewrite <- PP, PE2 by auto. do 6 (split; auto). rewrite S1 in H7. exact H7.
  Qed.

  Lemma resolve1 f d n : n <> [] -> plain n -> resolve f true d n = walk MAXLINKS f true d [n].
  Proof. intros NE P. rewrite resolve_names; auto; [now rewrite plain_names|]. rewrite <- (app_nil_r n). now apply plain_abs. Qed.
  Lemma names_slash n sl : n <> [] -> plain n -> forallb (fun c => beq c SLASH) sl = true -> sl <> [] -> path_names (n ++ sl) = [n; DOT].
  Proof.
    intros NE P S SN. unfold path_names.
    assert (PI : pieces (n ++ sl) = [n]).
    { destruct sl as [|c sl]; [easy|]. cbn in S. apply andb_true_iff in S as [C S]. apply slash_beq in C as ->.
      unfold pieces. rewrite split_app_slash by auto. destruct n; [easy|]. cbn [filter nonempty]. f_equal.
      change (filter nonempty (split_slash sl)) with (pieces sl). rewrite <- (app_nil_r sl). rewrite pieces_slashes; auto. }
    rewrite PI. rewrite ends_app by auto. destruct sl as [|c sl _] using rev_ind; [easy|]. rewrite ends_snoc.
    rewrite forallb_app in S. apply andb_true_iff in S as [_ S]. cbn in S. rewrite andb_true_r in S. now rewrite S.
  Qed.
  Lemma lookup_dot_dir f j : is_dir f j = true -> lookup f j DOT = inr j.
  Proof. rewrite lookup_dot. unfold is_dir. destruct (inodes f j) as [[[] ? ? ?]|]; easy. Qed.
  Lemma lookup_dot_inv f j k : lookup f j DOT = inr k -> k = j /\ is_dir f j = true.
  Proof. rewrite lookup_dot. unfold is_dir. destruct (inodes f j) as [[[] ? ? ?]|]; try discriminate. intros X; injection X as <-. auto. Qed.
  Lemma resolve_dot f j : is_dir f j = true -> resolve f true j DOT = inr j.
  Proof.
    intros D. rewrite resolve1 by (easy || reflexivity). rewrite walk_eq, lookup_dot_dir by auto. unfold is_dir in D.
    destruct (inodes f j) as [[[] ? ? ?]|] eqn:I; try discriminate. apply walk_nil.
  Qed.

  Theorem q_safe_open w path fl perms : wf_fds w -> is_dir (wfs w) (rootdir (wfs w)) = true -> is_dir (wfs w) (cwd (wfs w)) = true ->
    path <> [] -> (O_TRUNC fl = true -> O_WR fl = true) -> O_CREAT fl = false -> (pieces path = [] -> O_WR fl = false) ->
    exists w' r, safe_open_create_perms E w path fl perms = Ok (w', r) /\
      match r with
      | inr fd => exists i, safely trusted (wfs w) (start (wfs w) path) (path_names path) i /\ O_WR fl && is_dir (wfs w) i = false /\
                    wf_fds w' /\ fds w' = fds w ++ [(fd, i)] /\ after_open (O_TRUNC fl) (wfs w) i (wfs w')
      | inl e => fds w' = fds w /\ wfs w' = wfs w /\
                 ~ exists i, safely trusted (wfs w) (start (wfs w) path) (path_names path) i /\ O_WR fl && is_dir (wfs w) i = false
      end.
  Proof.
    intros WF DR DC NE TW CR PW.
    destruct (@q_open w path fl perms WF DR DC NE TW) as [(P0 & w1 & k & -> & O)|(ns & n & sl & PN & NN & P & SF & ES1 & ES2 & R)].
    { exists w1, (inr k). split; auto. pose proof (opened_wf O WF) as WF1. destruct O as (S1 & F1 & _ & _). exists (start (wfs w) path). unfold path_names. rewrite P0.
      split; [constructor|]. split; [now rewrite PW|]. split; auto. split; auto.
      assert (T : O_TRUNC fl = false). { specialize (PW P0). destruct (O_TRUNC fl); auto. rewrite TW in PW; auto. }
      rewrite T, S1. do 4 (split; auto). intros k'. destruct (Nat.eqb_spec k' (start (wfs w) path)) as [->|]; auto.
      now destruct (inodes (wfs w) (start (wfs w) path)). }
    set (f := wfs w) in *. set (d0 := start f path) in *.
    set (wr := O_WR fl) in *.
    assert (NAMES : path_names path = ns ++ (if ends_in_slash path then [n; DOT] else [n])).
    { unfold path_names. rewrite PN. destruct (ns ++ [n]) eqn:X; [destruct ns; discriminate|]. rewrite <- X.
      destruct (ends_in_slash path); auto. now rewrite <- app_assoc. }
    rewrite NAMES.
    assert (FAIL : forall x e, ends x (fds w) f e ->
       (~ exists i, safely trusted f d0 (ns ++ (if ends_in_slash path then [n; DOT] else [n])) i /\ wr && is_dir f i = false) ->
       exists w' r, x = Ok (w', r) /\ match r with
         | inr fd => exists i, safely trusted f d0 (ns ++ (if ends_in_slash path then [n; DOT] else [n])) i /\ wr && is_dir f i = false /\
             wf_fds w' /\ fds w' = fds w ++ [(fd, i)] /\ after_open (O_TRUNC fl) f i (wfs w')
         | inl e => fds w' = fds w /\ wfs w' = f /\
             ~ exists i, safely trusted f d0 (ns ++ (if ends_in_slash path then [n; DOT] else [n])) i /\ wr && is_dir f i = false
         end).
    { intros x e (w' & -> & WF' & F' & S') N. exists w', (inl e). auto. }
    destruct (swalk E false f d0 ns) as [e|j] eqn:SW.
    { eapply FAIL; eauto. intros (i & S & _). apply safely_split in S as (j & S & _). apply swalk_safely in S. congruence. }
    apply swalk_safely in SW. destruct R as (w' & k & -> & WF' & F' & S').
    (* what is safe about the last component *)
    assert (LAST : forall i, safely trusted f d0 (ns ++ (if ends_in_slash path then [n; DOT] else [n])) i ->
        exists s x y, lookup f j n = inr s /\ inodes f s = Some x /\ resolve f true j n = inr i /\ inodes f i = Some y /\ acceptable trusted (stat_of x) (stat_of y)
           /\ (ends_in_slash path = true -> is_dir f i = true)).
    { intros i S. apply safely_split in S as (j' & S1 & S2). rewrite (safely_fun S1 SW) in S2.
      destruct (ends_in_slash path); inversion S2 as [|? ? s x i' y ? ? LK X RR Y A S3]; subst.
      - inversion S3 as [|? ? ? ? ? ? ? ? LK2 ? RR2 ? ? S4]; subst. inversion S4; subst. apply lookup_dot_inv in LK2 as [-> D].
        rewrite resolve_dot in RR2 by auto. injection RR2 as ->. exists s, x, y. repeat (split; auto).
      - inversion S3; subst. exists s, x, y. repeat (split; auto). discriminate. }
    assert (STAT : exists e, stat_result f j n = inl e \/ exists s x, lookup f j n = inr s /\ inodes f s = Some x).
    { unfold stat_result. destruct (lookup f j n) as [e|s] eqn:LK; [exists e; auto|]. destruct (inodes f s) as [x|] eqn:X; [|exists EIO; auto].
      exists EIO. right. eauto. }
    destruct STAT as [e [SR|(s & x & LK & X)]].
    { apply (FAIL _ e).
      - pose proof (@q_last_missing 3 w' (fds w) k j n sl fl perms e WF' F' NN P) as M. rewrite S' in M. apply M; auto.
      - intros (i & S & _). apply LAST in S as (s & x & y & LK & X & _). unfold stat_result in SR. rewrite LK, X in SR. discriminate. }
    pose proof (@q_last_exists E Q 3 w' (fds w) k j n sl fl perms s x WF' F' NN P TW) as L. rewrite S' in L. specialize (L LK X).
    rewrite CR in L. cbn [andb] in L. fold wr in L.
    assert (OR : open_result f j (n ++ sl) wr = match resolve f true j n with
              | inl e => inl e
              | inr i => match (if ends_in_slash path then lookup f i DOT else inr i) with
                         | inl e => inl e
                         | inr i => match inodes f i with None => inl EIO | Some _ => if wr && is_dir f i then inl EISDIR else inr i end end end).
    { unfold open_result. destruct (ends_in_slash path).
      - rewrite resolve_names; [|intros X'; apply app_eq_nil in X'; tauto|now apply plain_abs].
        rewrite names_slash by auto. change [n; DOT] with ([n] ++ [DOT]). rewrite walk_dot, <- resolve1 by auto.
        destruct (resolve f true j n); auto.
      - rewrite ES1 by auto. rewrite app_nil_r. destruct (resolve f true j n); auto. }
    destruct (open_result f j (n ++ sl) wr) as [e2|i] eqn:O.
    { eapply FAIL; eauto. intros (i & S & W). apply LAST in S as (s' & x' & y & _ & _ & RR & Y & _ & D).
      rewrite RR in OR. destruct (ends_in_slash path).
      - rewrite lookup_dot_dir in OR by auto. rewrite Y, W in OR. discriminate.
      - rewrite Y, W in OR. discriminate. }
    assert (OK : resolve f true j n = inr i /\ wr && is_dir f i = false /\ (ends_in_slash path = true -> is_dir f i = true)).
    { destruct (resolve f true j n) as [|i']; [discriminate|]. destruct (ends_in_slash path).
      - destruct (lookup f i' DOT) eqn:LD; [discriminate|]. apply lookup_dot_inv in LD as [-> D]. destruct (inodes f i'); [|discriminate].
        destruct (wr && is_dir f i') eqn:W; [discriminate|]. injection OR as <-. auto.
      - destruct (inodes f i'); [|discriminate]. destruct (wr && is_dir f i') eqn:W; [discriminate|]. injection OR as <-. repeat (split; auto). discriminate. }
    destruct OK as (RR & W & D). destruct L as (y & Y & L). destruct (accb E x y) eqn:A.
    - destruct L as (w2 & k2 & -> & WF2 & F2 & N2 & AO). exists w2, (inr k2). split; auto. exists i.
      apply accb_iff in A.
      split; [|split; [auto|split; [auto|split; auto]]].
      eapply safely_app; [exact SW|]. destruct (ends_in_slash path).
      + eapply safely_step; eauto. eapply safely_step; [apply lookup_dot_dir; auto|exact Y|apply resolve_dot; auto|exact Y| |constructor].
        right. split; reflexivity.
      + eapply safely_step; eauto. constructor.
    - eapply FAIL; eauto. intros (i' & S & _). apply LAST in S as (s' & x' & y' & LK' & X' & RR' & Y' & A' & _).
      apply accb_iff in A'. congruence.
  Qed.

  Lemma q_reach w path fl perms ns n j : wf_fds w -> is_dir (wfs w) (rootdir (wfs w)) = true -> is_dir (wfs w) (cwd (wfs w)) = true ->
    (O_TRUNC fl = true -> O_WR fl = true) ->
    pieces path = ns ++ [n] -> ends_in_slash path = false -> safely trusted (wfs w) (start (wfs w) path) ns j ->
    n <> [] /\ plain n /\
    exists w' k, safe_open_create_perms E w path fl perms = last_component E 3 w' k n [] fl perms
                   /\ wf_fds w' /\ fds w' = fds w ++ [(k, j)] /\ wfs w' = wfs w.
  Proof.
    intros WF DR DC TW PN ES S.
    assert (NE : path <> []) by (intros ->; destruct ns; discriminate).
    destruct (@q_open w path fl perms WF DR DC NE TW) as [(P0 & _)|(ns' & n' & sl & PN' & NN & P & SF & ES1 & _ & R)].
    { rewrite P0 in PN. destruct ns; discriminate. }
    rewrite PN in PN'. apply app_inj_tail in PN' as [<- <-]. rewrite (ES1 ES) in R.
    apply swalk_safely in S. rewrite S in R. auto.
  Qed.

  Lemma swalk_untrusted f n s x j y rest : forall ns d0 d,
    safely trusted f d0 ns d -> lookup f d n = inr s -> inodes f s = Some x -> resolve f true d n = inr j -> inodes f j = Some y ->
    ~ acceptable trusted (stat_of x) (stat_of y) -> swalk E false f d0 (ns ++ n :: rest) = inl ENOLINK.
  Proof.
    intros ns d0 d S LK X R Y NA. assert (A : accb E x y = false).
    { destruct (accb E x y) eqn:A; auto. apply accb_iff in A. tauto. }
    induction S as [|d0 m s' x' j' y' ns k LK' X' R' Y' A' S IH]; cbn [app].
    - cbn [swalk]. rewrite LK, X, R, Y, A. now destruct rest.
    - cbn [swalk]. rewrite LK', X', R', Y'. apply accb_iff in A'. rewrite A'.
      replace (match ns ++ n :: rest with [] => false && is_dir f j' | _ => false end) with false by (destruct ns; auto). auto.
  Qed.

  Theorem q_untrusted w path fl perms ns n rest d s x j y : wf_fds w -> is_dir (wfs w) (rootdir (wfs w)) = true -> is_dir (wfs w) (cwd (wfs w)) = true ->
    (O_TRUNC fl = true -> O_WR fl = true) -> O_CREAT fl && O_EXCL fl = false ->
    pieces path = ns ++ n :: rest -> ends_in_slash path = false -> (rest = [] -> O_WR fl && is_dir (wfs w) j = false) ->
    safely trusted (wfs w) (start (wfs w) path) ns d ->
    lookup (wfs w) d n = inr s -> inodes (wfs w) s = Some x -> resolve (wfs w) true d n = inr j -> inodes (wfs w) j = Some y ->
    ~ acceptable trusted (stat_of x) (stat_of y) ->
    ends (safe_open_create_perms E w path fl perms) (fds w) (wfs w) ENOLINK.
  Proof.
    intros WF DR DC TW CE PN ES WD S LK X R Y NA.
    destruct rest as [|m rest _] using rev_ind.
    - 
      destruct (@q_reach w path fl perms ns n d) as (NN & P & w' & k & -> & WF' & F' & S'); auto.
      pose proof (@q_last_exists E Q 3 w' (fds w) k d n [] fl perms s x WF' F' NN P TW) as L. rewrite S' in L. specialize (L LK X).
      rewrite CE in L. rewrite app_nil_r in L. unfold open_result in L. rewrite R, Y, (WD eq_refl) in L. destruct L as (y' & Y' & L).
      assert (A : accb E x y' = false).
      { destruct (accb E x y') eqn:A; auto. apply accb_iff in A. congruence. }
      now rewrite A in L.
    - assert (NE : path <> []) by (intros ->; destruct ns; discriminate).
      destruct (@q_open w path fl perms WF DR DC NE TW) as [(P0 & _)|(ns' & n' & sl & PN' & NN & P & SF & ES1 & _ & RR)].
      { rewrite P0 in PN. destruct ns; discriminate. }
      rewrite PN in PN'. replace (ns ++ n :: rest ++ [m]) with ((ns ++ n :: rest) ++ [m]) in PN' by (now rewrite <- app_assoc).
      apply app_inj_tail in PN' as [<- <-]. rewrite (@swalk_untrusted (wfs w) n s x j y rest ns _ d) in RR; auto.
  Qed.

  Theorem q_create w path fl perms ns n d : wf_fds w -> is_dir (wfs w) (rootdir (wfs w)) = true -> is_dir (wfs w) (cwd (wfs w)) = true ->
    (O_TRUNC fl = true -> O_WR fl = true) -> O_CREAT fl = true ->
    pieces path = ns ++ [n] -> ends_in_slash path = false -> safely trusted (wfs w) (start (wfs w) path) ns d ->
    lookup (wfs w) d n = inl ENOENT -> is_dir (wfs w) d = true -> inodes (wfs w) (nextino (wfs w)) = None ->
    exists w' fd i, safe_open_create_perms E w path fl perms = Ok (w', inr fd) /\ fds w' = fds w ++ [(fd, i)] /\
      new_file_in (wfs w) d n (euid E) (egid E) perms i (wfs w').
  Proof.
    intros WF DR DC TW CR PN ES S LK D FR.
    destruct (@q_reach w path fl perms ns n d) as (NN & P & w' & k & -> & WF' & F' & S'); auto.
    rewrite <- S' in LK, D, FR.
    destruct (@q_last_new 3 w' (fds w) k d n fl perms WF' F' NN P CR TW LK D FR) as (w2 & k2 & -> & WF2 & F2 & N2).
    rewrite S' in F2, N2. eauto 10.
  Qed.

  Theorem q_exists_excl w path fl perms ns n d s x : wf_fds w -> is_dir (wfs w) (rootdir (wfs w)) = true -> is_dir (wfs w) (cwd (wfs w)) = true ->
    (O_TRUNC fl = true -> O_WR fl = true) -> O_CREAT fl = true -> O_EXCL fl = true ->
    pieces path = ns ++ [n] -> ends_in_slash path = false -> safely trusted (wfs w) (start (wfs w) path) ns d ->
    lookup (wfs w) d n = inr s -> inodes (wfs w) s = Some x ->
    ends (safe_open_create_perms E w path fl perms) (fds w) (wfs w) EEXIST.
  Proof.
    intros WF DR DC TW CR EX PN ES S LK X.
    destruct (@q_reach w path fl perms ns n d) as (NN & P & w' & k & -> & WF' & F' & S'); auto.
    pose proof (@q_last_exists E Q 3 w' (fds w) k d n [] fl perms s x WF' F' NN P TW) as L. rewrite S' in L. specialize (L LK X).
    now rewrite CR, EX in L.
  Qed.

  Theorem q_dangling w path fl perms ns n d s x : wf_fds w -> is_dir (wfs w) (rootdir (wfs w)) = true -> is_dir (wfs w) (cwd (wfs w)) = true ->
    (O_TRUNC fl = true -> O_WR fl = true) -> O_CREAT fl = true -> O_EXCL fl = false ->
    pieces path = ns ++ [n] -> ends_in_slash path = false -> safely trusted (wfs w) (start (wfs w) path) ns d ->
    lookup (wfs w) d n = inr s -> inodes (wfs w) s = Some x -> resolve (wfs w) true d n = inl ENOENT ->
    ends (safe_open_create_perms E w path fl perms) (fds w) (wfs w) EACCES.
  Proof.
    intros WF DR DC TW CR EX PN ES S LK X R.
    destruct (@q_reach w path fl perms ns n d) as (NN & P & w' & k & -> & WF' & F' & S'); auto.
    pose proof (@q_last_exists E Q 3 w' (fds w) k d n [] fl perms s x WF' F' NN P TW) as L. rewrite S' in L. specialize (L LK X).
    rewrite CR, EX in L. cbn [andb] in L. rewrite app_nil_r in L. unfold open_result in L. rewrite R in L. exact L.
  Qed.

  Theorem q_creat_existing w path fl perms ns n d s x j y : wf_fds w -> is_dir (wfs w) (rootdir (wfs w)) = true -> is_dir (wfs w) (cwd (wfs w)) = true ->
    (O_TRUNC fl = true -> O_WR fl = true) -> O_CREAT fl && O_EXCL fl = false ->
    pieces path = ns ++ [n] -> ends_in_slash path = false -> safely trusted (wfs w) (start (wfs w) path) ns d ->
    lookup (wfs w) d n = inr s -> inodes (wfs w) s = Some x -> resolve (wfs w) true d n = inr j -> inodes (wfs w) j = Some y ->
    acceptable trusted (stat_of x) (stat_of y) -> O_WR fl && is_dir (wfs w) j = false ->
    exists w' fd, safe_open_create_perms E w path fl perms = Ok (w', inr fd) /\ wf_fds w' /\ fds w' = fds w ++ [(fd, j)] /\
      after_open (O_TRUNC fl) (wfs w) j (wfs w').
  Proof.
    intros WF DR DC TW CE PN ES S LK X R Y A WD.
    destruct (@q_reach w path fl perms ns n d) as (NN & P & w' & k & -> & WF' & F' & S'); auto.
    pose proof (@q_last_exists E Q 3 w' (fds w) k d n [] fl perms s x WF' F' NN P TW) as L. rewrite S' in L. specialize (L LK X).
    rewrite CE in L. rewrite app_nil_r in L. unfold open_result in L. rewrite R, Y, WD in L. destruct L as (y' & Y' & L).
    assert (y' = y) by congruence. subst y'. apply accb_iff in A. rewrite A in L. destruct L as (w2 & k2 & -> & WF2 & F2 & _ & AO). eauto 10.
  Qed.
End Quiet.
