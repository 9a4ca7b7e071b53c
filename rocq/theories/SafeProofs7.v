(** Proofs about SafeModel.v, VII: dirname and basename; safe_chown and safe_lchown when nobody
    else is at work. *)
From Verif Require Import Prelude PreludeFacts Str StrFacts Libc LibcFacts FsModel SafeModel SafeSpec SafeProofs SafeProofs2 SafeProofs3 SafeProofs4 SafeProofs5.
Set Implicit Arguments.

Notation slashes l := (forallb (fun c => beq c SLASH) l = true).

Lemma split_nonnil p : split_slash p <> [].
Proof. induction p as [|c p IH]; cbn; [easy|]. destruct (beq c SLASH); [easy|]. destruct (split_slash p); easy. Qed.
Lemma split_app u v : split_slash (u ++ SLASH :: v) = split_slash u ++ split_slash v.
Proof.
  induction u as [|c u IH]; [reflexivity|]. cbn [app split_slash]. destruct (beq c SLASH); [now rewrite IH|].
  rewrite IH. pose proof (split_nonnil u). destruct (split_slash u); [easy|reflexivity].
Qed.
Lemma pieces_app u v : pieces (u ++ SLASH :: v) = pieces u ++ pieces v.
Proof. unfold pieces. now rewrite split_app, filter_app. Qed.
Lemma pieces_only l : slashes l -> pieces l = [].
Proof. intros S. rewrite <- (app_nil_r l), pieces_slashes by auto. reflexivity. Qed.
Lemma pieces_mid u sl v : slashes sl -> sl <> [] -> pieces (u ++ sl ++ v) = pieces u ++ pieces v.
Proof.
  destruct sl as [|c sl]; [easy|]. cbn [forallb app]. intros S _. apply andb_true_iff in S as [C S]. apply slash_beq in C as ->.
  rewrite pieces_app. f_equal. now apply pieces_slashes.
Qed.
Lemma pieces_tail u sl : slashes sl -> pieces (u ++ sl) = pieces u.
Proof.
  intros S. destruct sl as [|c sl]; [now rewrite app_nil_r|]. rewrite <- (app_nil_r (c :: sl)), pieces_mid; auto; [|easy].
  apply app_nil_r.
Qed.
Lemma forallb_rev (p : byte -> bool) l : forallb p (rev l) = forallb p l.
Proof. induction l; cbn; auto. rewrite forallb_app, IHl. cbn. rewrite andb_true_r. apply andb_comm. Qed.

Lemma rstrip_spec s : exists sl, slashes sl /\ s = rstrip s ++ sl /\ ends_in_slash (rstrip s) = false.
Proof.
  unfold rstrip, drop_slashes. destruct (span (fun c => beq c SLASH) (rev s)) as [a b] eqn:SP.
  apply span_eq in SP as (R & F & B). cbn [snd]. exists (rev a). rewrite forallb_rev. split; auto. split.
  - rewrite <- rev_app_distr, <- R. now rewrite rev_involutive.
  - destruct b as [|c b]; [reflexivity|]. cbn [rev]. now rewrite ends_snoc.
Qed.

Definition first_dir (path : list byte) : list byte := if absolute path then [SLASH] else DOT.
Lemma base_dir path ns n : pieces path = ns ++ [n] ->
  basename path = n /\ absolute (dirname path) = absolute path /\
  ((ns = [] /\ dirname path = first_dir path) \/ (ns <> [] /\ pieces (dirname path) = ns /\ ends_in_slash (dirname path) = false)).
Proof.
  intros PN. destruct (rstrip_spec path) as (sl & SS & PE & ES).
  assert (NE : path <> []) by (intros ->; destruct ns; discriminate).
  assert (PT : pieces (rstrip path) = ns ++ [n]) by (rewrite <- PN, PE at 1; rewrite PE at 2; rewrite pieces_tail; auto; now rewrite <- PE).
  set (t := rstrip path) in *.
  assert (TN : t <> []) by (intros X; rewrite X in PT; destruct ns; discriminate).
  assert (BT : basename path = rev (fst (span (fun c => negb (beq c SLASH)) (rev t)))).
  { unfold basename. fold t. destruct path; [easy|]. destruct t; [easy|reflexivity]. }
  assert (DT : dirname path = match snd (span (fun c => negb (beq c SLASH)) (rev t)) with
                  | [] => DOT
                  | r => match drop_slashes r with [] => [SLASH] | r => rev r end
                  end).
  { unfold dirname. fold t. destruct path; [easy|]. destruct t; [easy|reflexivity]. }
  destruct (span (fun c => negb (beq c SLASH)) (rev t)) as [a b] eqn:SP. cbn [fst snd] in BT, DT.
  apply span_eq in SP as (R & F & B).
  assert (T : t = rev b ++ rev a) by (rewrite <- rev_app_distr, <- R; now rewrite rev_involutive).
  assert (AN : a <> []).
  { intros ->. cbn in T. rewrite app_nil_r in T. destruct b as [|c b]; [now rewrite T in TN|]. cbn [rev] in T.
    rewrite T, ends_snoc in ES. cbn in B. rewrite ES in B. discriminate. }
  assert (AR : plain (rev a)) by now rewrite forallb_rev.
  assert (RN : rev a <> []) by (intros X; apply AN; rewrite <- (rev_involutive a), X; reflexivity).
  assert (PA : pieces (rev a) = [rev a]) by (unfold pieces; rewrite split_plain by auto; destruct (rev a); easy).
  rewrite BT.
  destruct b as [|c b].
  - cbn [rev app] in T. rewrite T, PA in PT. change [rev a] with ([] ++ [rev a]) in PT. apply app_inj_tail in PT as [<- <-].
    split; auto. rewrite DT.
    assert (AB : absolute path = false). { rewrite PE. apply plain_abs; [auto|]. now rewrite T. }
    unfold first_dir. rewrite AB. split; auto.
  - apply negb_false_iff in B. pose proof (drop_head (c :: b)) as DH.
    assert (SPL : exists sl2, slashes sl2 /\ c :: b = sl2 ++ drop_slashes (c :: b)).
    { unfold drop_slashes. destruct (span _ (c :: b)) as [u v] eqn:SP. apply span_eq in SP as (-> & FU & _). exists u. auto. }
    destruct SPL as (sl2 & S2 & CB). set (e := drop_slashes (c :: b)) in *. clearbody e.
    assert (S2N : rev sl2 <> []).
    { intros X. assert (sl2 = []) by (rewrite <- (rev_involutive sl2), X; reflexivity). subst sl2. cbn in CB. destruct e; [discriminate|]. injection CB as -> _. rewrite B in DH. discriminate. }
    rewrite CB, rev_app_distr, <- app_assoc in T.
    assert (PP : pieces t = pieces (rev e) ++ [rev a]) by (rewrite T, pieces_mid, PA; auto; now rewrite forallb_rev).
    rewrite PP in PT. apply app_inj_tail in PT as [PT <-]. split; auto.
    destruct e as [|x e].
    + cbn [rev] in PT. cbn in PT. subst ns. rewrite DT. unfold first_dir.
      assert (AB : absolute path = true).
      { rewrite PE, T. cbn [rev app]. destruct (rev sl2) as [|y l] eqn:Y; [easy|]. cbn.
        assert (slashes (rev sl2)) by now rewrite forallb_rev. rewrite Y in H. cbn in H. now apply andb_true_iff in H. }
      rewrite AB. split; auto.
    + rewrite DT. assert (RX : rev (x :: e) <> []) by (cbn; intros X; apply app_eq_nil in X; easy).
      assert (NSN : ns <> []).
      { rewrite <- PT. cbn [rev]. intros X. assert (Y : pieces ((rev e ++ [x]) ++ []) = []) by now rewrite app_nil_r.
        clear - Y DH. rewrite app_nil_r in Y.
        assert (G : forall l, pieces (l ++ [x]) <> []).
        { induction l as [|c l IH]; unfold pieces in *; cbn; [now rewrite DH|]. destruct (beq c SLASH); [exact IH|].
          pose proof (split_nonnil (l ++ [x])). destruct (split_slash (l ++ [x])); easy. }
        now apply (G (rev e)). }
      split; [|right; split; auto; split; auto; cbn [rev]; now rewrite ends_snoc].
      rewrite PE, T. destruct (rev (x :: e)); [easy|]. reflexivity.
Qed.

Section Quiet.
  Variable E : environment.
  Hypothesis Q : quiet E.
  Notation trusted := (fun u : Z => u = 0%Z \/ u = p_uid E).

  (** opening the directory part for reading *)
  Lemma q_dir w path ns n d : wf_fds w -> is_dir (wfs w) (rootdir (wfs w)) = true -> is_dir (wfs w) (cwd (wfs w)) = true ->
    pieces path = ns ++ [n] -> safely trusted (wfs w) (start (wfs w) path) ns d ->
    exists w' fd, safe_open E w (dirname path) RDONLY = Ok (w', inr fd) /\ wf_fds w' /\ fds w' = fds w ++ [(fd, d)] /\ wfs w' = wfs w.
  Proof.
    intros WF DR DC PN S. destruct (@base_dir path ns n PN) as (_ & AB & CASE).
    assert (DN : dirname path <> []).
    { destruct CASE as [[_ ->]|(NN & PD & _)]; [unfold first_dir; destruct (absolute path); easy|]. intros X. rewrite X in PD. apply NN. rewrite <- PD. reflexivity. }
    destruct (@q_safe_open E Q w (dirname path) RDONLY CF_PERMS_DEFAULT) as (w' & r & EQ & R); auto; try discriminate.
    assert (SF : safely trusted (wfs w) (start (wfs w) (dirname path)) (path_names (dirname path)) d).
    { unfold start. rewrite AB. fold (start (wfs w) path). destruct CASE as [[-> ->]|(NN & PD & ED)].
      - unfold first_dir. destruct (absolute path) eqn:A; [exact S|]. change (path_names DOT) with [DOT].
        inversion S; subst. unfold start. rewrite A. assert (X := DC). unfold is_dir in X.
        destruct (inodes (wfs w) (cwd (wfs w))) as [x|] eqn:I; [|discriminate].
        eapply safely_step; [apply lookup_dot_dir; auto|exact I|apply resolve_dot; auto|exact I|right; split; auto|constructor].
      - unfold path_names. rewrite PD, ED. destruct ns; auto. }
    unfold safe_open. destruct r as [e|fd].
    - destruct R as (_ & _ & N). elim N. exists d. split; auto.
    - destruct R as (i & S2 & _ & WF' & F' & AO & _). rewrite (safely_fun S2 SF) in *. exists w', fd. split; auto.
  Qed.

  Theorem q_chown w path o g nofollow ns n d i x : wf_fds w -> is_dir (wfs w) (rootdir (wfs w)) = true -> is_dir (wfs w) (cwd (wfs w)) = true ->
    pieces path = ns ++ [n] -> safely trusted (wfs w) (start (wfs w) path) ns d ->
    lookup (wfs w) d n = inr i -> inodes (wfs w) i = Some x -> nofollow = true \/ S_ISLNK (stat_of x) = false ->
    exists w', safe_chown_impl E w path o g nofollow = Ok (w', None) /\ fds w' = fds w /\ owned (wfs w) i o g (wfs w').
  Proof.
    intros WF DR DC PN S LK X NF. unfold safe_chown_impl.
    destruct (@q_dir w path ns n d WF DR DC PN S) as (w1 & fd & OP & WF1 & F1 & S1).
    destruct (@base_dir path ns n PN) as (BN & _ & _).
    assert (NP : n <> [] /\ plain n).
    { pose proof (pieces_plain path) as PP. rewrite PN in PP. apply Forall_app in PP as [_ PP]. now inversion PP. }
    destruct NP as [NN P].
    assert (PD : forall c, exists w2, safe_open_true_parent_dir E c w path nofollow None = Ok (w2, inr fd) /\ wf_fds w2 /\ fds w2 = fds w ++ [(fd, d)] /\ wfs w2 = wfs w).
    { intros c. destruct (@q_fstatat E Q w1 (fds w) fd d [] n WF1 F1 NN P) as (w2 & ST & SL).
      assert (BODY : safe_open_true_parent_dir E c w path nofollow None = Ok (w2, inr fd)).
      { destruct c; cbn [safe_open_true_parent_dir]; rewrite OP; cbn [bind]; rewrite BN, ST; cbn [bind];
          unfold stat_result; rewrite S1, LK, X;
          (replace (S_ISLNK (stat_of x) && negb nofollow) with false by (destruct NF as [-> | ->]; [now rewrite andb_false_r|auto])); reflexivity. }
      rewrite BODY. exists w2. split; auto. pose proof (still_wf SL WF1) as WF2. destruct SL as (A1 & A2 & A3).
      split; auto. split; [congruence|congruence]. }
    destruct (PD SYMLINK_MAX_DEPTH) as (w2 & -> & WF2 & F2 & S2). cbn [bind]. rewrite BN.
    unfold sys_lchownat, enter. destruct Q as [Q1 Q2]. rewrite Q1, Q2. set (w3 := mkWorld _ _ _ _ _).
    assert (I : inode_of w3 (Fd fd) = Ok d) by (cbn; rewrite F2, find_mid; auto; rewrite <- F2; apply WF2).
    rewrite I. cbn [bind]. change (wfs w3) with (wfs w2). rewrite S2, resolve_plain_no, LK, X by auto. cbn [bind].
    match goal with |- context [sys_close ?w4 fd] => destruct (@close_mid w4 (fds w) fd d []) as (w5 & -> & WF5 & F5 & N5 & L5 & S5); [exact WF2|exact F2|] end.
    cbn [bind]. exists w5. split; auto. split; [now rewrite app_nil_r in F5|]. rewrite S5. cbn [wfs record with_fs].
    do 3 (split; [reflexivity|]). intros k. rewrite set_same. destruct (k =? i); auto. now rewrite X.
  Qed.
End Quiet.
