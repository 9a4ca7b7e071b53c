(** C101-C102: reading directories (libutils/unix_dir.c) and DeleteDirectoryTree (libutils/file_lib.c). *)
From Verif Require Import Prelude PreludeFacts Str StrFacts Libc LibcFacts FsModel SafeModel SafeSpec SafeProofs SafeProofs2 SafeProofs3 SafeProofs5 PropsSafe DirModel DirSpec DirProofs DirProofs2 DirProofs3 DirProofs4 DirProofs5.
Set Implicit Arguments.

(** ** C101 DirOpen *)
(** whatever others do: the directory opened is one that safe_open's checked steps have reached; no
    descriptor but that of the stream is left, none after a failure; nothing is changed *)
Theorem C101_dir_open E w path : wf_fds w ->
  exists w' r evs evs', DirOpen E w path = Ok (w', r) /\ wf_fds w' /\ log w' = log w ++ evs ++ evs' /\ harmless evs /\ harmless evs' /\
    match r with
    | inl _ => fds w' = fds w
    | inr fd => exists i, fds w' = fds w ++ [(fd, i)] /\ ~ In fd (map fst (fds w)) /\ reached (trusted_uid E) path evs i
    end.
Proof. apply DirOpen_spec. Qed.
Print Assumptions C101_dir_open.
(** if nobody interferes: exactly the directory the path names, when the way there is trustworthy *)
Theorem C101_undisturbed E w path d : quiet E -> wf_fds w -> sound_dirs (wfs w) -> is_dir (wfs w) d = true ->
  safely (trusted_uid E) (wfs w) (start (wfs w) path) (path_names path) d -> resolve (wfs w) true (cwd (wfs w)) path = inr d ->
  exists w' fd, DirOpen E w path = Ok (w', inr fd) /\ fds w' = fds w ++ [(fd, d)] /\ wfs w' = wfs w.
Proof. intros Q WF SD D S R. destruct (@q_DirOpen E Q w path d WF SD D S R) as (w' & fd & A & _ & B & C). eauto. Qed.
Print Assumptions C101_undisturbed.

(** ** C102 DeleteDirectoryTree *)
Theorem C102_delete E next refuse w path d :
  quiet E -> reads_all next -> (forall n, refuse n <> Some ENOENT) ->
  wf_fds w -> sound_dirs (wfs w) -> tree (wfs w) d -> is_dir (wfs w) d = true -> leads_to E (wfs w) path d ->
  (forall ns i, below (wfs w) d ns i -> length path + text_length ns < PATH_MAX) ->
  exists fuel w' b, (forall fuel', fuel <= fuel' -> DeleteDirectoryTree E next refuse fuel' w path = Ok (w', b)) /\ fds w' = fds w /\
    pruned (wfs w) d (wfs w') /\ (b = true -> emptied (wfs w) d (wfs w')) /\ ((forall n, refuse n = None) -> b = true).
Proof.
  intros Q RA RE WF SD TR D LT LE.
  assert (TL : forall ns, length ns <= text_length ns) by (induction ns; cbn; lia).
  destruct (@delete_done E Q next RA refuse RE PATH_MAX w path d) as (fuel & w' & b & EQ & _ & F & P & ED & G).
  - constructor; auto.
  - intros ns i B. specialize (LE ns i B). specialize (TL ns). lia.
  - exists fuel, w', b. split; [intros fuel' L; exact (@delete_more E next refuse _ _ _ _ _ EQ L)|]. split; auto. split; auto. split; auto.
    intros X. specialize (ED X). pose proof P as (R & C & N & P'). split; auto. split; auto. split; auto. intros i. split.
    + intros NB. destruct (P' i) as [Y|(Y & _)]; [auto|contradiction].
    + intros B. specialize (ED i B). pose proof B as (ns & _ & DI). apply is_dir_inode in DI as (es & u & g & p & DI). exists es, u, g, p. split; auto.
      destruct (P' i) as [Y|(_ & es' & u' & g' & p' & k & Y & Z & _)].
      * rewrite Y, DI. unfold contents in ED. rewrite Y, DI in ED. cbn in ED. now rewrite <- ED.
      * rewrite DI in Y. injection Y as <- <- <- <-. unfold contents in ED. rewrite Z, DI in ED. cbn in ED. now rewrite Z, <- ED.
Qed.
Print Assumptions C102_delete.
(** "emptied" leaves nothing *)
Theorem C102_nothing_left f d f' ns i : emptied f d f' -> is_dir f d = true -> below f' d ns i -> ns = [] /\ i = d.
Proof.
  intros (_ & _ & _ & EM) D B. inversion B as [|? n j ns' ? (I & N1 & N2) _]; subst; [auto|]. exfalso.
  destruct (EM d) as [_ X]. destruct X as (es & u & g & p & _ & X); [exists []; split; [constructor|auto]|].
  unfold contents in I. rewrite X in I. cbn in I. apply filter_In in I as [_ I]. cbn in I. apply bytes_eqb_eq in I. contradiction.
Qed.
Print Assumptions C102_nothing_left.
(** for absolute paths through directories of a sane file system *)
Theorem C102_absolute E next refuse w ns d :
  quiet E -> reads_all next -> (forall n, refuse n <> Some ENOENT) -> wf_fds w -> sound_dirs (wfs w) ->
  tree (wfs w) (rootdir (wfs w)) -> below (wfs w) (rootdir (wfs w)) ns d -> ns <> [] -> is_dir (wfs w) d = true ->
  (forall ms i, below (wfs w) d ms i -> text_length (ns ++ ms) < PATH_MAX) ->
  exists fuel w' b, (forall fuel', fuel <= fuel' -> DeleteDirectoryTree E next refuse fuel' w (text ns) = Ok (w', b)) /\ fds w' = fds w /\
    pruned (wfs w) d (wfs w') /\ (b = true -> emptied (wfs w) d (wfs w')) /\ ((forall n, refuse n = None) -> b = true).
Proof.
  intros Q RA RE WF SD TR B NE D LE.
  assert (TA : forall a b, text_length (a ++ b) = text_length a + text_length b) by (induction a; intros; cbn; [auto|rewrite IHa; lia]).
  apply C102_delete; auto.
  - clear -TR B. induction B as [|d n i ns j C B IH]; [exact TR|]. apply IH. eapply tree_child; eauto.
  - apply absolute_leads; auto.
  - intros ms i BM. rewrite text_len, <- TA. eauto.
Qed.
Print Assumptions C102_absolute.
(** whatever others do and whichever calls fail: if it comes to an end the same descriptors are open
    as before, and no closed one is used *)
Theorem C102_descriptors E next refuse fuel w path : wf_fds w ->
  DeleteDirectoryTree E next refuse fuel w path = Fuel \/
  exists w' b, DeleteDirectoryTree E next refuse fuel w path = Ok (w', b) /\ wf_fds w' /\ fds w' = fds w.
Proof. intros WF. exact (@keeps_delete E next refuse fuel w path WF). Qed.
Print Assumptions C102_descriptors.
(** a path over an untrusted link: false, and nothing happens *)
Theorem C102_untrusted_link E next refuse fuel w path ns n rest d s x j y :
  quiet E -> wf_fds w -> sound_dirs (wfs w) -> pieces path = ns ++ n :: rest -> ends_in_slash path = false ->
  safely (trusted_uid E) (wfs w) (start (wfs w) path) ns d ->
  lookup (wfs w) d n = inr s -> inodes (wfs w) s = Some x -> resolve (wfs w) true d n = inr j -> inodes (wfs w) j = Some y ->
  ~ acceptable (trusted_uid E) (stat_of x) (stat_of y) ->
  exists w', DeleteDirectoryTree E next refuse (S fuel) w path = Ok (w', false) /\ fds w' = fds w /\ wfs w' = wfs w.
Proof.
  intros Q WF SD PN ES S LK X R Y NA.
  destruct (@C88_untrusted_link E w path RDONLY CF_PERMS_DEFAULT ns n rest d s x j y) as (w' & EQ & F & FS); auto; try discriminate.
  exists w'. split; [|auto]. unfold DeleteDirectoryTree. cbn [DeleteDirectoryTreeInternal]. unfold DirOpen, safe_open. rewrite EQ. reflexivity.
Qed.
Print Assumptions C102_untrusted_link.

(** ** Examples *)
Definition dir (es : list (name * nat)) : option inode := Some (mkInode (Dir es) 0 0 493).
Definition the_fs (l : list (option inode)) : fs := mkFs (fun i => nth i l None) 0 0 (length l).
Definition the_world (f : fs) : world := mkWorld f 0 [] 3 [].
Definition first_unread (f : fs) (d : nat) (seen : list name) : option name :=
  find (fun n => negb (existsb (bytes_eqb n) seen)) (DOT :: map fst (contents f d)).
Lemma first_unread_reads : reads_all first_unread.
Proof.
  intros f d seen. unfold first_unread. destruct (find _ _) as [n|] eqn:F.
  - apply find_some in F as [I NI]. split; [|destruct I; auto]. apply negb_true_iff in NI. intros X.
    assert (Y : existsb (bytes_eqb n) seen = true) by (apply existsb_exists; exists n; split; auto; apply bytes_eqb_refl). congruence.
  - intros n I. pose proof (find_none _ _ F n) as X. assert (J : In n (DOT :: map fst (contents f d))) by (destruct I; [now left|now right]). specialize (X J).
    apply negb_false_iff in X. apply existsb_exists in X as (m & M & EQ). apply bytes_eqb_eq in EQ. now subst.
Qed.
Definition never (n : nat) : option errno := None.
(* / : d etc;  d (of user 1000) : sub file link -> /etc;  sub : passwd;  etc : passwd *)
Definition users (es : list (name * nat)) : option inode := Some (mkInode (Dir es) 1000 1000 493).
Definition home : fs := the_fs
  [dir [(PARENT, 0); (lit "d", 1); (lit "etc", 6)]; users [(PARENT, 0); (lit "sub", 2); (lit "file", 3); (lit "link", 4)];
   users [(PARENT, 1); (lit "passwd", 5)]; Some (mkInode (Reg (lit "x")) 1000 1000 420); Some (mkInode (Lnk (lit "/etc")) 1000 1000 511);
   Some (mkInode (Reg (lit "y")) 1000 1000 420); dir [(PARENT, 0); (lit "passwd", 7)]; Some (mkInode (Reg (lit "root")) 0 0 420)].
Lemma home_tree : tree home 0.
Proof. apply checkb_tree with (h := 3); reflexivity. Qed.
Lemma home_wf f : wf_fds (the_world f).
Proof. split; constructor. Qed.
Example C102_instance : exists w', DeleteDirectoryTree (calm 0) first_unread never 9 (the_world home) (lit "/d") = Ok (w', true) /\
  contents (wfs w') 1 = [(PARENT, 0)] /\ contents (wfs w') 2 = [(PARENT, 1)] /\ contents (wfs w') 6 = [(PARENT, 0); (lit "passwd", 7)].
Proof. eexists. split; [vm_compute; reflexivity|]. split; [reflexivity|]. split; reflexivity. Qed.
Example C102_hypotheses : quiet (calm 0) /\ reads_all first_unread /\ sound_dirs home /\ tree home 0 /\ below home 0 [lit "d"] 1 /\
  text [lit "d"] = lit "/d" /\ leads_to (calm 0) home (lit "/d") 1 /\ (forall ms i, below home 1 ms i -> text_length ([lit "d"] ++ ms) < PATH_MAX).
Proof.
  assert (B : below home 0 [lit "d"] 1). { econstructor; [|constructor]. split; [cbn; tauto|split; discriminate]. }
  split; [apply calm_quiet|]. split; [apply first_unread_reads|]. split; [split; reflexivity|]. split; [apply home_tree|]. split; [exact B|]. split; [reflexivity|].
  split; [apply (@absolute_leads (calm 0) home 1 [lit "d"] home_tree eq_refl B); discriminate|].
  intros ms i BM. assert (L : length ms <= 2) by (apply (@descend_bounded home 2 1) with (i := i); auto).
  pose proof (@descend_complete home ms 2 1 i BM L) as I. unfold PATH_MAX.
  assert (ALL : forallb (fun x => text_length ([lit "d"] ++ fst x) <? 100) (descend home 2 1) = true) by reflexivity.
  rewrite forallb_forall in ALL. specialize (ALL _ I). apply Nat.ltb_lt in ALL. cbn [fst] in ALL. lia.
Qed.

(** ** What does not hold *)
(** the user whose directory root deletes replaces the subdirectory being worked on by a link: root
    deletes /etc/passwd *)
Definition swap_at (k n : nat) (f : fs) : fs :=
  if n =? k
  then mkFs (fun i => match inodes f i with
                      | Some x => if (i =? 1) && (iuid x =? 1000)%Z then users [(PARENT, 0); (lit "sub", 8)] else Some x
                      | None => if i =? 8 then Some (mkInode (Lnk (lit "/etc")) 1000 1000 511) else None
                      end) (rootdir f) (cwd f) (nextino f)
  else f.
Theorem C102_race_refuted :
  ~ (forall E next refuse fuel w path d w' b, reads_all next -> wf_fds w -> sound_dirs (wfs w) -> tree (wfs w) (rootdir (wfs w)) -> leads_to E (wfs w) path d ->
       (* others change only what belongs to user 1000, and new things *)
       (forall n f i x, inodes f i = Some x -> iuid x <> 1000%Z -> inodes (others E n f) i = Some x) ->
       DeleteDirectoryTree E next refuse fuel w path = Ok (w', b) ->
       forall i x, inodes (wfs w) i = Some x -> iuid x <> 1000%Z -> ~ dir_below (wfs w) d i -> inodes (wfs w') i = Some x).
Proof.
  intros H. set (E := mkEnv (swap_at 22) (fun _ => None) 0 0).
  assert (V : match DeleteDirectoryTree E first_unread never 9 (the_world home) (lit "/d") with Ok (w', _) => inodes (wfs w') 6 = dir [(PARENT, 0)] | _ => False end) by (vm_compute; reflexivity).
  destruct (DeleteDirectoryTree E first_unread never 9 (the_world home) (lit "/d")) as [[w' b]| | |] eqn:EQ; try contradiction.
  destruct C102_hypotheses as (_ & _ & SD & TR & B & _ & LT & _).
  specialize (H E first_unread never 9 (the_world home) (lit "/d") 1 w' b first_unread_reads (home_wf home) SD TR).
  assert (LE : leads_to E home (lit "/d") 1) by (apply (@absolute_leads E home 1 [lit "d"] home_tree eq_refl B); discriminate).
  specialize (H LE).
  assert (X : inodes (wfs w') 6 = dir [(PARENT, 0); (lit "passwd", 7)]); [|rewrite V in X; discriminate X].
  apply (fun A => H A EQ 6); [|reflexivity|discriminate|].
  - intros n f i x I U. cbn. unfold swap_at. destruct (n =? 22); auto. cbn. rewrite I. destruct (Z.eqb_spec (iuid x) 1000); [contradiction|]. now rewrite andb_false_r.
  - intros (ns & BN & _). pose proof (tree_unique home_tree) as TU.
    specialize (TU ([lit "d"] ++ ns) [lit "etc"] 6 (below_app B BN)). discriminate TU; auto. econstructor; [|constructor]. split; [cbn; tauto|split; discriminate].
Qed.
Print Assumptions C102_race_refuted.

(** a path through the directory's own contents: true, but not everything is deleted *)
Theorem C102_own_contents_refuted :
  ~ (forall E next refuse fuel w path d w', quiet E -> reads_all next -> (forall n, refuse n = None) -> wf_fds w -> sound_dirs (wfs w) -> tree (wfs w) (rootdir (wfs w)) ->
       safely (trusted_uid E) (wfs w) (start (wfs w) path) (path_names path) d -> resolve (wfs w) true (cwd (wfs w)) path = inr d -> length path < 1000 ->
       DeleteDirectoryTree E next refuse fuel w path = Ok (w', true) -> emptied (wfs w) d (wfs w')).
Proof.
  intros H.
  assert (V : match DeleteDirectoryTree (calm 0) first_unread never 9 (the_world home) (lit "/d/sub/..") with
              | Ok (w', true) => contents (wfs w') 1 = [(PARENT, 0); (lit "file", 3); (lit "link", 4)] | _ => False end) by (vm_compute; reflexivity).
  destruct (DeleteDirectoryTree (calm 0) first_unread never 9 (the_world home) (lit "/d/sub/..")) as [[w' []]| | |] eqn:EQ; try contradiction.
  assert (L : length (lit "/d/sub/..") < 1000) by (cbn; lia).
  assert (S : safely (trusted_uid (calm 0)) home (start home (lit "/d/sub/..")) (path_names (lit "/d/sub/..")) 1).
  { eapply safely_step; [reflexivity|reflexivity|reflexivity|reflexivity|right; split; reflexivity|].
    eapply safely_step; [reflexivity|reflexivity|reflexivity|reflexivity|right; split; reflexivity|].
    eapply safely_step; [reflexivity|reflexivity|reflexivity|reflexivity|right; split; reflexivity|constructor]. }
  destruct (H (calm 0) first_unread never 9 (the_world home) (lit "/d/sub/..") 1 w' (calm_quiet 0) first_unread_reads (fun _ => eq_refl) (home_wf home) (conj eq_refl eq_refl) home_tree S eq_refl L EQ) as (_ & _ & _ & X).
  destruct (X 1) as [_ Y]. destruct Y as (es & u & g & p & Y1 & Y2). { exists []. split; [constructor|reflexivity]. }
  unfold contents in V. rewrite Y2 in V. cbn in V. cbn in Y1. injection Y1 as <- <- <- <-. cbn in V. discriminate V.
Qed.
Print Assumptions C102_own_contents_refuted.

(** paths that do not fit into PATH_MAX: true, but not everything is deleted *)
Definition long_a : name := repeat "a"%char 3999.
Definition long_b : name := repeat "b"%char 200.
Definition deep : fs := the_fs [dir [(PARENT, 0); (long_a, 1)]; dir [(PARENT, 0); (long_b, 2)]; Some (mkInode (Reg []) 0 0 420)].
Lemma deep_tree : tree deep 0.
Proof. apply checkb_tree with (h := 2); vm_compute; reflexivity. Qed.
Theorem C102_long_paths_refuted :
  ~ (forall E next refuse fuel w path d w', quiet E -> reads_all next -> (forall n, refuse n = None) -> wf_fds w -> sound_dirs (wfs w) -> tree (wfs w) (rootdir (wfs w)) ->
       leads_to E (wfs w) path d -> is_dir (wfs w) d = true -> length path < PATH_MAX ->
       DeleteDirectoryTree E next refuse fuel w path = Ok (w', true) -> emptied (wfs w) d (wfs w')).
Proof.
  intros H. set (p := text [long_a]).
  assert (V : match DeleteDirectoryTree (calm 0) first_unread never 9 (the_world deep) p with
              | Ok (w', true) => length (contents (wfs w') 1) = 2 | _ => False end) by (vm_compute; reflexivity).
  destruct (DeleteDirectoryTree (calm 0) first_unread never 9 (the_world deep) p) as [[w' []]| | |] eqn:EQ; try contradiction.
  assert (B : below deep 0 [long_a] 1). { econstructor; [|constructor]. split; [right; left; reflexivity|split; discriminate]. }
  assert (LT : leads_to (calm 0) deep p 1) by (apply (@absolute_leads (calm 0) deep 1 [long_a] deep_tree eq_refl B); discriminate).
  assert (L : length p < PATH_MAX) by (apply Nat.ltb_lt; vm_compute; reflexivity).
  destruct (H (calm 0) first_unread never 9 (the_world deep) p 1 w' (calm_quiet 0) first_unread_reads (fun _ => eq_refl) (home_wf deep) (conj eq_refl eq_refl) deep_tree LT eq_refl L EQ) as (_ & _ & _ & X).
  destruct (X 1) as [_ Y]. destruct Y as (es & u & g & q & Y1 & Y2). { exists []. split; [constructor|reflexivity]. }
  assert (Y3 : es = [(PARENT, 0); (long_b, 2)]). { clear - Y1. change (inodes (wfs (the_world deep)) 1) with (dir [(PARENT, 0); (long_b, 2)]) in Y1. unfold dir in Y1. congruence. }
  assert (C : length (contents (wfs w') 1) = length (filter (fun e : name * nat => bytes_eqb (fst e) PARENT) [(PARENT, 0); (long_b, 2)])) by (unfold contents; rewrite Y2; cbn [ikind]; now rewrite Y3).
  rewrite V in C. vm_compute in C. discriminate C.
Qed.
Print Assumptions C102_long_paths_refuted.

(** a path of exactly PATH_MAX - 2 bytes to a directory that is not empty: no end *)
Section Endless.
  Variable A : name.
  Hypothesis PA : plain A.
  Hypothesis NA : A <> [].
  Hypothesis LA : length A = PATH_MAX - 3.
  Definition endless : fs := the_fs [dir [(PARENT, 0); (A, 1)]; dir [(lit "x", 2)]; Some (mkInode (Reg []) 0 0 420)].
  Let E := calm 0.
  Lemma slashed_pieces : pieces (SLASH :: A) = [A] /\ pieces (SLASH :: A ++ [SLASH]) = [A].
  Proof.
    assert (P : pieces (SLASH :: A) = [A]) by (apply (@pieces_sub [] A); auto). split; [exact P|].
    change (SLASH :: A ++ [SLASH]) with ((SLASH :: A) ++ SLASH :: []). unfold pieces in *. rewrite split_app, filter_app, P. reflexivity.
  Qed.
  Lemma endless_open p : p = SLASH :: A \/ p = SLASH :: A ++ [SLASH] ->
    safely (trusted_uid E) endless (start endless p) (path_names p) 1 /\ (forall fo, resolve endless fo (cwd endless) p = inr 1).
  Proof.
    intros PP. assert (ND : A <> DOT). { intros ->. cbn in LA. vm_compute in LA. discriminate LA. }
    assert (L1 : lookup endless 0 A = inr 1).
    { destruct (list_eq_dec ascii_dec PARENT A) as [<-|NP]; [vm_compute in LA; discriminate LA|].
      unfold lookup, endless, the_fs, dir. cbn [inodes nth]. rewrite (proj2 (bytes_eqb_neq _ _) ND). cbn [assoc]. now rewrite (proj2 (bytes_eqb_neq _ _) NP), bytes_eqb_refl. }
    assert (R1 : resolve endless true 0 A = inr 1).
    { rewrite resolve_names; auto. 2:{ rewrite <- (app_nil_r A). now apply plain_abs. } rewrite plain_names by auto. rewrite walk_eq, L1. reflexivity. }
    assert (S1 : safely (trusted_uid E) endless 0 [A] 1) by (eapply safely_step; [exact L1|reflexivity|exact R1|reflexivity|right; split; reflexivity|constructor]).
    destruct slashed_pieces as [P1 P2].
    assert (N : path_names p = [A] \/ path_names p = [A; DOT]).
    { destruct PP as [->| ->]; unfold path_names; rewrite ?P1, ?P2; destruct (ends_in_slash _); auto. }
    assert (AB : absolute p = true) by (destruct PP as [->| ->]; reflexivity).
    assert (PN : p <> []) by (destruct PP as [->| ->]; discriminate).
    unfold start. rewrite AB. split.
    - destruct N as [-> | ->]; [exact S1|]. change [A; DOT] with ([A] ++ [DOT]). eapply safely_app; [exact S1|].
      eapply safely_step; [reflexivity|reflexivity|reflexivity|reflexivity|right; split; reflexivity|constructor].
    - intros fo. unfold resolve. destruct p as [|c p]; [easy|]. rewrite AB. destruct N as [-> | ->]; rewrite walk_eq; cbn [rootdir endless the_fs]; rewrite L1; reflexivity.
  Qed.
  Lemma endless_sub p : p = SLASH :: A \/ p = SLASH :: A ++ [SLASH] -> subpath p (lit "x") = SLASH :: A ++ [SLASH].
  Proof.
    unfold subpath. intros [->| ->].
    - change ((SLASH :: A) ++ SLASH :: lit "x") with (SLASH :: A ++ [SLASH] ++ lit "x"). rewrite app_assoc.
      change (SLASH :: (A ++ [SLASH]) ++ lit "x") with ((SLASH :: A ++ [SLASH]) ++ lit "x"). rewrite firstn_app_le; [apply firstn_all2|];
      cbn [length]; rewrite app_length; cbn [length]; rewrite LA; unfold PATH_MAX; lia.
    - rewrite firstn_app_le; [apply firstn_all2|]; cbn [length]; rewrite app_length; cbn [length]; rewrite LA; unfold PATH_MAX; lia.
  Qed.
  Lemma endless_delete : forall fuel w p, wf_fds w -> wfs w = endless -> p = SLASH :: A \/ p = SLASH :: A ++ [SLASH] ->
    DeleteDirectoryTree E first_unread never fuel w p = Fuel.
  Proof.
    unfold DeleteDirectoryTree. induction fuel as [|fuel IH]; intros w p WF FS PP; [reflexivity|]. cbn [DeleteDirectoryTreeInternal].
    destruct (endless_open PP) as [S R]. assert (QE : quiet E) by apply calm_quiet.
    destruct (@q_DirOpen E QE w p 1 WF) as (w1 & fd & -> & W1 & F1 & FS1); try (rewrite FS; first [exact S|apply R|reflexivity|split; reflexivity]).
    cbn [bind]. replace (delete_loop E first_unread never (DeleteDirectoryTreeInternal E first_unread never fuel) (Datatypes.S fuel) w1 p fd [] false) with (@Fuel (world * bool)); [reflexivity|].
    symmetry. cbn [delete_loop]. rewrite (@q_read E QE first_unread w1 (fds w) fd 1 [] [] W1 F1). cbn [bind]. rewrite FS1, FS.
    change (first_unread endless 1 []) with (Some DOT). cbn [bytes_eqb orb]. change (bytes_eqb DOT DOT || bytes_eqb DOT DOTDOT) with true. cbn iota zeta.
    destruct fuel as [|fuel]; [reflexivity|]. cbn [delete_loop].
    rewrite (@q_read E QE first_unread (tick w1) (fds w) fd 1 [] _ (tick_wf W1) F1). cbn [bind]. cbn [tick wfs]. rewrite FS1, FS.
    change (first_unread endless 1 [DOT]) with (Some (lit "x")). change (bytes_eqb (lit "x") DOT || bytes_eqb (lit "x") DOTDOT) with false. cbn iota zeta.
    rewrite (endless_sub PP). destruct (@endless_open (SLASH :: A ++ [SLASH])) as [_ R']; [now right|].
    destruct (@q_stat E QE (tick (tick w1)) (SLASH :: A ++ [SLASH]) 1 (mkInode (Dir [(lit "x", 2)]) 0 0 493)) as (w2 & -> & W2 & F2 & FS2).
    - apply tick_wf. now apply tick_wf.
    - cbn [tick wfs]. rewrite FS1, FS. apply R'.
    - cbn [tick wfs]. rewrite FS1, FS. reflexivity.
    - cbn [bind st_kind stat_of ikind]. rewrite (IH w2 (SLASH :: A ++ [SLASH]) W2); [reflexivity| |now right]. rewrite FS2. cbn [tick wfs]. congruence.
  Qed.
End Endless.
Theorem C102_endless_refuted :
  ~ (forall E next refuse w path d, quiet E -> reads_all next -> (forall n, refuse n = None) -> wf_fds w -> sound_dirs (wfs w) ->
       safely (trusted_uid E) (wfs w) (start (wfs w) path) (path_names path) d -> is_dir (wfs w) d = true -> length path < PATH_MAX ->
       exists fuel, DeleteDirectoryTree E next refuse fuel w path <> Fuel).
Proof.
  intros H. set (A := repeat "a"%char (PATH_MAX - 3)).
  assert (PA : plain A). { apply forallb_forall. intros c I. apply repeat_spec in I. subst. reflexivity. }
  assert (NA : A <> []) by (vm_compute; discriminate). assert (LA : length A = PATH_MAX - 3) by apply repeat_length.
  destruct (@endless_open A PA NA LA (SLASH :: A)) as [S R]; [now left|].
  destruct (H (calm 0) first_unread never (the_world (endless A)) (SLASH :: A) 1 (calm_quiet 0) first_unread_reads (fun _ => eq_refl) (home_wf _) (conj eq_refl eq_refl) S eq_refl) as [fuel X].
  - cbn [length]. rewrite LA. unfold PATH_MAX. lia.
  - apply X. apply (@endless_delete A PA NA LA); auto. apply home_wf.
Qed.
Print Assumptions C102_endless_refuted.
