(** C107: the known directories. *)
From Verif Require Import Prelude PreludeFacts Str StrFacts Libc KnownDirsModel.
Set Implicit Arguments.

(** the folder of the test override, and below a work directory *)
Definition below (d : dir) : option (list byte) :=
  match d with
  | Bin => Some (lit "/bin") | Input => Some (lit "/inputs") | Master => Some (lit "/masterfiles") | State => Some (lit "/state") | Data => Some (lit "/data")
  | Work | LogD | Pid => None
  end.
(** below the home directory of a user *)
Definition user_dir (h : list byte) (d : dir) : list byte :=
  match d with
  | Work | Pid => h ++ lit "/.cfagent"
  | Bin => h ++ lit "/.cfagent/bin" | Data => h ++ lit "/.cfagent/data" | LogD => h ++ lit "/.cfagent/log"
  | Master => h ++ lit "/.cfagent/masterfiles" | Input => h ++ lit "/.cfagent/inputs" | State => h ++ lit "/.cfagent/state"
  end.
(** GetInputDir, GetMasterDir, GetStateDir and GetDataDir look below the work directory if compiled as "default" *)
Definition relative (compiled : dir -> list byte) (d : dir) : Prop :=
  match d with Input | Master | State | Data => compiled d = lit "default" | _ => False end.
Definition suffix (d : dir) : list byte := match below d with Some f => f | None => [] end.

Section Dirs.
  Variable compiled : dir -> list byte.
  Notation get := (GetDir compiled).
  Notation cut := (firstn 4095).

  Lemma dir_eqb_refl d : dir_eqb d d = true. Proof. destruct d; reflexivity. Qed.
  Lemma dir_eqb_eq a b : dir_eqb a b = true -> a = b. Proof. destruct a, b; cbn; congruence. Qed.
  Lemma printed_cut s : printed PATH_MAX s = cut s. Proof. unfold printed, PATH_MAX. f_equal. Qed.
  Lemma printed_cut2 s : printed CF_BUFSIZE s = cut s. Proof. unfold printed, CF_BUFSIZE. f_equal. Qed.

  (** With the override every directory is there, cut to the buffer *)
  Theorem C107_override st o d w : override o = Some w ->
    exists st' p, get st o d = Ok (st', p) /\ deref st' p = Some (match below d with None => w | Some f => cut (w ++ f) end).
  Proof.
    intros O. destruct d; cbn [GetDir below]; unfold plain_dir, GetBinDir, folder_dir; rewrite O; eexists _, _; (split; [reflexivity|]); cbn [deref work_buf bin_buf dir_eqb]; rewrite ?printed_cut, ?printed_cut2; reflexivity.
  Qed.

  (** Of root: what was compiled in *)
  Theorem C107_root st o d : override o = None -> uid o = 0%N ->
    (~ relative compiled d -> get st o d = Ok (st, PText (compiled d))) /\
    (relative compiled d -> exists st', get st o d = Ok (st', PWork d) /\ deref st' (PWork d) = Some (cut (compiled Work ++ suffix d))).
  Proof.
    intros O U. assert (D : forall x, GetDefaultDir compiled st o x = (st, PText (compiled x))) by (intros x; unfold GetDefaultDir; rewrite U; reflexivity).
    assert (FD : forall f, (compiled d <> lit "default" -> folder_dir compiled st o d f = Ok (st, PText (compiled d))) /\
       (compiled d = lit "default" -> exists st', folder_dir compiled st o d f = Ok (st', PWork d) /\ deref st' (PWork d) = Some (cut (compiled Work ++ lit "/" ++ f)))).
    { intros f. unfold folder_dir. rewrite O. split; intros C.
      - assert (E : bytes_eqb (compiled d) (lit "default") = false) by (now apply bytes_eqb_neq). rewrite E, D. reflexivity.
      - rewrite C, bytes_eqb_refl. unfold plain_dir. rewrite O, D. cbn [deref]. eexists. split; [reflexivity|]. cbn [deref work_buf]. now rewrite dir_eqb_refl, printed_cut2. }
    destruct d; cbn [GetDir relative suffix below]; unfold plain_dir, GetBinDir; rewrite ?O, ?D; (split; [intros R; try reflexivity; now apply FD|intros R; try destruct R; now apply FD]).
  Qed.

  (** ** users *)
  Lemma folder_user h d : match folder d with None => h ++ lit "/.cfagent" | Some f => h ++ lit "/.cfagent/" ++ f end = user_dir h d.
  Proof. destruct d; reflexivity. Qed.
  Lemma default_spec st o d st' p : GetDefaultDir compiled st o d = (st', p) ->
    (forall x, x <> d -> cached st' x = cached st x) /\ (cached st d <> [] -> cached st' d = cached st d) /\
    (cached st d = [] -> cached st' d = [] \/ exists h, home o = Some h /\ cached st' d = cut (user_dir h d)) /\
    (uid o <> 0%N -> p = PNull \/ p = PCached d) /\ (p = PCached d -> cached st' d <> []).
  Proof.
    unfold GetDefaultDir. intros E. destruct (N.ltb_spec 0 (uid o)) as [U|U]; [|injection E as <- <-; split; [auto|]; split; [auto|]; split; [auto|]; split; [intros N; lia|discriminate]].
    destruct (cached st d) as [|c r] eqn:C; [|injection E as <- <-; rewrite C; split; [auto|]; split; [auto|]; split; [discriminate|]; split; [auto|discriminate]].
    destruct (home o) as [h|]; [|injection E as <- <-; rewrite C; split; [auto|]; split; [auto|]; split; [auto|]; split; [auto|discriminate]].
    rewrite folder_user, printed_cut in E.
    assert (NE : cut (user_dir h d) <> []). { intros X. apply (f_equal (@length byte)) in X. rewrite firstn_length in X. cbn [length] in X. assert (1 <= length (user_dir h d))%nat by (destruct d; cbn [user_dir]; rewrite app_length; cbn; lia). lia. }
    destruct (PATH_MAX <=? length (user_dir h d))%nat; injection E as <- <-; cbn [cached]; (split; [intros x N; destruct (dir_eqb x d) eqn:DX; [apply dir_eqb_eq in DX; congruence|reflexivity]|]); rewrite dir_eqb_refl; (split; [congruence|]); (split; [intros _; right; eauto|]); (split; [auto|]); [discriminate|auto].
  Qed.
  (** the buffer an answer depends on *)
  Definition source (d : dir) : dir := match d with Input | Master | State | Data => if bytes_eqb (compiled d) (lit "default") then Work else d | _ => d end.
  Lemma source_relative d : (relative compiled d -> source d = Work) /\ (~ relative compiled d -> source d = d).
  Proof. unfold relative, source. split; destruct d; intros R; try reflexivity; try (destruct R; fail); try (rewrite R, bytes_eqb_refl; reflexivity); (assert (E : bytes_eqb (compiled _) (lit "default") = false) by (apply bytes_eqb_neq; exact R)); rewrite E; reflexivity. Qed.
  Definition relb (d : dir) : bool := match d with Input | Master | State | Data => bytes_eqb (compiled d) (lit "default") | _ => false end.
  Lemma relb_spec d : (relb d = true -> relative compiled d) /\ (relb d = false -> ~ relative compiled d).
  Proof.
    unfold relative, relb. destruct d; (split; [intros E; try discriminate E; try (now apply bytes_eqb_eq)|intros E; try (intros []; fail); try (now apply bytes_eqb_neq)]).
  Qed.
  Lemma relative_dec d : relative compiled d \/ ~ relative compiled d.
  Proof. destruct (relb d) eqn:E; [left|right]; now apply relb_spec. Qed.
  Lemma get_user st o d : override o = None ->
    (~ relative compiled d -> get st o d = Ok (GetDefaultDir compiled st o d)) /\
    (relative compiled d -> get st o d = (let (st', w) := GetDefaultDir compiled st o Work in
       match deref st' w with Some w => Ok (mkStat (cached st') (bin_buf st') (fun x => if dir_eqb x d then cut (w ++ suffix d) else work_buf st' x), PWork d) | None => UB end)).
  Proof.
    intros O.
    assert (FD : forall f, (compiled d <> lit "default" -> folder_dir compiled st o d f = Ok (GetDefaultDir compiled st o d)) /\
       (compiled d = lit "default" -> folder_dir compiled st o d f = (let (st', w) := GetDefaultDir compiled st o Work in
       match deref st' w with Some w => Ok (mkStat (cached st') (bin_buf st') (fun x => if dir_eqb x d then cut (w ++ lit "/" ++ f) else work_buf st' x), PWork d) | None => UB end))).
    { intros f. unfold folder_dir, plain_dir. rewrite O. split; intros C.
      - assert (E : bytes_eqb (compiled d) (lit "default") = false) by (now apply bytes_eqb_neq). now rewrite E.
      - rewrite C, bytes_eqb_refl. destruct (GetDefaultDir compiled st o Work) as [st' w]. destruct (deref st' w); [|reflexivity]. now rewrite printed_cut2. }
    destruct d; cbn [GetDir relative suffix below]; unfold plain_dir, GetBinDir; rewrite ?O; (split; [intros R; try reflexivity; now apply FD|intros R; try destruct R; now apply FD]).
  Qed.
  (** The first time a user asks and the path fits: the directory below the home directory *)
  Theorem C107_user st o d h : override o = None -> uid o <> 0%N -> home o = Some h -> cached st (source d) = [] -> (length (user_dir h (source d)) < 4096)%nat ->
    exists st' p, get st o d = Ok (st', p) /\ deref st' p = Some (cut (user_dir h d)).
  Proof.
    intros O U H C L.
    assert (D : exists st', GetDefaultDir compiled st o (source d) = (st', PCached (source d)) /\ cached st' (source d) = cut (user_dir h (source d))).
    { unfold GetDefaultDir. assert (E : (0 <? uid o)%N = true) by (apply N.ltb_lt; lia). rewrite E, C, H, folder_user, printed_cut. assert (E2 : (PATH_MAX <=? length (user_dir h (source d)))%nat = false) by (apply Nat.leb_gt; unfold PATH_MAX; exact L). rewrite E2. eexists. split; [reflexivity|]. cbn [cached]. now rewrite dir_eqb_refl. }
    destruct D as (st' & D & CD). destruct (get_user st o d O) as [GN GR]. destruct (relative_dec d) as [R|R].
    - rewrite (GR R). rewrite (proj1 (source_relative d) R) in *. rewrite D. cbn [deref]. eexists _, _. split; [reflexivity|]. cbn [deref work_buf]. rewrite dir_eqb_refl, CD. rewrite (firstn_all2 (n := 4095) (user_dir h Work)) by lia. f_equal. f_equal. destruct d; try destruct R; unfold suffix, below, user_dir; now rewrite <- app_assoc.
    - rewrite (GN R). rewrite (proj2 (source_relative d) R) in *. rewrite D. exists st', (PCached d). split; [reflexivity|]. cbn [deref]. now rewrite CD.
  Qed.
  (** asking again *)
  Lemma get_keeps st o d st' p : get st o d = Ok (st', p) -> forall x, cached st x <> [] -> cached st' x = cached st x.
  Proof.
    intros G x N. destruct (override o) as [w|] eqn:O.
    - assert (E : cached st' = cached st); [|now rewrite E]. destruct d; cbn [GetDir] in G; unfold plain_dir, GetBinDir, folder_dir in G; rewrite O in G; injection G as <- _; reflexivity.
    - assert (K : forall y st1 q, GetDefaultDir compiled st o y = (st1, q) -> cached st1 x = cached st x).
      { intros y st1 q E. destruct (default_spec _ _ _ E) as (K1 & K2 & _). destruct (dir_eqb x y) eqn:XY; [apply dir_eqb_eq in XY; subst; auto|apply K1; intros ->; rewrite dir_eqb_refl in XY; discriminate]. }
      destruct (get_user st o d O) as [GN GR]. destruct (relative_dec d) as [R|R].
      + rewrite (GR R) in G. destruct (GetDefaultDir compiled st o Work) as [st1 q] eqn:E. destruct (deref st1 q); [|discriminate G]. injection G as <- _. cbn [cached]. eapply K; eassumption.
      + rewrite (GN R) in G. destruct (GetDefaultDir compiled st o d) as [st1 q] eqn:E. injection G as <- _. eapply K; eassumption.
  Qed.
  Lemma calls_keep cs : forall st st' ps, calls compiled st cs = Ok (st', ps) -> forall x, cached st x <> [] -> cached st' x = cached st x.
  Proof.
    induction cs as [|[o d] cs IH]; intros st st' ps C x N; cbn [calls] in C; [injection C as <- _; reflexivity|]. destruct (get st o d) as [[st1 p]| | |] eqn:G; try discriminate C. cbn [bind] in C. destruct (calls compiled st1 cs) as [[st2 qs]| | |] eqn:C2; try discriminate C. cbn [bind] in C. injection C as <- _.
    pose proof (get_keeps _ _ _ G x N) as K. rewrite (IH _ _ _ C2 x), K; [reflexivity|congruence].
  Qed.
  Lemma get_again st o d : override o = None -> uid o <> 0%N -> cached st (source d) <> [] ->
    exists st' p, get st o d = Ok (st', p) /\ deref st' p = Some (if relb d then cut (cached st Work ++ suffix d) else cached st d).
  Proof.
    intros O U N.
    assert (D : GetDefaultDir compiled st o (source d) = (st, PCached (source d))).
    { unfold GetDefaultDir. assert (E : (0 <? uid o)%N = true) by (apply N.ltb_lt; lia). rewrite E. destruct (cached st (source d)); [congruence|reflexivity]. }
    destruct (get_user st o d O) as [GN GR]. destruct (relb d) eqn:RB; apply relb_spec in RB as R.
    - rewrite (GR R). rewrite (proj1 (source_relative d) R) in *. rewrite D. cbn [deref]. eexists _, _. split; [reflexivity|]. cbn [deref work_buf]. now rewrite dir_eqb_refl.
    - rewrite (GN R). rewrite (proj2 (source_relative d) R) in *. rewrite D. exists st, (PCached d). auto.
  Qed.
  (** Once a user was given a directory, it stays, whatever is asked in between and whatever changes outside *)
  Theorem C107_stable st o d st1 p t cs st2 ps o' :
    override o = None -> uid o <> 0%N -> get st o d = Ok (st1, p) -> deref st1 p = Some t ->
    calls compiled st1 cs = Ok (st2, ps) -> override o' = None -> uid o' <> 0%N ->
    exists st3 q, get st2 o' d = Ok (st3, q) /\ deref st3 q = Some t.
  Proof.
    intros O U G T CS O' U'.
    assert (X : cached st1 (source d) <> [] /\ t = if relb d then cut (cached st1 Work ++ suffix d) else cached st1 d).
    { destruct (get_user st o d O) as [GN GR]. destruct (relb d) eqn:RB; apply relb_spec in RB as R.
      - rewrite (GR R) in G. rewrite (proj1 (source_relative d) R). destruct (GetDefaultDir compiled st o Work) as [sta q] eqn:E. destruct (default_spec _ _ _ E) as (_ & _ & _ & PC & NE). destruct (PC U) as [->| ->]; [discriminate G|]. cbn [deref] in G. injection G as <- <-. cbn [cached]. split; [now apply NE|]. cbn [deref work_buf] in T. rewrite dir_eqb_refl in T. now injection T as <-.
      - rewrite (GN R) in G. rewrite (proj2 (source_relative d) R). destruct (GetDefaultDir compiled st o d) as [sta q] eqn:E. destruct (default_spec _ _ _ E) as (_ & _ & _ & PC & NE). injection G as <- <-. destruct (PC U) as [->| ->]; [discriminate T|]. split; [now apply NE|]. cbn [deref] in T. now injection T as <-. }
    destruct X as [NE ->]. pose proof (@calls_keep cs _ _ _ CS) as KP. pose proof (KP _ NE) as K. assert (NE2 : cached st2 (source d) <> []) by congruence. destruct (get_again st2 o' d O' U' NE2) as (st3 & q & G3 & T3). exists st3, q. split; [exact G3|]. rewrite T3. f_equal.
    destruct (relb d) eqn:RB; apply relb_spec in RB as R; [rewrite (proj1 (source_relative d) R) in K; now rewrite K|rewrite (proj2 (source_relative d) R) in K; exact K].
  Qed.
  (** Whatever the history, no buffer holds more than fits *)
  Theorem C107_fits cs st ps : calls compiled initial cs = Ok (st, ps) ->
    (forall d, (length (cached st d) < 4096)%nat) /\ (length (bin_buf st) < 4096)%nat /\ (forall d, (length (work_buf st d) < 4096)%nat).
  Proof.
    set (I := fun st => (forall d, (length (cached st d) < 4096)%nat) /\ (length (bin_buf st) < 4096)%nat /\ (forall d, (length (work_buf st d) < 4096)%nat)).
    assert (CL : forall s : list byte, (length (cut s) < 4096)%nat) by (intros s; rewrite firstn_length; lia).
    assert (ID : forall st o d st' p, I st -> GetDefaultDir compiled st o d = (st', p) -> I st').
    { intros s o d s' p (A & B & C) E. unfold GetDefaultDir in E. destruct (0 <? uid o)%N; [|injection E as <- _; repeat split; auto]. destruct (cached s d); [|injection E as <- _; repeat split; auto]. destruct (home o); [|injection E as <- _; repeat split; auto]. rewrite folder_user, printed_cut in E. assert (X : s' = {| cached := fun x : dir => if dir_eqb x d then cut (user_dir l d) else cached s x; bin_buf := bin_buf s; work_buf := work_buf s |}) by (destruct (PATH_MAX <=? length (user_dir l d))%nat; injection E; auto). subst s'. split; [|auto]. cbn [cached]. intros x. destruct (dir_eqb x d); auto. }
    assert (IG : forall st o d st' p, I st -> get st o d = Ok (st', p) -> I st').
    { intros s o d s' p H E. destruct (override o) as [w|] eqn:O.
      - destruct H as (A & B & C). destruct d; cbn [GetDir] in E; unfold plain_dir, GetBinDir, folder_dir in E; rewrite O in E; injection E as <- _; (split; [auto|split]); cbn [cached bin_buf work_buf]; try assumption; try (rewrite printed_cut; apply CL); intros x; rewrite printed_cut2; destruct (dir_eqb x _); auto.
      - destruct (get_user s o d O) as [GN GR]. destruct (relative_dec d) as [R|R].
        + rewrite (GR R) in E. destruct (GetDefaultDir compiled s o Work) as [s1 q] eqn:D. apply (ID _ _ _ _ _ H) in D as (A & B & C). destruct (deref s1 q); [|discriminate E]. injection E as <- _. split; [auto|split; [auto|]]. cbn [work_buf]. intros x. destruct (dir_eqb x d); auto.
        + rewrite (GN R) in E. destruct (GetDefaultDir compiled s o d) as [s1 q] eqn:D. injection E as <- _. exact (ID _ _ _ _ _ H D). }
    assert (IC : forall cs s s' ps, I s -> calls compiled s cs = Ok (s', ps) -> I s').
    { clear cs ps. induction cs as [|[o d] cs IH]; intros s s' qs H C; cbn [calls] in C; [injection C as <- _; exact H|]. destruct (get s o d) as [[s1 p]| | |] eqn:G; try discriminate C. cbn [bind] in C. destruct (calls compiled s1 cs) as [[s2 rs]| | |] eqn:C2; try discriminate C. cbn [bind] in C. injection C as <- _. exact (IH _ _ _ (IG _ _ _ _ _ H G) C2). }
    apply IC. unfold I, initial. cbn. repeat split; intros; lia.
  Qed.
End Dirs.
Print Assumptions C107_override.
Print Assumptions C107_root.
Print Assumptions C107_user.
Print Assumptions C107_stable.
Print Assumptions C107_fits.

Definition compiled_example (d : dir) : list byte := match d with Work => lit "/var/cfengine" | Bin => lit "/var/cfengine/bin" | _ => lit "default" end.
Example C107_case : exists st ps, calls compiled_example initial
    [(mkOut 1000 (Some (lit "/home/me")) None, Input); (mkOut 1000 None None, Work); (mkOut 0 None None, State); (mkOut 1000 (Some (lit "/home/you")) (Some (lit "/tmp/t")), Bin); (mkOut 1000 (Some (lit "/home/you")) None, Input)] = Ok (st, ps) /\
  map (deref st) ps = [Some (lit "/home/me/.cfagent/inputs"); Some (lit "/home/me/.cfagent"); Some (lit "/var/cfengine/state"); Some (lit "/tmp/t/bin"); Some (lit "/home/me/.cfagent/inputs")].
Proof. eexists _, _. split; [vm_compute; reflexivity|vm_compute; reflexivity]. Qed.

(** A path that is too long is refused the first time only: then the same function returns the text cut off, another directory *)
Theorem C107_too_long_refuted : exists o st, override o = None /\
  GetDir compiled_example initial o Work = Ok (st, PNull) /\ GetDir compiled_example st o Work = Ok (st, PCached Work) /\
  exists h, home o = Some h /\ deref st (PCached Work) = Some (firstn 4095 (user_dir h Work)) /\ firstn 4095 (user_dir h Work) <> user_dir h Work.
Proof.
  exists (mkOut 1000 (Some (repeat "a"%char 4090)) None). eexists. split; [reflexivity|]. split; [vm_compute; reflexivity|]. split; [vm_compute; reflexivity|]. eexists. split; [reflexivity|]. split; [vm_compute; reflexivity|].
  intros H. apply (f_equal (@length byte)) in H. vm_compute in H. discriminate H.
Qed.
Print Assumptions C107_too_long_refuted.
(** A user without a password entry: GetInputDir prints NULL with %s *)
Theorem C107_no_home_refuted : exists o, override o = None /\ GetDir compiled_example initial o Work = Ok (initial, PNull) /\ GetDir compiled_example initial o Input = UB.
Proof. exists (mkOut 1000 None None). repeat split. Qed.
Print Assumptions C107_no_home_refuted.
