(** Proofs about SafeModel.v, II: safe_open under every schedule. *)
From Verif Require Import Prelude PreludeFacts Str StrFacts Libc LibcFacts FsModel SafeModel SafeSpec SafeProofs.
Set Implicit Arguments.

Definition outcome (w : world) (a : list (nat * nat)) (tr : list event -> nat -> Prop) (x : res (world * (errno + nat))) : Prop :=
  exists w' r evs, x = Ok (w', r) /\ wf_fds w' /\ log w' = log w ++ evs /\ nextfd w <= nextfd w' /\
    match r with
    | inl e => fds w' = a /\ harmless evs
    | inr fd => exists i, fds w' = a ++ [(fd, i)] /\ nextfd w <= fd /\ tr evs i
    end.

Lemma outcome_mono w a (tr tr' : list event -> nat -> Prop) x : (forall e i, tr e i -> tr' e i) -> outcome w a tr x -> outcome w a tr' x.
Proof.
  intros M (w' & r & evs & ? & ? & ? & ? & C). exists w', r, evs. do 4 (split; auto).
  destruct r; auto. destruct C as (i & ? & ? & ?). exists i; auto.
Qed.
(** an outcome from a later state *)
Lemma outcome_later w w1 evs1 a (tr tr' : list event -> nat -> Prop) x :
  log w1 = log w ++ evs1 -> nextfd w <= nextfd w1 -> harmless evs1 ->
  (forall e i, tr e i -> tr' (evs1 ++ e) i) -> outcome w1 a tr x -> outcome w a tr' x.
Proof.
  intros L N H M (w' & r & evs & -> & ? & L' & N' & C). exists w', r, (evs1 ++ evs). do 2 (split; auto).
  split; [rewrite L', L, app_assoc; auto|]. split; [lia|].
  destruct r.
  - destruct C; split; auto. now apply Forall_app.
  - destruct C as (i & ? & ? & ?). exists i. split; auto. split; auto. lia.
Qed.
Lemma outcome_fail w w' a tr e evs : wf_fds w' -> fds w' = a -> log w' = log w ++ evs -> nextfd w <= nextfd w' -> harmless evs ->
  outcome w a tr (Ok (w', inl e)).
Proof. intros. exists w', (inl e), evs. repeat (split; auto). Qed.

Lemma looks_harmless d n evs : looks d n evs -> harmless evs.
Proof. apply Forall_impl. intros e (s & ->). reflexivity. Qed.

Section SafeOpen.
  Variable E : environment.
  Notation trusted := (fun u : Z => u = 0%Z \/ u = p_uid E).

  Lemma accept_test (before after : stat) :
    negb (st_uid before =? 0)%Z && negb (st_uid before =? p_uid E)%Z &&
           (negb (st_uid before =? st_uid after)%Z || negb (st_gid before =? st_gid after)%Z) = false ->
    acceptable trusted before after.
  Proof.
    unfold acceptable, same_owner. intros T.
    destruct (Z.eqb_spec (st_uid before) 0); [auto|]. destruct (Z.eqb_spec (st_uid before) (p_uid E)); [auto|].
    destruct (Z.eqb_spec (st_uid before) (st_uid after)); [|discriminate].
    destruct (Z.eqb_spec (st_gid before) (st_gid after)); [|discriminate]. auto.
  Qed.

  Lemma verify_spec w a fd i before : wf_fds w -> fds w = a ++ [(fd, i)] ->
    exists w' r evs, verify E w fd before = Ok (w', r) /\ wf_fds w' /\ log w' = log w ++ evs /\ nextfd w' = nextfd w /\
      match r with
      | inl e => fds w' = a /\ harmless evs
      | inr size => fds w' = a ++ [(fd, i)] /\ exists after, evs = [Checked i after] /\ size = st_size after /\ acceptable trusted before after
      end.
  Proof.
    intros WF FD. unfold verify.
    destruct (@fstat_spec E w a fd i [] WF FD) as (w1 & r & -> & _ & CASE). cbn [bind].
    destruct CASE as [(s & -> & M)|(e & -> & M)]; destruct M as (F & N & L).
    - assert (M : moved w w1 [Checked i s]) by (repeat split; auto). pose proof (moved_wf M WF) as WF1.
      rewrite FD in F.
      match goal with |- context [if ?c then _ else _] => destruct c eqn:T end.
      + destruct (@close_mid _ a fd i [] WF1 F) as (w2 & -> & WF2 & F2 & N2 & L2 & _). cbn [bind].
        eexists _, _, [Checked i s]. split; [reflexivity|]. rewrite L2, N2. rewrite app_nil_r in F2.
        do 3 (split; auto). split; auto. repeat constructor.
      + eexists _, _, [Checked i s]. split; [reflexivity|]. do 3 (split; auto). split; auto. exists s. split; auto. split; auto.
        now apply accept_test.
    - assert (M : moved w w1 []) by (repeat split; auto). pose proof (moved_wf M WF) as WF1.
      rewrite FD in F.
      destruct (@close_mid _ a fd i [] WF1 F) as (w2 & -> & WF2 & F2 & N2 & L2 & _). cbn [bind].
      eexists _, _, []. split; [reflexivity|]. rewrite L2, N2. rewrite app_nil_r in F2.
      do 3 (split; auto). split; auto. constructor.
  Qed.

  Lemma finish_spec w a fd i trunc size : wf_fds w -> fds w = a ++ [(fd, i)] ->
    exists w' r evs, finish_open E w fd trunc (Some size) = Ok (w', r) /\ wf_fds w' /\ log w' = log w ++ evs /\ nextfd w' = nextfd w /\
      match r with
      | inl e => fds w' = a /\ harmless evs
      | inr fd' => fd' = fd /\ fds w' = a ++ [(fd, i)] /\ evs = (if trunc && negb (size =? 0) then [Truncated i] else [])
      end.
  Proof.
    intros WF FD. unfold finish_open.
    destruct trunc; cbn [andb].
    2:{ eexists _, _, []. split; [reflexivity|]. rewrite app_nil_r. repeat (split; auto). }
    destruct size as [|size]; cbn [Nat.eqb negb].
    { eexists _, _, []. split; [reflexivity|]. rewrite app_nil_r. repeat (split; auto). }
    destruct (@ftruncate_spec E w a fd i [] WF FD) as (w1 & r & -> & CASE). cbn [bind].
    destruct CASE as [(-> & M)|(e & -> & M)]; pose proof (moved_wf M WF) as WF1; destruct M as (F & N & L); rewrite FD in F.
    - eexists _, _, _. split; [reflexivity|]. split; auto. split; [exact L|]. split; auto.
    - destruct (@close_mid _ a fd i [] WF1 F) as (w2 & -> & WF2 & F2 & N2 & L2 & _). cbn [bind]. rewrite app_nil_r in F2.
      eexists _, _, []. split; [reflexivity|]. rewrite L2, N2. do 3 (split; auto). split; auto. constructor.
  Qed.

  Lemma trail_retry creat trunc d n evs0 evs i : looks d n evs0 ->
    trail trusted creat trunc d [n] evs i -> trail trusted creat trunc d [n] (evs0 ++ evs) i.
  Proof.
    intros LK T. inversion T as [|? ? ? ? ? ? ? ? ? NE|? ? ? rt|? ? rt]; subst; [now elim NE| |]; rewrite app_assoc.
    - apply trail_last; auto. now apply Forall_app.
    - apply trail_new; auto. now apply Forall_app.
  Qed.
  Lemma looks1 d n s : looks d n [Saw d n s].
  Proof. repeat constructor. eauto. Qed.

  Lemma last_spec component slashes orig perms :
    path_names component = [component] ->
    Forall (fun c => c = SLASH) slashes ->
    (O_TRUNC orig = true -> O_WR orig = true) ->
    (ends_in_slash (component ++ slashes) = false -> slashes = []) ->
    forall attempts w a cur d, wf_fds w -> fds w = a ++ [(cur, d)] ->
    outcome w a (trail trusted (O_CREAT orig) (O_TRUNC orig) d [component]) (last_component E attempts w cur component slashes orig perms).
  Proof.
    intros PN SL TW ES.
    assert (FAILcase : forall w0 w a cur d evs e, wf_fds w -> fds w = a ++ [(cur, d)] -> log w = log w0 ++ evs -> nextfd w0 <= nextfd w -> harmless evs ->
       outcome w0 a (trail trusted (O_CREAT orig) (O_TRUNC orig) d [component]) (let* w := sys_close w cur in Ok (w, inl e))).
    { intros w0 w a cur d evs e WF FD L N H.
      destruct (@close_mid _ a cur d [] WF FD) as (w2 & -> & WF2 & F2 & N2 & L2 & _). cbn [bind]. rewrite app_nil_r in F2.
      apply outcome_fail with (evs := evs); auto; congruence || lia. }
    induction attempts as [|attempts IH]; intros w a cur d WF FD.
    all: cbn [last_component].
    all: set (trunc := O_WR orig && O_TRUNC orig).
    all: assert (TR : trunc = O_TRUNC orig) by (unfold trunc; destruct (O_TRUNC orig); [rewrite TW; auto|apply andb_false_r]).
    all: set (fl := if trunc then _ else orig).
    all: assert (FT : O_TRUNC fl = false) by (unfold fl; rewrite TR; destruct (O_TRUNC orig) eqn:?; auto).
    all: assert (FC : O_CREAT fl = O_CREAT orig) by (unfold fl; destruct trunc; auto).
    all: assert (FE : O_EXCL fl = O_EXCL orig) by (unfold fl; destruct trunc; auto).
    all: clearbody fl.
    all: destruct (@fstatat_spec E w a cur d [] component WF FD) as (w1 & r & -> & _ & CASE); cbn [bind].
    all: destruct CASE as [(s & -> & M)|(e & -> & M)].
    (* it exists *)
    1,3: (pose proof (moved_wf M WF) as WF1; destruct M as (F & N & L); rewrite FD in F;
      destruct (O_CREAT fl && O_EXCL fl);
      [eapply FAILcase; eauto; [lia|repeat constructor]|]).
    1,2: (set (fl' := mkFlags _ false _ _);
      destruct (@openat_spec E w1 a cur d [] (component ++ slashes) fl' perms WF1 F) as (w2 & r & -> & CASE); [exact FT|]; cbn [bind];
      destruct CASE as [(k & i & -> & CASE)|(e & -> & M)]).
    1,3: (destruct CASE as [(_ & G)|(X & _)]; [|discriminate X];
       pose proof (gained_wf G WF1) as WF2; destruct G as (F2 & N2 & K2 & L2); rewrite F in F2; rewrite <- app_assoc in F2; cbn [app] in F2;
       destruct (@close_mid _ a cur d [(k, i)] WF2 F2) as (w3 & -> & WF3 & F3 & N3 & L3 & _); cbn [bind];
       destruct (@verify_spec _ a k i s WF3 F3) as (w4 & r & evs & -> & WF4 & L4 & N4 & C4); cbn [bind];
       destruct r as [e|size];
       [ destruct C4 as [F4 H4]; apply outcome_fail with (evs := [Saw d component (Some s); Opened d (component ++ slashes) i] ++ evs); auto;
         [rewrite L4, L3, L2, L, <- !app_assoc; reflexivity|lia|];
         apply Forall_app; split; auto; repeat constructor
       | destruct C4 as (F4 & after & -> & -> & ACC);
         destruct (@finish_spec _ a k i trunc (st_size after) WF4 F4) as (w5 & r & evs & -> & WF5 & L5 & N5 & C5);
         exists w5, r, ([Saw d component (Some s); Opened d (component ++ slashes) i; Checked i after] ++ evs);
         split; [reflexivity|]; split; [auto|]; split; [rewrite L5, L4, L3, L2, L, <- !app_assoc; reflexivity|]; split; [lia|];
         destruct r as [e|fd'];
         [ destruct C5 as [F5 H5]; split; auto; apply Forall_app; split; auto; repeat constructor
         | destruct C5 as (-> & F5 & ->); exists i; split; auto; split; [lia|]; rewrite TR;
           apply (@trail_last trusted (O_CREAT orig) (O_TRUNC orig) d component slashes [] s after i); auto; constructor ]]).
    1,2: (pose proof (moved_wf M WF1) as WF2; destruct M as (F2 & N2 & L2); rewrite F in F2;
      match goal with |- context [if ?c then _ else _] => destruct c end;
      [|eapply FAILcase with (evs := [Saw d component (Some s)]); eauto; [rewrite L2, L, app_nil_r; auto|lia|repeat constructor]]).
    1: eapply FAILcase with (evs := [Saw d component (Some s)]); eauto; [rewrite L2, L, app_nil_r; auto|lia|repeat constructor].
    1: (eapply outcome_later with (evs1 := [Saw d component (Some s)]); [rewrite L2, L, app_nil_r; auto|lia|repeat constructor| |apply (IH w2 a cur d); auto]); intros e' i' T; apply trail_retry; auto using looks1.
    (* it does not *)
    all: (assert (H1 : exists evs1, moved w w1 evs1 /\ looks d component evs1) by
      (destruct M as [M|M]; eexists; (split; [exact M|]); [constructor|apply looks1]);
      clear M; destruct H1 as (evs1 & M & LK); pose proof (looks_harmless LK) as H1;
      pose proof (moved_wf M WF) as WF1; destruct M as (F & N & L); rewrite FD in F).
    all: (match goal with |- context [if ?c then _ else _] => destruct c eqn:T end;
      [|eapply FAILcase; eauto; lia]).
    all: apply andb_prop in T as [_ CR].
    all: rewrite CR; cbn [massert].
    all: (set (fl' := mkFlags _ _ true _);
      destruct (@openat_spec E w1 a cur d [] (component ++ slashes) fl' perms WF1 F) as (w2 & r & -> & CASE); [exact FT|]; cbn [bind];
      destruct CASE as [(k & i & -> & CASE)|(e' & -> & M)]).
    1,3: (destruct CASE as [(X & _)|(_ & n & PN' & NS & G)]; [elim X; split; reflexivity|];
       pose proof (ES NS) as ->; rewrite app_nil_r in PN'; assert (n = component) by congruence; subst n;
       pose proof (gained_wf G WF1) as WF2; destruct G as (F2 & N2 & K2 & L2); rewrite F in F2; rewrite <- app_assoc in F2; cbn [app] in F2;
       destruct (@close_mid _ a cur d [(k, i)] WF2 F2) as (w3 & -> & WF3 & F3 & N3 & L3 & _); cbn [bind finish_open];
       exists w3, (inr k), (evs1 ++ [Created d component i]); split; [reflexivity|]; split; [auto|];
       split; [rewrite L3, L2, L, <- app_assoc; auto|]; split; [lia|]; exists i; split; auto; split; [lia|];
       apply trail_new; [congruence|auto]).
    all: (pose proof (moved_wf M WF1) as WF2; destruct M as (F2 & N2 & L2); rewrite F in F2; rewrite app_nil_r in L2;
      match goal with |- context [if ?c then _ else _] => destruct c end;
      [|apply (FAILcase w w2 a cur d evs1); auto; congruence || lia]).
    1: apply (FAILcase w w2 a cur d evs1); auto; congruence || lia.
    1: (eapply outcome_later with (w1 := w2) (evs1 := evs1); [congruence|lia|auto| |apply (IH w2 a cur d); auto]); intros e2 i' T; apply trail_retry; auto.
  Qed.
End SafeOpen.

(** the components the code cuts the path into are the pieces between slashes *)
Lemma split_app_slash a b : forallb (fun c => negb (beq c SLASH)) a = true -> split_slash (a ++ SLASH :: b) = a :: split_slash b.
Proof.
  induction a as [|c a IH]; cbn; auto. intros H. apply andb_true_iff in H as [N H]. apply negb_true_iff in N.
  rewrite N. now rewrite IH.
Qed.
Lemma split_plain a : forallb (fun c => negb (beq c SLASH)) a = true -> split_slash a = [a].
Proof.
  induction a as [|c a IH]; cbn; auto. intros H. apply andb_true_iff in H as [N H]. apply negb_true_iff in N.
  rewrite N. now rewrite IH.
Qed.
Lemma slash_beq c : beq c SLASH = true -> c = SLASH.
Proof. apply StrFacts.beq_true. Qed.
Lemma pieces_slashes l s : forallb (fun c => beq c SLASH) l = true -> pieces (l ++ s) = pieces s.
Proof.
  induction l as [|c l IH]; auto. intros H. apply andb_true_iff in H as [N H]. unfold pieces in *. cbn. rewrite N. cbn. auto.
Qed.
Lemma pieces_drop s : pieces (drop_slashes s) = pieces s.
Proof.
  unfold drop_slashes. destruct (span _ s) as [a b] eqn:SP. apply span_eq in SP as (-> & F & _). now rewrite pieces_slashes.
Qed.
Lemma drop_head s : match drop_slashes s with [] => True | c :: _ => beq c SLASH = false end.
Proof. unfold drop_slashes. destruct (span _ s) as [a b] eqn:SP. now apply span_eq in SP as (-> & F & B). Qed.
Lemma drop_length s : length (drop_slashes s) <= length s.
Proof. unfold drop_slashes. destruct (span _ s) as [a b] eqn:SP. apply span_eq in SP as (-> & F & _). cbn. rewrite app_length. lia. Qed.

Lemma ends_snoc s c : ends_in_slash (s ++ [c]) = beq c SLASH.
Proof. unfold ends_in_slash. now rewrite last_last. Qed.
Lemma plain_noslash_end a : forallb (fun c => negb (beq c SLASH)) a = true -> ends_in_slash a = false.
Proof.
  destruct a as [|x l] using rev_ind; [reflexivity|]. rewrite ends_snoc, forallb_app. cbn. intros H.
  apply andb_true_iff in H as [_ H]. rewrite andb_true_r in H. now apply negb_true_iff in H.
Qed.
Lemma plain_names a : a <> [] -> forallb (fun c => negb (beq c SLASH)) a = true -> path_names a = [a].
Proof.
  intros NE H. unfold path_names, pieces. rewrite split_plain by auto. destruct a; [easy|]. cbn [filter nonempty].
  now rewrite plain_noslash_end.
Qed.

(** [s] starts with something that is not a slash *)
Lemma next_spec s comp next sl : s <> [] -> match s with [] => True | c :: _ => beq c SLASH = false end ->
  next_component s = (comp, next, sl) ->
  comp <> [] /\ forallb (fun c => negb (beq c SLASH)) comp = true /\ forallb (fun c => beq c SLASH) sl = true /\
  match next with
  | None => s = comp ++ sl /\ pieces s = [comp]
  | Some r => r <> [] /\ match r with [] => True | c :: _ => beq c SLASH = false end /\ sl = [] /\ pieces s = comp :: pieces r /\ length r < length s
     /\ exists sl', forallb (fun c => beq c SLASH) sl' = true /\ sl' <> [] /\ s = comp ++ sl' ++ r
  end.
Proof.
  destruct s as [|c t]; [easy|]. intros _ NS. cbn [next_component].
  destruct (span (fun c => negb (beq c SLASH)) t) as [a rest] eqn:SP. apply span_eq in SP as (-> & F & B).
  assert (FA : forallb (fun c => negb (beq c SLASH)) (c :: a) = true) by (cbn; now rewrite NS, F).
  pose proof (drop_head rest) as DH. pose proof (drop_length rest) as DL.
  assert (R : rest = [] \/ exists rest', rest = SLASH :: rest').
  { destruct rest as [|x rest']; auto. right. apply negb_false_iff in B. apply slash_beq in B as ->. eauto. }
  assert (SPL : exists sl', forallb (fun c => beq c SLASH) sl' = true /\ rest = sl' ++ drop_slashes rest).
  { unfold drop_slashes. destruct (span _ rest) as [u v] eqn:SP. apply span_eq in SP as (-> & FU & _). exists u. auto. }
  destruct (drop_slashes rest) as [|y r] eqn:D; intros X; injection X as <- <- <-.
  - split; [easy|]. split; auto. destruct SPL as (sl' & FS & RS). rewrite app_nil_r in RS. subst sl'.
    split; auto. split; auto. change (c :: a ++ rest) with ((c :: a) ++ rest).
    destruct R as [-> |(rest' & ->)].
    + rewrite app_nil_r. unfold pieces. rewrite split_plain by auto. reflexivity.
    + unfold pieces. rewrite split_app_slash by auto. cbn [filter nonempty]. f_equal.
      cbn in FS. rewrite <- (app_nil_r rest'). change (filter nonempty (split_slash (rest' ++ []))) with (pieces (rest' ++ [])).
      rewrite pieces_slashes; auto. 
  - split; [easy|]. split; auto. split; [reflexivity|]. split; [easy|]. split; [exact DH|]. split; auto.
    destruct R as [-> |(rest' & ->)]; [discriminate D|].
    split; [|split].
    + change (c :: a ++ SLASH :: rest') with ((c :: a) ++ SLASH :: rest'). unfold pieces at 1. rewrite split_app_slash by auto.
      cbn [filter nonempty]. f_equal. rewrite <- D. rewrite pieces_drop. reflexivity.
    + cbn [length] in *. rewrite app_length. cbn [length]. lia.
    + destruct SPL as (sl' & FS & RS). exists sl'. split; auto. split.
      * intros ->. cbn in RS. injection RS as RS1 RS2. rewrite <- RS1 in DH. discriminate DH.
      * change (c :: a ++ SLASH :: rest') with ((c :: a) ++ SLASH :: rest'). now rewrite RS.
Qed.

Section SafeOpen2.
  Variable E : environment.
  Notation trusted := (fun u : Z => u = 0%Z \/ u = p_uid E).

  Lemma forall_slash sl : forallb (fun c => beq c SLASH) sl = true -> Forall (fun c => c = SLASH) sl.
  Proof. rewrite forallb_forall, Forall_forall. intros H x IN. apply slash_beq. auto. Qed.
  Lemma end_sl comp sl : forallb (fun c => beq c SLASH) sl = true -> ends_in_slash (comp ++ sl) = false -> sl = [].
  Proof.
    destruct sl as [|x l] using rev_ind; auto. rewrite app_assoc, ends_snoc, forallb_app. cbn. intros H X.
    rewrite X in H. now rewrite andb_false_r in H.
  Qed.

  Lemma loop_spec orig perms : (O_TRUNC orig = true -> O_WR orig = true) ->
    forall fuel path w a cur d, length path < fuel -> path <> [] -> match path with [] => True | c :: _ => beq c SLASH = false end ->
    wf_fds w -> fds w = a ++ [(cur, d)] ->
    outcome w a (trail trusted (O_CREAT orig) (O_TRUNC orig) d (pieces path)) (components_loop E fuel w cur path orig perms).
  Proof.
    intros TW. induction fuel as [|fuel IH]; intros path w a cur d LEN NE HD WF FD; [lia|].
    cbn [components_loop]. destruct (next_component path) as [[comp next] sl] eqn:NC.
    destruct (next_spec NE HD NC) as (CN & CF & SF & SPEC).
    destruct next as [rest|].
    2:{ destruct SPEC as (-> & ->). apply last_spec; auto using plain_names, forall_slash. now apply end_sl. }
    destruct SPEC as (RN & RH & -> & PC & RL & _). rewrite PC.
    assert (PRN : pieces rest <> []).
    { destruct (next_component rest) as [[c1 n1] s1] eqn:NC1. destruct (next_spec RN RH NC1) as (_ & _ & _ & S1).
      destruct n1; [destruct S1 as (_ & _ & _ & -> & _)|destruct S1 as (_ & ->)]; easy. }
    destruct (@fstatat_spec E w a cur d [] comp WF FD) as (w1 & r & -> & _ & CASE); cbn [bind].
    destruct CASE as [(s & -> & M)|(e & -> & M)].
    2:{ assert (H1 : exists evs1, moved w w1 evs1 /\ looks d comp evs1).
        { destruct M as [M|M]; eexists; (split; [exact M|]); [constructor|apply looks1]. }
        clear M. destruct H1 as (evs1 & M & LK). pose proof (moved_wf M WF) as WF1; destruct M as (F & N & L); rewrite FD in F.
        destruct (@close_mid _ a cur d [] WF1 F) as (w2 & -> & WF2 & F2 & N2 & L2 & _); cbn [bind]. rewrite app_nil_r in F2.
        apply outcome_fail with (evs := evs1); auto; [congruence|lia|]. eapply looks_harmless; eauto. }
    pose proof (moved_wf M WF) as WF1; destruct M as (F & N & L); rewrite FD in F.
    destruct (@openat_spec E w1 a cur d [] comp RDONLY 0 WF1 F) as (w2 & r & -> & CASE); [reflexivity|]; cbn [bind].
    destruct CASE as [(k & i & -> & CASE)|(e & -> & M)].
    2:{ pose proof (moved_wf M WF1) as WF2; destruct M as (F2 & N2 & L2); rewrite F in F2.
        destruct (@close_mid _ a cur d [] WF2 F2) as (w3 & -> & WF3 & F3 & N3 & L3 & _); cbn [bind]. rewrite app_nil_r in F3, L2.
        apply outcome_fail with (evs := [Saw d comp (Some s)]); auto; [congruence|lia|]. repeat constructor. }
    destruct CASE as [(_ & G)|(X & _)]; [|discriminate X].
    pose proof (gained_wf G WF1) as WF2; destruct G as (F2 & N2 & K2 & L2); rewrite F in F2; rewrite <- app_assoc in F2; cbn [app] in F2.
    destruct (@close_mid _ a cur d [(k, i)] WF2 F2) as (w3 & -> & WF3 & F3 & N3 & L3 & _); cbn [bind].
    destruct (@verify_spec E _ a k i s WF3 F3) as (w4 & r & evs & -> & WF4 & L4 & N4 & C4); cbn [bind].
    destruct r as [e|size].
    - destruct C4 as [F4 H4]. apply outcome_fail with (evs := [Saw d comp (Some s); Opened d comp i] ++ evs); auto.
      + rewrite L4, L3, L2, L, <- !app_assoc. reflexivity.
      + lia.
      + apply Forall_app; split; [repeat constructor|auto].
    - destruct C4 as (F4 & after & -> & -> & ACC).
      eapply outcome_later with (w1 := w4) (evs1 := [Saw d comp (Some s); Opened d comp i; Checked i after]); [| | | |apply (IH rest w4 a k i); auto; lia].
      + rewrite L4, L3, L2, L, <- !app_assoc. reflexivity.
      + lia.
      + repeat constructor.
      + intros evs j T. cbn [app]. now apply trail_dir.
  Qed.

  Theorem safe_open_spec w path fl perms : wf_fds w -> (O_TRUNC fl = true -> O_WR fl = true) ->
    outcome w (fds w)
      (fun evs i => exists d0 evs', evs = Opened (cwd (others E (clock w) (wfs w))) (if absolute path then [SLASH] else DOT) d0 :: evs'
                      /\ trail trusted (O_CREAT fl) (O_TRUNC fl) d0 (pieces path) evs' i)
      (safe_open_create_perms E w path fl perms).
  Proof.
    intros WF TW. unfold safe_open_create_perms.
    replace (negb (O_TRUNC fl) || O_WR fl) with true by (destruct (O_TRUNC fl); [rewrite TW|]; auto). cbn [massert].
    destruct path as [|c t].
    { apply outcome_fail with (evs := []); auto; [now rewrite app_nil_r|constructor]. }
    set (path := c :: t). set (first := if absolute path then [SLASH] else DOT). set (p := if absolute path then drop_slashes path else path).
    assert (PP : pieces p = pieces path) by (unfold p; destruct (absolute path); [apply pieces_drop|reflexivity]).
    assert (PH : match p with [] => True | c :: _ => beq c SLASH = false end).
    { unfold p. destruct (absolute path) eqn:AB; [apply drop_head|exact AB]. }
    set (d := cwd (others E (clock w) (wfs w))).
    destruct (@openat_gen E w AT_FDCWD d first RDONLY 0) as (w1 & r & -> & CASE); [reflexivity|reflexivity|]. cbn [bind].
    destruct CASE as [(k & i & -> & CASE)|(e & -> & M)].
    2:{ pose proof (moved_wf M WF) as WF1; destruct M as (F & N & L). apply outcome_fail with (evs := []); auto; [lia|constructor]. }
    destruct CASE as [(_ & G)|(X & _)]; [|discriminate X].
    pose proof (gained_wf G WF) as WF1; destruct G as (F & N & K & L).
    assert (PE : p = [] \/ p <> []) by (destruct p; [now left|now right]).
    destruct PE as [PE|PE].
    - rewrite PE. exists w1, (inr k), [Opened d first i]. split; auto. split; auto. split; auto. split; [lia|].
      exists i. split; auto. split; [lia|]. exists i, []. split; auto. rewrite <- PP, PE. constructor.
    - replace (match p with [] => Ok (w1, inr k) | _ :: _ => components_loop E (S (length p)) w1 k p fl perms end)
        with (components_loop E (S (length p)) w1 k p fl perms) by (destruct p; [easy|reflexivity]).
      eapply outcome_later with (w1 := w1) (evs1 := [Opened d first i]); [exact L|lia|repeat constructor| |].
      2:{ apply (@loop_spec fl perms TW (S (length p)) p w1 (fds w) k i); auto. }
      cbn beta. intros evs j T. exists i, evs. split; auto. now rewrite <- PP.
  Qed.
End SafeOpen2.
