(** C94-C98: libutils/logging.c. *)
From Verif Require Import Prelude PreludeFacts Str StrFacts Libc LibcFacts CmpModel CmpSpec CmpFacts CmpProofs PropsCmp LogModel LogSpec CompatModel CompatProofs CsvProofs.
Set Implicit Arguments.
Local Open Scope Z_scope.

(** * C94: where messages go *)
Lemma eoln_spec text : is_cstr text -> forall a b f, text = a ++ b -> (length b < f)%nat ->
  eoln_loop f (length a) (block text) = Ok (map Some a ++ (match rev b with c :: r => if beq c NL then map Some (rev r) ++ [Some NUL] else map Some b | [] => [] end) ++ [Some NUL]).
Proof.
  intros CS a b. revert a. induction b as [|c b IH]; intros a f E LT; destruct f as [|f]; cbn [length] in LT; try lia; cbn [eoln_loop].
  - rewrite app_nil_r in E. subst a. unfold block. rewrite map_app. cbn [map].
    assert (G : aget (map Some text ++ [Some NUL]) (length text) = Ok NUL).
    { unfold aget. rewrite nth_error_app2 by (rewrite map_length; lia). now rewrite map_length, Nat.sub_diag. }
    rewrite G. reflexivity.
  - assert (G : forall x r, text = a ++ x :: r -> aget (block text) (length a) = Ok x).
    { intros x r ->. unfold block, aget. rewrite <- app_assoc, map_app, nth_error_app2 by (rewrite map_length; lia). now rewrite map_length, Nat.sub_diag. }
    rewrite (G c b E). cbn [bind].
    assert (NZ : beq c NUL = false). { destruct (beq c NUL) eqn:B; auto. apply beq_true in B as ->. exfalso. apply CS. rewrite E. apply in_or_app. right. now left. }
    rewrite NZ.
    assert (G2 : aget (block text) (S (length a)) = Ok (match b with [] => NUL | d :: _ => d end)).
    { rewrite E. unfold block, aget. rewrite <- app_assoc, map_app, nth_error_app2 by (rewrite map_length; lia). rewrite map_length.
      replace (S (length a) - length a)%nat with 1%nat by lia. destruct b; reflexivity. }
    destruct b as [|d b].
    + cbn [rev app]. destruct (beq c NL) eqn:B; cbn [bind].
      * rewrite G2. cbn [bind]. change (beq NUL NUL) with true. cbv iota. subst text. unfold block. rewrite !map_app, <- app_assoc. cbn [map app rev].
        unfold aset. rewrite app_length, map_length. cbn [length]. rewrite (proj2 (Nat.ltb_lt _ _)) by lia. f_equal.
        rewrite upd_app_r by (rewrite map_length; lia). rewrite map_length, Nat.sub_diag. reflexivity.
      * replace (S (length a)) with (length (a ++ [c])) by (rewrite app_length; cbn [length]; lia).
        rewrite (IH (a ++ [c]) f) by (try (now rewrite <- app_assoc); cbn [length]; lia). cbn [rev app]. rewrite map_app, <- app_assoc. reflexivity.
    + assert (ND : beq d NUL = false). { destruct (beq d NUL) eqn:B; auto. apply beq_true in B as ->. exfalso. apply CS. rewrite E. apply in_or_app. right. right. now left. }
      assert (STEP : (let* last := (if beq c NL then let* d := aget (block text) (S (length a)) in Ok (beq d NUL) else Ok false) in
                      if last : bool then aset (block text) (length a) NUL else eoln_loop f (S (length a)) (block text)) = eoln_loop f (S (length a)) (block text)).
      { rewrite G2. destruct (beq c NL); cbn [bind]; [rewrite ND|]; reflexivity. }
      rewrite STEP. replace (S (length a)) with (length (a ++ [c])) by (rewrite app_length; cbn [length]; lia).
      rewrite (IH (a ++ [c]) f) by (try (now rewrite <- app_assoc); cbn [length] in *; lia).
      f_equal. rewrite map_app, <- app_assoc. cbn [map app]. f_equal. change (rev (c :: d :: b)) with (rev (d :: b) ++ [c]).
      destruct (rev (d :: b)) as [|x r] eqn:R. { apply (f_equal (@length _)) in R. rewrite rev_length in R. discriminate. }
      cbn [app]. destruct (beq x NL); [|reflexivity]. rewrite rev_app_distr. cbn [rev app]. reflexivity.
Qed.
Lemma cstr_app a b : is_cstr (a ++ b) -> is_cstr a /\ is_cstr b.
Proof. intros C. split; intros I; apply C; apply in_or_app; auto. Qed.
Lemma chop_cases text : (exists r, text = r ++ [NL] /\ chop text = r) \/ (chop text = text /\ (forall r, text <> r ++ [NL])).
Proof.
  unfold chop. destruct (rev text) as [|c r] eqn:R.
  - right. apply (f_equal (@rev _)) in R. rewrite rev_involutive in R. cbn in R. subst. split; auto. intros r E. destruct r; discriminate.
  - apply (f_equal (@rev _)) in R. rewrite rev_involutive in R. cbn [rev] in R. destruct (beq c NL) eqn:B.
    + apply beq_true in B as ->. left. exists (rev r). auto.
    + right. split; auto. intros r' E. rewrite R in E. apply app_inj_tail in E as [_ ->]. discriminate.
Qed.
Lemma eoln_chop text : is_cstr text -> (let* m := eoln_loop (S (length text)) 0 (block text) in mstr m) = Ok (chop text).
Proof.
  intros CS. change 0%nat with (length (@nil byte)). rewrite (@eoln_spec text CS [] text _ eq_refl) by lia. cbn [bind map app].
  unfold chop. destruct (rev text) as [|c r] eqn:R; [reflexivity|].
  apply (f_equal (@rev _)) in R. rewrite rev_involutive in R. cbn [rev] in R.
  destruct (beq c NL).
  - rewrite <- app_assoc. cbn [app]. apply mstr_at. rewrite R in CS. now apply cstr_app in CS.
  - now apply mstr_at.
Qed.
Lemma chop_cstr text : is_cstr text -> is_cstr (chop text).
Proof. intros CS. destruct (chop_cases text) as [[r [E ->]]|[-> _]]; auto. subst. now apply cstr_app in CS. Qed.

Definition view_of (c : LoggingContext) : view := mkView (log_level c) (report_level c) (color c) (has_hook c).
Record agrees (prefix : list byte) (before : history) (g : log) : Prop := mkAgrees
  { ag_level : global_level g = p_level (process_after before);
    ag_agent : AgentType g = p_agent (process_after before);
    ag_stamps : TIMESTAMPS g = p_stamps (process_after before);
    ag_prefix : VPREFIX g = prefix;
    ag_views : forall t, option_map view_of (contexts g t) = known t (rev before) }.
Lemma process_snoc h c : process_after (h ++ [c]) = on_process (process_after h) c.
Proof. unfold process_after. now rewrite fold_left_app. Qed.
Lemma known_snoc t h u c : known t (rev (h ++ [(u, c)])) =
  if negb (u =? t)%nat || process_wide c then known t (rev h) else on_view (settings t h) c.
Proof. rewrite rev_app_distr. cbn [rev app known]. unfold settings. rewrite rev_involutive. reflexivity. Qed.
Lemma attached_hook p : attached p = match p with Some p => match log_hook p with Some h => Some (h, force_hook_level p) | None => None end | None => None end.
Proof. destruct p as [[[h|] f]|]; reflexivity. Qed.
(** GetCurrentThreadContext gives the settings of the thread and changes nothing but the context *)
Lemma get_context prefix before g t : agrees prefix before g -> exists g' c, GetCurrentThreadContext g t = (g', c) /\
  view_of c = settings t before /\ global_level g' = global_level g /\ VPREFIX g' = VPREFIX g /\ AgentType g' = AgentType g /\ TIMESTAMPS g' = TIMESTAMPS g /\
  module_is_enabled g' = module_is_enabled g /\ trace g' = trace g /\ contexts g' t = Some c /\ forall u, u <> t -> contexts g' u = contexts g u.
Proof.
  intros A. pose proof (ag_views A t) as V. unfold GetCurrentThreadContext, settings.
  destruct (contexts g t) as [c|] eqn:C; cbn [option_map] in V; rewrite <- V.
  - exists g, c. repeat (split; auto).
  - eexists _, _. split; [reflexivity|]. cbn. unfold fresh, view_of, has_hook. cbn. rewrite (ag_level A).
    split; auto. repeat (split; [reflexivity|]). rewrite Nat.eqb_refl. split; auto. intros u N. destruct (Nat.eqb_spec u t); congruence.
Qed.
Lemma level_cases l : 0 <= l <= 6 -> l = 0 \/ l = 1 \/ l = 2 \/ l = 3 \/ l = 4 \/ l = 5 \/ l = 6.
Proof. lia. Qed.
Lemma console_ok g stamp msg l col : 0 <= l <= 6 ->
  LogToConsole g stamp msg l col = Ok (emit g [Stdout (console_line (mkProc (global_level g) (AgentType g) (TIMESTAMPS g)) (VPREFIX g) col stamp l msg)]).
Proof.
  intros L. apply level_cases in L as [->|[->|[->|[->|[->|[->| ->]]]]]]; unfold LogToConsole, console_line; cbn [p_stamps];
  destruct col; cbn [bind]; (match goal with |- context [LogLevelToColor ?l] => change (LogLevelToColor l) with (Ok (level_color l)) | _ => idtac end); cbn [bind];
  match goal with |- context [LogLevelToString ?l] => change (LogLevelToString l) with (Ok (level_name l)) end; cbn [bind]; unfold right8; rewrite <- ?app_assoc; reflexivity.
Qed.
Lemma system_ok g msg l : 0 <= l <= 6 ->
  LogToSystemLog g msg l = Ok (emit g [Syslog (severity l) (system_line (mkProc (global_level g) (AgentType g) (TIMESTAMPS g)) (VPREFIX g) msg)]).
Proof. intros L. apply level_cases in L as [->|[->|[->|[->|[->|[->| ->]]]]]]; reflexivity. Qed.
Lemma emit_emit g a b : emit (emit g a) b = emit g (a ++ b).
Proof. unfold emit. cbn. now rewrite <- app_assoc. Qed.
Lemma emit_nil g : emit g [] = g.
Proof. destruct g. unfold emit. cbn. now rewrite app_nil_r. Qed.
Lemma process_of prefix before g : agrees prefix before g -> process_after before = mkProc (global_level g) (AgentType g) (TIMESTAMPS g).
Proof. intros A. rewrite (ag_level A), (ag_agent A), (ag_stamps A). now destruct (process_after before). Qed.
Lemma VLog_gen g t stamp l text g' c : 0 <= l <= 6 -> is_cstr text -> GetCurrentThreadContext g t = (g', c) ->
  VLog g t stamp l text = Ok (emit g' (message_events (mkProc (global_level g') (AgentType g') (TIMESTAMPS g')) (VPREFIX g') (view_of c) stamp l text)).
Proof.
  intros L CS E. unfold VLog. rewrite E.
  unfold message_events, wanted, to_console, to_system.
  change LOG_LEVEL_VERBOSE with 5.
  assert (FH : match has_hook c with Some (_, f) => f >=? l | None => false end = forced (view_of c) l).
  { unfold forced, view_of. cbn [v_hook]. destruct (has_hook c) as [[h f]|]; auto. now rewrite Z.geb_leb. }
  rewrite FH. generalize (forced (view_of c) l) as fo. intros fo. unfold view_of. cbn [v_log v_report v_color v_hook]. set (tc := l <=? report_level c). set (ts := (l <=? log_level c) && (l <? 5)).
  replace (negb tc && negb ts && negb fo) with (negb (tc || ts || fo)) by (destruct tc, ts, fo; reflexivity).
  destruct (tc || ts || fo); cbn [negb]; [|now rewrite emit_nil].
  pose proof (eoln_chop CS) as M. destruct (eoln_loop _ 0 (block text)) as [m| | |]; cbn [bind] in *; try discriminate. rewrite M. cbn [bind].
  cbv zeta. destruct (has_hook c) as [[h f]|].
  - destruct tc; [rewrite (console_ok _ _ _ _ L)|]; cbn [bind]; (destruct ts; [rewrite (system_ok _ _ L)|]); rewrite ?emit_emit; reflexivity.
  - destruct tc; [rewrite (console_ok _ _ _ _ L)|]; cbn [bind]; (destruct ts; [rewrite (system_ok _ _ L)|]); rewrite ?emit_emit, ?emit_nil; reflexivity.
Qed.
Lemma VLog_spec prefix before g t stamp l text : agrees prefix before g -> 0 <= l <= 6 -> is_cstr text ->
  VLog g t stamp l text =
  Ok (emit (fst (GetCurrentThreadContext g t)) (message_events (process_after before) prefix (settings t before) stamp l text)).
Proof.
  intros A L CS. destruct (get_context t A) as (g' & c & E & V & GL & VP & AT & TS & _ & _ & _ & _).
  rewrite (@VLog_gen _ _ stamp _ _ _ _ L CS E), E. cbn [fst]. rewrite <- V, (process_of A), <- (ag_prefix A), <- GL, <- VP, <- AT, <- TS. reflexivity.
Qed.
(** a call: the invariant, the events and the answers *)
Lemma perform_spec prefix before g t c : agrees prefix before g -> valid_call (t, c) ->
  exists g', perform g (t, c) = Ok (g', match c with Ask l => [wanted (settings t before) l] | _ => [] end) /\
    agrees prefix (before ++ [(t, c)]) g' /\ module_is_enabled g' = module_is_enabled g /\
    trace g' = trace g ++ match c with Message stamp l text => message_events (process_after before) prefix (settings t before) stamp l text | _ => [] end.
Proof.
  intros A V. destruct (get_context t A) as (g' & k & E & W & GL & VP & AT & TS & MD & TR & CT & CU).
  (* how the invariant moves on *)
  assert (STEP : forall g2 v, contexts g2 t = v -> option_map view_of v = on_view (settings t before) c -> process_wide c = false ->
     (forall u, u <> t -> contexts g2 u = contexts g' u) -> VPREFIX g2 = VPREFIX g' ->
     mkProc (global_level g2) (AgentType g2) (TIMESTAMPS g2) = on_process (process_after before) (t, c) -> agrees prefix (before ++ [(t, c)]) g2).
  { intros g2 v C1 C2 PW C3 C4 C5. constructor; try (rewrite process_snoc, <- C5; reflexivity).
    - now rewrite C4, VP, (ag_prefix A).
    - intros u. rewrite known_snoc, PW, orb_false_r. destruct (Nat.eqb_spec t u) as [<-|N]; cbn [negb].
      + rewrite C1. exact C2.
      + rewrite C3, CU by auto. apply (ag_views A). }
  assert (P0 : mkProc (global_level g') (AgentType g') (TIMESTAMPS g') = process_after before) by (rewrite GL, AT, TS; symmetry; exact (process_of A)).
  unfold perform. cbn [fst snd]. destruct c as [ll rl|l|b|p| |s|b|l|stamp l text].
  - unfold LoggingPrivSetLevels. rewrite E. eexists. split; [reflexivity|]. split; [|split; [exact MD|cbn; rewrite TR; now rewrite app_nil_r]].
    refine (STEP (set_context _ _ _) _ eq_refl _ eq_refl _ eq_refl P0).
    + cbn. rewrite Nat.eqb_refl. cbn. rewrite <- W. reflexivity.
    + intros u N. cbn. destruct (Nat.eqb_spec u t); congruence.
  - unfold LogSetGlobalLevel, LoggingPrivSetLevels.
    set (g1 := mkLog l _ _ _ _ _ _).
    assert (E1 : exists gg kk, GetCurrentThreadContext g1 t = (gg, kk) /\ color kk = color k /\ pctx kk = pctx k /\ global_level gg = l /\ VPREFIX gg = VPREFIX g /\ AgentType gg = AgentType g /\ TIMESTAMPS gg = TIMESTAMPS g /\
       module_is_enabled gg = module_is_enabled g /\ trace gg = trace g /\ forall u, u <> t -> contexts gg u = contexts g u).
    { unfold GetCurrentThreadContext in *. subst g1. cbn [contexts global_level]. destruct (contexts g t) as [kk|].
      - injection E; intros; subst. eexists _, _. split; [reflexivity|]. cbn. repeat (split; auto).
      - injection E; intros; subst. eexists _, _. split; [reflexivity|]. cbn. repeat (split; auto). intros u N. destruct (Nat.eqb_spec u t); congruence. }
    destruct E1 as (gg & kk & -> & K1 & K2 & K3 & K4 & K5 & K6 & K7 & K8 & K9).
    eexists. split; [reflexivity|]. split; [|split; [exact K7|cbn; now rewrite K8, app_nil_r]].
    refine (STEP (set_context _ _ _) _ eq_refl _ eq_refl _ _ _).
    + cbn. rewrite Nat.eqb_refl. cbn. rewrite <- W. unfold view_of, has_hook. cbn. now rewrite K1, K2.
    + intros u N. cbn. destruct (Nat.eqb_spec u t) as [->|_]; [congruence|]. rewrite K9, CU; auto.
    + cbn. now rewrite K4, VP.
    + cbn. rewrite K3, K5, K6, (ag_agent A), (ag_stamps A). reflexivity.
  - unfold LoggingSetColor. rewrite E. eexists. split; [reflexivity|]. split; [|split; [exact MD|cbn; rewrite TR; now rewrite app_nil_r]].
    refine (STEP (set_context _ _ _) _ eq_refl _ eq_refl _ eq_refl P0).
    + cbn. rewrite Nat.eqb_refl. cbn. rewrite <- W. reflexivity.
    + intros u N. cbn. destruct (Nat.eqb_spec u t); congruence.
  - unfold LoggingPrivSetContext. rewrite E. eexists. split; [reflexivity|]. split; [|split; [exact MD|cbn; rewrite TR; now rewrite app_nil_r]].
    refine (STEP (set_context _ _ _) _ eq_refl _ eq_refl _ eq_refl P0).
    + cbn. rewrite Nat.eqb_refl. cbn. rewrite <- W, attached_hook. reflexivity.
    + intros u N. cbn. destruct (Nat.eqb_spec u t); congruence.
  - unfold LoggingFreeCurrentThreadContext. eexists. split; [reflexivity|].
    assert (X : forall g2, g2 = match contexts g t with None => g | Some _ => set_context g t None end ->
      contexts g2 t = None /\ (forall u, u <> t -> contexts g2 u = contexts g u) /\ VPREFIX g2 = VPREFIX g /\ global_level g2 = global_level g /\ AgentType g2 = AgentType g /\ TIMESTAMPS g2 = TIMESTAMPS g /\
      module_is_enabled g2 = module_is_enabled g /\ trace g2 = trace g).
    { intros g2 ->. destruct (contexts g t) eqn:C; cbn; repeat (split; auto). - now rewrite Nat.eqb_refl. - intros u N. destruct (Nat.eqb_spec u t); congruence. }
    destruct (X _ eq_refl) as (X1 & X2 & X3 & X4 & X5 & X6 & X7 & X8). split; [|split; [exact X7|rewrite X8; now rewrite app_nil_r]].
    refine (STEP _ _ X1 eq_refl eq_refl _ _ _).
    + intros u N. rewrite X2, CU; auto.
    + now rewrite X3, VP.
    + rewrite X4, X5, X6. symmetry. exact (process_of A).
  - unfold LoggingSetAgentType. eexists. split; [reflexivity|]. split; [|split; [reflexivity|cbn; now rewrite app_nil_r]].
    constructor; cbn; rewrite ?process_snoc; cbn; try apply A; auto. intros u. rewrite known_snoc, orb_true_r. apply A.
  - unfold LoggingEnableTimestamps. eexists. split; [reflexivity|]. split; [|split; [reflexivity|cbn; now rewrite app_nil_r]].
    constructor; cbn; rewrite ?process_snoc; cbn; try apply A; auto. intros u. rewrite known_snoc, orb_true_r. apply A.
  - unfold WouldLog. rewrite E. eexists. split; [|split; [|split; [exact MD|now rewrite TR, app_nil_r]]].
    + f_equal. f_equal. f_equal. rewrite <- W. unfold wanted, to_console, to_system, forced, view_of. cbn [v_log v_report v_hook].
      change LOG_LEVEL_VERBOSE with 5. destruct (has_hook k) as [[h f]|]; [now rewrite Z.geb_leb|reflexivity].
    + refine (STEP _ _ CT _ eq_refl (fun u _ => eq_refl) eq_refl P0). cbn. now rewrite W.
  - destruct V as [L CS]. rewrite (@VLog_spec _ _ _ t stamp l text A L CS), E. cbn [bind fst]. eexists. split; [reflexivity|].
    split; [|split; [exact MD|cbn; now rewrite TR]].
    refine (STEP (emit _ _) _ CT _ eq_refl (fun u _ => eq_refl) eq_refl P0). cbn. now rewrite W.
Qed.
Lemma perform_all_spec prefix h : forall before g, agrees prefix before g -> Forall valid_call h ->
  exists g', perform_all g h = Ok (g', answers_of before h) /\ trace g' = trace g ++ events_of prefix before h /\ agrees prefix (before ++ h) g' /\ module_is_enabled g' = module_is_enabled g.
Proof.
  induction h as [|[t c] h IH]; intros before g A F; cbn [perform_all answers_of events_of].
  - exists g. rewrite !app_nil_r. auto.
  - inversion F as [|x l V F']; subst. destruct (@perform_spec _ _ _ t c A V) as (g1 & E & A1 & M1 & T1). rewrite E. cbn [bind].
    destruct (IH _ _ A1 F') as (g2 & E2 & T2 & A2 & M2). rewrite E2. cbn [bind]. exists g2. split; [reflexivity|].
    split; [rewrite T2, T1, <- app_assoc; reflexivity|]. split; [rewrite <- app_assoc in A2; exact A2|congruence].
Qed.
Lemma start_agrees prefix : agrees prefix [] (start prefix).
Proof. constructor; reflexivity. Qed.

(** every history of settings and messages of any number of threads: the outputs and the answers of
    WouldLog are the ones of the account in LogSpec *)
Theorem C94_routing prefix h : Forall valid_call h -> exists g,
  perform_all (start prefix) h = Ok (g, answers_of [] h) /\ trace g = events_of prefix [] h.
Proof. intros F. destruct (perform_all_spec (start_agrees prefix) F) as (g & E & T & _). exists g. auto. Qed.
Print Assumptions C94_routing.

Definition upcase (l : Z) (s : list byte) : option (list byte) := if l =? 1 then Some (lit "!" ++ s) else None.
Definition example_history : history :=
  [(1%nat, Message [] 3 (lit "before" ++ [NL])); (2%nat, SetGlobal 5); (1%nat, Ask 5); (3%nat, Ask 5); (2%nat, SetColor true);
   (2%nat, Message [] 2 (lit "w")); (1%nat, Attach (Some (mkP (Some upcase) 6))); (1%nat, SetLevels 1 1); (1%nat, Message [] 1 (lit "bad")); (1%nat, Message [] 6 (lit "quiet"))].
Example C94_routing_example : Forall valid_call example_history /\ answers_of [] example_history = [false; true] /\
  events_of (lit "P") [] example_history =
  [Stdout (lit "  notice: before" ++ [NL]); Syslog 5 (lit "CFEngine(generic) P before" ++ [NL]);
   Stdout ([ESC] ++ lit "[33m warning: w" ++ [NL; ESC] ++ lit "[0m"); Syslog 4 (lit "CFEngine(generic) P w" ++ [NL]);
   Hooked 1 (lit "bad"); Stdout (lit "   error: !bad" ++ [NL]); Syslog 3 (lit "CFEngine(generic) P !bad" ++ [NL]);
   Hooked 6 (lit "quiet")].
Proof.
  split; [|split; vm_compute; reflexivity].
  repeat constructor; cbn; try lia; unfold is_cstr, NUL; cbn; intuition discriminate.
Qed.

(** WouldLog tells whether a message of that level would produce output *)
Theorem C94_would_log prefix h t l stamp text : Forall valid_call h -> 0 <= l <= 6 -> is_cstr text ->
  exists g g1 b g2, perform_all (start prefix) h = Ok (g, answers_of [] h) /\
    WouldLog g t l = (g1, b) /\ trace g1 = trace g /\
    VLog g t stamp l text = Ok g2 /\ (b = true <-> trace g2 <> trace g).
Proof.
  intros F L CS. destruct (perform_all_spec (start_agrees prefix) F) as (g & E & T & A & _). cbn [app] in A.
  destruct (@perform_spec _ _ _ t (Ask l) A I) as (g1 & E1 & _ & _ & T1).
  destruct (@perform_spec _ _ _ t (Message stamp l text) A (conj L CS)) as (g2 & E2 & _ & _ & T2).
  unfold perform in E1, E2. cbn [fst snd] in E1, E2. destruct (WouldLog g t l) as [w b] eqn:WL. injection E1; intros; subst w b.
  destruct (VLog g t stamp l text) as [w| | |] eqn:VL; cbn [bind] in E2; try discriminate. injection E2; intros; subst w.
  exists g, g1, (wanted (settings t h) l), g2. rewrite app_nil_r in T1. split; [exact E|]. split; [exact WL|]. split; [exact T1|]. split; [exact VL|].
  rewrite T2. unfold message_events, wanted. destruct (to_console (settings t h) l); cbn [orb].
  - split; auto. intros _ X. rewrite <- (app_nil_r (trace g)) in X at 2. apply app_inv_head in X. destruct (v_hook (settings t h)); discriminate.
  - destruct (to_system (settings t h) l); cbn [orb].
    + split; auto. intros _ X. rewrite <- (app_nil_r (trace g)) in X at 2. apply app_inv_head in X. destruct (v_hook (settings t h)); discriminate.
    + unfold forced. destruct (v_hook (settings t h)) as [[k f]|]; [|rewrite app_nil_r; split; [discriminate|congruence]].
      destruct (l <=? f); [|rewrite app_nil_r; split; [discriminate|congruence]].
      split; auto. intros _ X. rewrite <- (app_nil_r (trace g)) in X at 2. apply app_inv_head in X. discriminate.
Qed.
Print Assumptions C94_would_log.

(** threads do not disturb each other: after its first use of logging, nothing that other threads do
    (not even setting the global level) changes the settings of a thread *)
Theorem C94_threads_isolated t h h' : (exists v, known t (rev h) = Some v) -> (forall c, In c h' -> fst c <> t) -> settings t (h ++ h') = settings t h.
Proof.
  intros [v K] O. unfold settings. rewrite K. replace (known t (rev (h ++ h'))) with (Some v); auto.
  revert O. induction h' as [|[u c] h' IH] using rev_ind; intros O; [now rewrite app_nil_r|].
  rewrite app_assoc, known_snoc. rewrite (proj2 (Nat.eqb_neq u t)) by (apply (O (u, c)); apply in_or_app; right; now left). cbn [negb orb].
  apply IH. intros d I. apply O. apply in_or_app. now left.
Qed.
Print Assumptions C94_threads_isolated.
Example C94_threads_isolated_example : (exists v, known 1 (rev [(1%nat, Ask 3)]) = Some v) /\ v_log (settings 1 ([(1%nat, Ask 3)] ++ [(2%nat, SetGlobal 6)])) = 3 /\ v_log (settings 3 ([(1%nat, Ask 3)] ++ [(2%nat, SetGlobal 6)])) = 6.
Proof. split; [eexists; reflexivity|split; reflexivity]. Qed.

(** * C95: names of levels *)
Definition level_names : list (list byte) := [lit "CRITICAL"; lit "errors"; lit "warnings"; lit "notices"; lit "information"; lit "verbose"; lit "debug"].
(** a non-empty beginning of the name, in any case *)
Definition abbreviates (s name : list byte) : Prop := s <> [] /\ exists tail, map tolower name = map tolower s ++ tail.

Section Names.
Variable strncasecmp : list byte -> list byte -> nat -> Z.
Hypothesis LIBC : strncasecmp_ok strncasecmp.
Lemma is_prefix s name : exists e, StringEqualN_IgnoreCase strncasecmp (Some (0%N, s)) (Some (1%N, name)) (length s) = Ok e /\
  (e = true <-> exists tail, map tolower name = map tolower s ++ tail).
Proof.
  assert (CO : coherent (Some (0%N, s)) (Some (1%N, name))) by (intros X; discriminate X).
  destruct (@C29_N_IgnoreCase strncasecmp (Some (0%N, s)) (Some (1%N, name)) (length s) LIBC CO) as [r [E [_ [Q _]]]].
  unfold StringEqualN_IgnoreCase. rewrite E. cbn [bind]. eexists. split; [reflexivity|]. rewrite Z.eqb_eq, Q. unfold strof. cbn [option_map snd]. rewrite firstn_all. split.
  - intros X. injection X as X. exists (map tolower (skipn (length s) name)). rewrite X, <- map_app, firstn_skipn. reflexivity.
  - intros [t X]. f_equal. rewrite <- firstn_map, X, firstn_app_le by (rewrite map_length; lia). now rewrite firstn_all2 by (rewrite map_length; lia).
Qed.

(** exactly the non-empty beginnings of the seven names, in any case, are accepted *)
Theorem C95_from_string s : exists l, LogLevelFromString strncasecmp (Some s) = Ok l /\
  (forall k name, nth_error level_names k = Some name -> (l = Z.of_nat k <-> abbreviates s name)) /\
  (l = LOG_LEVEL_NOTHING <-> forall name, In name level_names -> ~ abbreviates s name).
Proof.
  destruct s as [|c s].
  { exists LOG_LEVEL_NOTHING. split; [reflexivity|]. unfold abbreviates, LOG_LEVEL_NOTHING. split; [intros k name _; split; [lia|tauto]|tauto]. }
  unfold LogLevelFromString.
  destruct (is_prefix (c :: s) (lit "CRITICAL")) as [e0 [E0 H0]], (is_prefix (c :: s) (lit "errors")) as [e1 [E1 H1]],
    (is_prefix (c :: s) (lit "warnings")) as [e2 [E2 H2]], (is_prefix (c :: s) (lit "notices")) as [e3 [E3 H3]],
    (is_prefix (c :: s) (lit "information")) as [e4 [E4 H4]], (is_prefix (c :: s) (lit "verbose")) as [e5 [E5 H5]], (is_prefix (c :: s) (lit "debug")) as [e6 [E6 H6]].
  rewrite E0, E1, E2, E3, E4, E5, E6. cbn [bind]. clear E0 E1 E2 E3 E4 E5 E6.
  assert (HD : forall name, (exists tail, map tolower name = map tolower (c :: s) ++ tail) -> match name with x :: _ => tolower c = tolower x | [] => False end).
  { intros [|x name] [t X]; cbn in X; [discriminate|]. congruence. }
  assert (AB : forall name, abbreviates (c :: s) name <-> exists tail, map tolower name = map tolower (c :: s) ++ tail).
  { intros name. unfold abbreviates. split; [tauto|]. intros X. split; [discriminate|exact X]. }
  assert (D : forall (k : nat) name (e : bool), nth_error level_names k = Some name -> (e = true <-> exists tail, map tolower name = map tolower (c :: s) ++ tail) -> e = true ->
      forall k2 name2, nth_error level_names k2 = Some name2 -> (Z.of_nat k = Z.of_nat k2 <-> abbreviates (c :: s) name2)).
  { intros k name e N1 Q Q1 k2 name2 N2. rewrite AB. apply Q in Q1. split.
    - intros Z. apply Nat2Z.inj in Z. subst k2. rewrite N1 in N2. injection N2 as <-. exact Q1.
    - intros Q2. apply HD in Q1. apply HD in Q2.
      do 7 (destruct k as [|k]; [cbn in N1; injection N1 as <-; do 7 (destruct k2 as [|k2]; [cbn in N2; injection N2 as <-; cbn in Q1, Q2; solve [reflexivity|rewrite Q1 in Q2; discriminate Q2]|]); destruct k2; discriminate N2|]).
      destruct k; discriminate N1. }
  assert (R : forall (k : nat) name (e : bool), nth_error level_names k = Some name -> (e = true <-> exists tail, map tolower name = map tolower (c :: s) ++ tail) -> e = true ->
      (forall k2 name2, nth_error level_names k2 = Some name2 -> (Z.of_nat k = Z.of_nat k2 <-> abbreviates (c :: s) name2)) /\
      (Z.of_nat k = LOG_LEVEL_NOTHING <-> forall name, In name level_names -> ~ abbreviates (c :: s) name)).
  { intros k name e N1 Q Q1. split; [eapply D; eauto|]. split; [unfold LOG_LEVEL_NOTHING; lia|].
    intros Y. exfalso. apply (Y name); [exact (nth_error_In _ _ N1)|]. apply AB. tauto. }
  destruct e0; [exists 0; split; [reflexivity|]; exact (R 0%nat _ true eq_refl H0 eq_refl)|].
  destruct e1; [exists 1; split; [reflexivity|]; exact (R 1%nat _ true eq_refl H1 eq_refl)|].
  destruct e2; [exists 2; split; [reflexivity|]; exact (R 2%nat _ true eq_refl H2 eq_refl)|].
  destruct e3; [exists 3; split; [reflexivity|]; exact (R 3%nat _ true eq_refl H3 eq_refl)|].
  destruct e4; [exists 4; split; [reflexivity|]; exact (R 4%nat _ true eq_refl H4 eq_refl)|].
  destruct e5; [exists 5; split; [reflexivity|]; exact (R 5%nat _ true eq_refl H5 eq_refl)|].
  destruct e6; [exists 6; split; [reflexivity|]; exact (R 6%nat _ true eq_refl H6 eq_refl)|].
  exists LOG_LEVEL_NOTHING. split; [reflexivity|].
  assert (NO : forall k name, nth_error level_names k = Some name -> ~ abbreviates (c :: s) name).
  { intros k name N A. apply AB in A.
    do 7 (destruct k as [|k]; [cbn in N; injection N as <-; first [apply H0 in A|apply H1 in A|apply H2 in A|apply H3 in A|apply H4 in A|apply H5 in A|apply H6 in A]; discriminate A|]).
    destruct k; discriminate N. }
  split.
  - intros k name N. split; [unfold LOG_LEVEL_NOTHING; lia|]. intros A. exfalso; exact (NO k name N A).
  - split; auto. intros _ name I. destruct (In_nth_error _ _ I) as [k K]. exact (NO k name K).
Qed.
Theorem C95_null : LogLevelFromString strncasecmp None = Ok LOG_LEVEL_NOTHING.
Proof. reflexivity. Qed.
(** the name of a level denotes it *)
Theorem C95_round_trip l : 0 <= l <= 6 -> exists name, LogLevelToString l = Ok name /\ LogLevelFromString strncasecmp (Some name) = Ok l.
Proof.
  intros L.
  assert (G : forall (k : nat) w name, nth_error level_names k = Some name -> abbreviates w name -> LogLevelFromString strncasecmp (Some w) = Ok (Z.of_nat k)).
  { intros k w name N A. destruct (C95_from_string w) as (r & E & Q & _). rewrite E. f_equal. now apply (Q k name N). }
  apply level_cases in L as [->|[->|[->|[->|[->|[->| ->]]]]]]; (eexists; split; [reflexivity|]);
  [apply (G 0%nat _ (lit "CRITICAL") eq_refl)|apply (G 1%nat _ (lit "errors") eq_refl)|apply (G 2%nat _ (lit "warnings") eq_refl)|apply (G 3%nat _ (lit "notices") eq_refl)|apply (G 4%nat _ (lit "information") eq_refl)|apply (G 5%nat _ (lit "verbose") eq_refl)|apply (G 6%nat _ (lit "debug") eq_refl)];
  (split; [discriminate|]); [exists []|exists (lit "s")|exists (lit "s")|exists (lit "s")|exists (lit "rmation")|exists []|exists []]; reflexivity.
Qed.
(** the command line option: an argument that is not a level ends the process with status 1 and a
    message, others set the level of the thread and of the threads to come *)
Theorem C95_argument g t arg : exists g', LogSetGlobalLevelArgOrExit strncasecmp g t arg = Ok g' /\
  (forall k name, nth_error level_names k = Some name -> abbreviates arg name -> trace g' = trace g /\ LogGetGlobalLevel g' = Z.of_nat k /\
     exists c, contexts g' t = Some c /\ log_level c = Z.of_nat k /\ report_level c = Z.of_nat k) /\
  ((forall name, In name level_names -> ~ abbreviates arg name) ->
     trace g' = trace g ++ [Stderr (lit "Invalid log level: '" ++ arg ++ lit "'" ++ [NL]); Exit 1] /\ LogGetGlobalLevel g' = LogGetGlobalLevel g /\ forall u, contexts g' u = contexts g u).
Proof.
  destruct (C95_from_string arg) as (l & E & Q & NO). unfold LogSetGlobalLevelArgOrExit. rewrite E. cbn [bind].
  destruct (l =? LOG_LEVEL_NOTHING) eqn:B.
  - apply Z.eqb_eq in B. eexists. split; [reflexivity|]. split.
    + intros k name N A. exfalso. apply (proj1 NO B name); [|exact A]. exact (nth_error_In _ _ N).
    + intros _. auto.
  - apply Z.eqb_neq in B. eexists. split; [reflexivity|]. split; [|intros X; exfalso; apply B, NO, X].
    intros k name N A. apply (Q k name N) in A. subst l. unfold LogSetGlobalLevel, LoggingPrivSetLevels, GetCurrentThreadContext.
    cbn [contexts]. destruct (contexts g t); cbn; rewrite Nat.eqb_refl; (split; [reflexivity|split; [reflexivity|eexists; split; [reflexivity|auto]]]).
Qed.
End Names.
Print Assumptions C95_from_string.
Print Assumptions C95_round_trip.
Print Assumptions C95_argument.
Example C95_example : LogLevelFromString (fun a b n => zcmp (map tolower (firstn n a)) (map tolower (firstn n b))) (Some (lit "WaRn")) = Ok 2 /\
  LogLevelFromString (fun a b n => zcmp (map tolower (firstn n a)) (map tolower (firstn n b))) (Some (lit "informations")) = Ok (-1).
Proof. split; vm_compute; reflexivity. Qed.

(** * C96: debug modules *)
Definition setm (g : log) (M : list bool) : log := mkLog (global_level g) (contexts g) (VPREFIX g) (AgentType g) (TIMESTAMPS g) M (trace g).
Lemma setm_self g : setm g (module_is_enabled g) = g.
Proof. now destruct g. Qed.
Lemma setm_emit g e M : emit (setm g M) e = setm (emit g e) M.
Proof. reflexivity. Qed.
Lemma get_setm g M t : GetCurrentThreadContext (setm g M) t = (setm (fst (GetCurrentThreadContext g t)) M, snd (GetCurrentThreadContext g t)).
Proof. unfold GetCurrentThreadContext. cbn. destruct (contexts g t); reflexivity. Qed.
Lemma VLog_setm g M t stamp l text : 0 <= l <= 6 -> is_cstr text ->
  exists g1, VLog g t stamp l text = Ok g1 /\ VLog (setm g M) t stamp l text = Ok (setm g1 M).
Proof.
  intros L CS. destruct (GetCurrentThreadContext g t) as [g' c] eqn:E.
  pose proof (get_setm g M t) as E2. rewrite E in E2. cbn [fst snd] in E2.
  rewrite (@VLog_gen _ _ stamp _ _ _ _ L CS E), (@VLog_gen _ _ stamp _ _ _ _ L CS E2). eexists. split; reflexivity.
Qed.
Definition apply_name (M : list bool) (w : list byte) : list bool :=
  if bytes_eqb w (lit "all") then nth 0 M false :: repeat true 8
  else let m := LogModuleFromString w in if (m =? 0)%nat then M else upd M m true.
Lemma nine (M : list bool) : length M = 9%nat -> exists a b c d e f g h i, M = [a; b; c; d; e; f; g; h; i].
Proof. intros L. do 9 (destruct M as [|? M]; [discriminate L|]). destruct M; [|discriminate L]. repeat eexists. Qed.
Lemma enable_all g M : length M = 9%nat -> enable_from (LOG_MOD_MAX - 1) 1 (setm g M) = Ok (setm g (nth 0 M false :: repeat true 8)).
Proof. intros L. destruct (nine M L) as (a & b & c & d & e & f & k & h & i & ->). reflexivity. Qed.
Lemma module_lt w : (LogModuleFromString w < 9)%nat.
Proof.
  unfold LogModuleFromString. cbn [log_modules module_loop].
  repeat match goal with |- context [if ?b then _ else _] => destruct b end; lia.
Qed.
Lemma module_cases w : (LogModuleFromString w = 0%nat <-> w <> module_name 1 /\ w <> module_name 2 /\ w <> module_name 3 /\ w <> module_name 4 /\ w <> module_name 5 /\ w <> module_name 6 /\ w <> module_name 7 /\ w <> module_name 8) /\
  (forall m, (1 <= m <= 8)%nat -> (LogModuleFromString w = m <-> w = module_name m)).
Proof.
  assert (CASE : (exists m, (1 <= m <= 8)%nat /\ w = module_name m) \/ (w <> module_name 1 /\ w <> module_name 2 /\ w <> module_name 3 /\ w <> module_name 4 /\ w <> module_name 5 /\ w <> module_name 6 /\ w <> module_name 7 /\ w <> module_name 8)).
  { assert (DE : forall v : list byte, w = v \/ w <> v) by (intros v; destruct (bytes_eqb w v) eqn:B; [left; now apply bytes_eqb_eq|right; now apply bytes_eqb_neq]).
    destruct (DE (module_name 1)); [left; exists 1%nat; split; [lia|auto]|]. destruct (DE (module_name 2)); [left; exists 2%nat; split; [lia|auto]|].
    destruct (DE (module_name 3)); [left; exists 3%nat; split; [lia|auto]|]. destruct (DE (module_name 4)); [left; exists 4%nat; split; [lia|auto]|].
    destruct (DE (module_name 5)); [left; exists 5%nat; split; [lia|auto]|]. destruct (DE (module_name 6)); [left; exists 6%nat; split; [lia|auto]|].
    destruct (DE (module_name 7)); [left; exists 7%nat; split; [lia|auto]|]. destruct (DE (module_name 8)); [left; exists 8%nat; split; [lia|auto]|]. right. tauto. }
  assert (M8 : forall m, (1 <= m <= 8)%nat -> LogModuleFromString (module_name m) = m).
  { intros m H. do 9 (destruct m as [|m]; [first [lia|reflexivity]|]). lia. }
  destruct CASE as [(m & Hm & ->)|N].
  - split.
    + rewrite (M8 m Hm). split; [lia|]. intros N. exfalso. do 9 (destruct m as [|m]; [first [lia|tauto]|]). lia.
    + intros k Hk. rewrite (M8 m Hm). split; [congruence|]. intros E. rewrite <- (M8 m Hm), <- (M8 k Hk). now rewrite E.
  - assert (Z0 : LogModuleFromString w = 0%nat).
    { unfold LogModuleFromString. cbn [log_modules module_loop]. destruct (bytes_eqb [] w); [reflexivity|].
      destruct N as (N1 & N2 & N3 & N4 & N5 & N6 & N7 & N8). cbn [module_name] in *.
      rewrite !(proj2 (bytes_eqb_neq _ w)) by congruence. reflexivity. }
    split; [tauto|]. intros m Hm. rewrite Z0. split; [lia|]. intros E. exfalso. do 9 (destruct m as [|m]; [first [lia|tauto]|]). lia.
Qed.
Lemma unknown_iff w : unknown_module w = true <-> w <> lit "all" /\ LogModuleFromString w = 0%nat.
Proof.
  unfold unknown_module. rewrite andb_true_iff, !negb_true_iff, bytes_eqb_neq. rewrite (proj1 (module_cases w)).
  cbn [existsb]. rewrite !orb_false_iff, !bytes_eqb_neq. tauto.
Qed.
Lemma apply_length M w : length M = 9%nat -> length (apply_name M w) = 9%nat.
Proof.
  intros L. unfold apply_name. destruct (bytes_eqb w (lit "all")); [reflexivity|]. destruct (_ =? 0)%nat; auto. now rewrite length_upd.
Qed.
Definition warnings (t : nat) (stamp : list byte) (toks : list (list byte)) : history :=
  map (fun w => (t, Message stamp 2 (unknown_text w))) (filter unknown_module (before_help toks)).
Lemma unknown_cstr w : is_cstr w -> is_cstr (unknown_text w).
Proof.
  intros C I. unfold unknown_text in I. apply in_app_or in I as [I|I]; [revert I; unfold NUL; cbn; intuition discriminate|].
  apply in_app_or in I as [I|I]; [now apply C|]. revert I; unfold NUL; cbn; intuition discriminate.
Qed.
Definition comma_free (w : list byte) : Prop := is_cstr w /\ ~ In ","%char w.
Definition COMMA : byte := ","%char.
Lemma strchr_comma w r : ~ In COMMA w -> strchr (w ++ COMMA :: r) COMMA = Some (length w).
Proof.
  induction w as [|x w IH]; intros N; cbn [app strchr length].
  - reflexivity.
  - destruct (beq x COMMA) eqn:B; [apply beq_true in B; subst; exfalso; apply N; now left|]. rewrite IH; auto. intros I. apply N. now right.
Qed.
Lemma strchr_none w : ~ In COMMA w -> strchr w COMMA = None.
Proof.
  induction w as [|x w IH]; intros N; cbn [strchr]; [reflexivity|].
  destruct (beq x COMMA) eqn:B; [apply beq_true in B; subst; exfalso; apply N; now left|]. rewrite IH; auto. intros I. apply N. now right.
Qed.
Lemma join_cstr toks : Forall comma_free toks -> is_cstr (join [COMMA] toks).
Proof.
  induction 1 as [|w toks [C N] F IH]; [now intros []|]. destruct toks as [|v toks]; [exact C|].
  change (join [COMMA] (w :: v :: toks)) with (w ++ [COMMA] ++ join [COMMA] (v :: toks)). intros I.
  apply in_app_or in I as [I|I]; [now apply C|]. destruct I as [I|I]; [discriminate I|now apply IH].
Qed.
Definition sep_of (rest : list (list byte)) : byte := match rest with [] => NUL | _ => COMMA end.
Definition after (rest : list (list byte)) : cells byte := match rest with [] => [] | _ => block (join [COMMA] rest) end.
Lemma join_block w rest : block (join [COMMA] (w :: rest)) = map Some w ++ Some (sep_of rest) :: after rest.
Proof.
  destruct rest as [|v rest]; cbn [join sep_of after].
  - unfold block. now rewrite map_app.
  - unfold block. rewrite !map_app, <- !app_assoc. reflexivity.
Qed.
Lemma len_strchrnul w rest : comma_free w -> strchrnul (join [COMMA] (w :: rest)) ","%char = length w.
Proof.
  intros [C N]. unfold strchrnul. change ","%char with COMMA. destruct rest as [|v rest].
  - cbn [join]. now rewrite strchr_none.
  - change (join [COMMA] (w :: v :: rest)) with (w ++ COMMA :: join [COMMA] (v :: rest)). now rewrite strchr_comma.
Qed.
Lemma get_mid (a : list byte) (x : byte) (r : cells byte) : aget (map Some a ++ Some x :: r) (length a) = Ok x.
Proof. unfold aget. rewrite nth_error_app2 by (rewrite map_length; lia). now rewrite map_length, Nat.sub_diag. Qed.
Lemma set_mid (a : list byte) (x y : byte) (r : cells byte) : aset (map Some a ++ Some x :: r) (length a) y = Ok (map Some a ++ Some y :: r).
Proof.
  unfold aset. rewrite app_length, map_length. cbn [length]. rewrite (proj2 (Nat.ltb_lt _ _)) by lia. f_equal.
  rewrite upd_app_r by (rewrite map_length; lia). rewrite map_length, Nat.sub_diag. reflexivity.
Qed.
Lemma help_ok g M : LogModuleHelp (setm g M) = setm (emit g [Stdout help_text]) M.
Proof. unfold LogModuleHelp. rewrite setm_emit. reflexivity. Qed.
Lemma modules_spec t stamp toks : Forall comma_free toks -> toks <> [] -> forall f pre g M, length M = 9%nat -> (length toks < f)%nat ->
  exists g1, perform_all g (warnings t stamp toks) = Ok (g1, []) /\
    modules_loop f (setm g M) t stamp (map Some pre ++ block (join [COMMA] toks)) (length pre) =
    Ok (setm (emit g1 (if asks_help toks then [Stdout help_text] else [])) (fold_left apply_name (before_help toks) M), map Some pre ++ block (join [COMMA] toks), negb (asks_help toks)).
Proof.
  induction 1 as [|w rest W F IH]; [congruence|]. intros _ f pre g M LM LF. destruct f as [|f]; [lia|]. cbn [modules_loop].
  assert (JC : is_cstr (join [COMMA] (w :: rest))) by (apply join_cstr; now constructor).
  assert (SK : forall x : cells byte, skipn (length pre) (map Some pre ++ x) = x).
  { intros x. rewrite skipn_app_ge by (rewrite map_length; lia). now rewrite map_length, Nat.sub_diag. }
  rewrite SK, (proj2 (mstr_holds (block (join [COMMA] (w :: rest))) _)) by (rewrite block_eq; split; [exact JC|eexists; reflexivity]).
  cbn [bind]. rewrite (len_strchrnul rest W), join_block.
  rewrite !app_assoc, <- map_app, <- app_length. rewrite get_mid. cbn [bind]. rewrite set_mid. cbn [bind].
  assert (SK2 : mstr (skipn (length pre) (map Some (pre ++ w) ++ Some NUL :: after rest)) = Ok w).
  { rewrite map_app, <- app_assoc, SK. exact (mstr_at (after rest) (proj1 W)). }
  rewrite SK2. cbn [bind].
  unfold warnings, asks_help. cbn [before_help existsb].
  destruct (bytes_eqb w (lit "help")) eqn:HW.
  - cbn [bind filter map perform_all orb negb fold_left]. exists g. split; [reflexivity|].
    rewrite set_mid. cbn [bind]. rewrite andb_false_r, help_ok. reflexivity.
  - cbn [orb negb].
    (* the rest of the loop *)
    assert (GO : forall g0 M0, length M0 = 9%nat -> exists g1, perform_all g0 (warnings t stamp rest) = Ok (g1, []) /\
      (let* s := aset (map Some (pre ++ w) ++ Some NUL :: after rest) (length (pre ++ w)) (sep_of rest) in
       if negb (beq (sep_of rest) NUL) && true then modules_loop f (setm g0 M0) t stamp s (S (length (pre ++ w))) else Ok (setm g0 M0, s, true)) =
      Ok (setm (emit g1 (if asks_help rest then [Stdout help_text] else [])) (fold_left apply_name (before_help rest) M0), map Some (pre ++ w) ++ Some (sep_of rest) :: after rest, negb (asks_help rest))).
    { intros g0 M0 L0. rewrite set_mid. cbn [bind]. destruct rest as [|v rest].
      - exists g0. split; [reflexivity|]. cbn. now rewrite emit_nil.
      - destruct (IH ltac:(discriminate) f (pre ++ w ++ [COMMA]) g0 M0 L0 ltac:(cbn [length] in *; lia)) as (g1 & P1 & E1).
        exists g1. split; [exact P1|]. cbn [sep_of after]. change (negb (beq COMMA NUL) && true) with true. cbv iota.
        replace (S (length (pre ++ w))) with (length (pre ++ w ++ [COMMA])) by (rewrite !app_length; cbn [length]; lia).
        replace (map Some (pre ++ w) ++ Some COMMA :: block (join [COMMA] (v :: rest))) with (map Some (pre ++ w ++ [COMMA]) ++ block (join [COMMA] (v :: rest))).
        2:{ rewrite !map_app, <- !app_assoc. reflexivity. }
        exact E1. }
    assert (UN : unknown_module w = true \/ unknown_module w = false) by (destruct (unknown_module w); auto).
    destruct UN as [U|U].
    + cbn [filter]. rewrite U. cbn [map]. apply unknown_iff in U as [NA Z0]. rewrite (proj2 (bytes_eqb_neq _ _) NA). cbv zeta. rewrite Z0.
      change (massert _ ?x) with x. cbv iota. cbn [Nat.eqb].
      destruct (@VLog_setm g M t stamp 2 (unknown_text w) ltac:(lia) (unknown_cstr (proj1 W))) as (g0 & V1 & V2).
      change LOG_LEVEL_WARNING with 2. change (lit "Unknown debug logging module '" ++ w ++ lit "'") with (unknown_text w). rewrite V2. cbn [bind].
      destruct (GO g0 M LM) as (g1 & P1 & E1). exists g1. cbn [perform_all]. unfold perform. cbn [fst snd]. rewrite V1. cbn [bind]. fold (warnings t stamp rest). rewrite P1. cbn [bind app].
      assert (AN : apply_name M w = M). { unfold apply_name. rewrite (proj2 (bytes_eqb_neq _ _) NA). cbv zeta. rewrite Z0. reflexivity. }
      split; [reflexivity|]. rewrite E1. cbn [fold_left]. rewrite AN. reflexivity.
    + cbn [filter]. rewrite U.
      assert (EN : (if bytes_eqb w (lit "all") then let* g := enable_from (LOG_MOD_MAX - 1) 1 (setm g M) in Ok (g, true)
         else let md := LogModuleFromString w in massert (md <? LOG_MOD_MAX)%nat
             (if (md =? 0)%nat then let* g := VLog (setm g M) t stamp LOG_LEVEL_WARNING (lit "Unknown debug logging module '" ++ w ++ lit "'") in Ok (g, true)
              else let* g := LogEnableModule (setm g M) md in Ok (g, true))) = Ok (setm g (apply_name M w), true)).
      { unfold apply_name. destruct (bytes_eqb w (lit "all")) eqn:BA; [rewrite (enable_all g M LM); reflexivity|]. cbv zeta.
        assert (NZ : LogModuleFromString w <> 0%nat). { intros Z0. rewrite (proj2 (unknown_iff w)) in U; [discriminate|]. split; [now apply bytes_eqb_neq|exact Z0]. }
        rewrite (proj2 (Nat.eqb_neq _ _) NZ). pose proof (module_lt w) as LT. unfold LogEnableModule, LOG_MOD_MAX, massert.
        rewrite (proj2 (Nat.ltb_lt _ _) LT). cbn [module_is_enabled setm]. rewrite LM, (proj2 (Nat.ltb_lt _ _) LT). reflexivity. }
      match goal with |- exists g1, _ /\ bind ?X _ = _ => replace X with (Ok (setm g (apply_name M w), true)) by (symmetry; exact EN) end.
      cbn [bind]. destruct (GO g (apply_name M w) (@apply_length _ w LM)) as (g1 & P1 & E1). exists g1. split; [exact P1|]. rewrite E1. reflexivity.
Qed.
Lemma fold_enabled m l : (1 <= m <= 8)%nat -> forall M, length M = 9%nat ->
  (nth_error (fold_left apply_name l M) m = Some true <-> nth_error M m = Some true \/ exists w, In w l /\ (w = lit "all" \/ w = module_name m)) /\ length (fold_left apply_name l M) = 9%nat.
Proof.
  intros Hm. induction l as [|w l IH]; intros M L; cbn [fold_left].
  - split; [|exact L]. split; [tauto|]. intros [H|[w [[] _]]]; exact H.
  - destruct (IH (apply_name M w) (@apply_length _ w L)) as [IH1 IH2]. split; [|exact IH2]. rewrite IH1. clear IH IH1 IH2.
    assert (A : nth_error (apply_name M w) m = Some true <-> nth_error M m = Some true \/ w = lit "all" \/ w = module_name m).
    { unfold apply_name. destruct (bytes_eqb w (lit "all")) eqn:BA.
      - apply bytes_eqb_eq in BA. split; [auto|]. intros _. destruct m as [|m]; [lia|]. cbn [nth_error]. do 8 (destruct m as [|m]; [reflexivity|]). lia.
      - apply bytes_eqb_neq in BA. cbv zeta. destruct (Nat.eqb_spec (LogModuleFromString w) 0) as [Z0|NZ].
        + split; [auto|]. intros [H|[H|H]]; auto; [congruence|]. apply (proj2 (module_cases w) m Hm) in H. lia.
        + rewrite upd_nth_error. pose proof (module_lt w) as LT. destruct (Nat.eqb_spec (LogModuleFromString w) m) as [E|NE]; cbn [andb].
          * rewrite (proj2 (Nat.ltb_lt _ _)) by lia. split; auto. intros _. right. right. now apply (proj2 (module_cases w) m Hm).
          * split; auto. intros [H|[H|H]]; auto; [congruence|]. apply (proj2 (module_cases w) m Hm) in H. congruence. }
    rewrite A. split.
    + intros [[H|[H|H]]|(v & I & H)]; [now left|right; exists w; split; [now left|auto]..|right; exists v; split; [now right|auto]].
    + intros [H|(v & [<-|I] & H)]; [auto|left; right; exact H|right; eauto].
Qed.

(** a comma separated list of names turns on exactly the modules it names before a help (all: every
    module), and turns none off; the caller's string is as before; unknown names are reported as
    warnings in their order; help prints the list of modules and is the only reason to answer false *)
Theorem C96_enable_modules g t stamp toks : toks <> [] -> Forall comma_free toks -> length (module_is_enabled g) = LOG_MOD_MAX ->
  let s := join [","%char] toks in
  exists g' g1, LogEnableModulesFromString g t stamp (block s) = Ok (g', block s, negb (asks_help toks)) /\
    perform_all g (map (fun w => (t, Message stamp 2 (unknown_text w))) (filter unknown_module (before_help toks))) = Ok (g1, []) /\
    trace g' = trace g1 ++ (if asks_help toks then [Stdout help_text] else []) /\
    (forall u, contexts g' u = contexts g1 u) /\ global_level g' = global_level g1 /\
    length (module_is_enabled g') = LOG_MOD_MAX /\
    forall m, (1 <= m <= 8)%nat -> exists b, LogModuleEnabled g' m = Ok b /\
      (b = true <-> LogModuleEnabled g m = Ok true \/ exists w, In w (before_help toks) /\ (w = lit "all" \/ w = module_name m)).
Proof.
  intros NE F LM. cbv zeta.
  assert (LJ : forall l : list (list byte), l <> [] -> (length l <= S (length (join [COMMA] l)))%nat).
  { induction l as [|w [|v l] IH]; intros N; [congruence|cbn [length]; lia|].
    change (join [COMMA] (w :: v :: l)) with (w ++ [COMMA] ++ join [COMMA] (v :: l)). rewrite !app_length. cbn [length] in *. specialize (IH ltac:(discriminate)). lia. }
  destruct (@modules_spec t stamp toks F NE (S (length (block (join [COMMA] toks)))) [] g (module_is_enabled g) LM) as (g1 & P & E).
  { unfold block. rewrite map_length, app_length. cbn [length]. specialize (LJ _ NE). lia. }
  rewrite setm_self in E. cbn [map app length] in E. unfold LogEnableModulesFromString. change [","%char] with [COMMA].
  eexists _, g1. split; [exact E|]. split; [exact P|]. split; [reflexivity|]. split; [reflexivity|]. split; [reflexivity|].
  split; [exact (proj2 (@fold_enabled 1 (before_help toks) ltac:(lia) _ LM))|].
  intros m Hm. destruct (@fold_enabled m (before_help toks) Hm _ LM) as [Q L9].
  set (M' := fold_left apply_name (before_help toks) (module_is_enabled g)) in *.
  unfold LogModuleEnabled, massert. cbn [module_is_enabled setm]. unfold LOG_MOD_MAX in *.
  rewrite (proj2 (Nat.ltb_lt 0 m)), (proj2 (Nat.ltb_lt m 9)) by lia.
  destruct (nth_error M' m) as [b|] eqn:B; [|apply nth_error_None in B; lia].
  exists b. split; [reflexivity|]. split.
  - intros ->. destruct (proj1 Q eq_refl) as [H|H]; [left; now rewrite H|now right].
  - intros H. assert (X : Some b = Some true); [|congruence]. apply Q. destruct H as [H|H]; [left|now right].
    destruct (nth_error (module_is_enabled g) m); congruence.
Qed.
Print Assumptions C96_enable_modules.
Definition bytes_of_answer (r : res (log * cells byte * bool)) := match r with Ok (g, s, b) => Some (module_is_enabled g, trace g, s, b) | _ => None end.
Example C96_enable_example : Forall comma_free [lit "vars"; lit "what"; lit "ps"; lit "help"; lit "all"] /\
  bytes_of_answer (LogEnableModulesFromString (start []) 1 [] (block (lit "vars,what,ps,help,all"))) =
  Some ([false; false; false; false; false; false; true; false; true],
        [Stdout (lit " warning: Unknown debug logging module 'what'" ++ [NL]); Syslog 4 (lit "CFEngine(generic)  Unknown debug logging module 'what'" ++ [NL]); Stdout help_text],
        block (lit "vars,what,ps,help,all"), false).
Proof.
  split; [|vm_compute; reflexivity].
  repeat (apply Forall_cons; [split; [unfold is_cstr, NUL; cbn; intuition discriminate|cbn; intuition discriminate]|]). apply Forall_nil.
Qed.
(** a debug message of a module appears only if the module is enabled, and then as a message of
    level debug *)
Theorem C96_debug g t stamp m text : (1 <= m <= 8)%nat -> length (module_is_enabled g) = LOG_MOD_MAX -> is_cstr text ->
  (LogModuleEnabled g m = Ok false /\ LogDebug g t stamp m text = Ok g) \/
  (LogModuleEnabled g m = Ok true /\ exists g', perform g (t, Message stamp 6 text) = Ok (g', []) /\ LogDebug g t stamp m text = Ok g').
Proof.
  intros Hm LM CS. unfold LogDebug, LogModuleEnabled, massert, LOG_MOD_MAX in *.
  rewrite (proj2 (Nat.ltb_lt 0 m)), (proj2 (Nat.ltb_lt m 9)) by lia.
  destruct (nth_error (module_is_enabled g) m) as [[]|] eqn:B; [right|left; auto|apply nth_error_None in B; lia].
  split; [reflexivity|]. destruct (@VLog_setm g [] t stamp 6 text ltac:(lia) CS) as (g1 & E & _).
  exists g1. unfold perform. cbn [fst snd bind]. change LOG_LEVEL_DEBUG with 6. rewrite E. auto.
Qed.
Print Assumptions C96_debug.

(** * C97: raw bytes *)
Definition printable (c : byte) : byte := if isprint c then c else "."%char.
Lemma raw_spec (src : list byte) (rest : cells byte) n : (n <= length src)%nat -> (n < CF_BUFSIZE + 1)%nat -> forall k i, (i + k = n)%nat ->
  raw_loop k i (map Some src ++ rest) (map Some (map printable (firstn i src)) ++ repeat None (CF_BUFSIZE + 1 - i)) =
  Ok (map Some (map printable (firstn n src)) ++ repeat None (CF_BUFSIZE + 1 - n)).
Proof.
  intros LS LN. induction k as [|k IH]; intros i E; cbn [raw_loop].
  - replace i with n by lia. reflexivity.
  - assert (LT : (i < length src)%nat) by lia.
    destruct (nth_error src i) as [c|] eqn:NE; [|apply nth_error_None in NE; lia].
    assert (G : aget (map Some src ++ rest) i = Ok c).
    { unfold aget. rewrite nth_error_app1 by (rewrite map_length; lia). rewrite nth_error_map, NE. reflexivity. }
    rewrite G. cbn [bind].
    assert (FS : firstn (S i) src = firstn i src ++ [c]).
    { clear -NE. revert i NE. induction src as [|x src IH]; intros [|i] NE; cbn in NE; try discriminate; [injection NE as ->; reflexivity|].
      cbn [firstn app]. now rewrite <- (IH i NE). }
    assert (LF : length (firstn i src) = i) by (rewrite firstn_length; lia).
    assert (RP : repeat (@None byte) (CF_BUFSIZE + 1 - i) = None :: repeat None (CF_BUFSIZE + 1 - S i)).
    { replace (CF_BUFSIZE + 1 - i)%nat with (S (CF_BUFSIZE + 1 - S i)) by lia. reflexivity. }
    assert (ST : aset (map Some (map printable (firstn i src)) ++ repeat None (CF_BUFSIZE + 1 - i)) i (printable c) =
                 Ok (map Some (map printable (firstn (S i) src)) ++ repeat None (CF_BUFSIZE + 1 - S i))).
    { rewrite RP. unfold aset. rewrite app_length, !map_length, LF. cbn [length]. rewrite (proj2 (Nat.ltb_lt _ _)) by lia. f_equal.
      rewrite upd_app_r by (rewrite !map_length; lia). rewrite !map_length, LF, Nat.sub_diag, FS, !map_app, <- app_assoc. reflexivity. }
    fold (printable c). rewrite ST. cbn [bind]. apply IH. lia.
Qed.
(** the bytes appear after the prefix, each unprintable one as a dot, cut at 4096; messages below the
    levels of the thread are dropped *)
Theorem C97_raw g t stamp l prefix buf rest : 0 <= l <= 6 -> is_cstr prefix ->
  exists g', LogRaw g t stamp l prefix (map Some buf ++ rest) (length buf) = Ok g' /\
  exists c, contexts (fst (GetCurrentThreadContext g t)) t = Some c /\
    (if (l <=? report_level c) || (l <=? log_level c)
     then perform g (t, Message stamp l (prefix ++ map printable (firstn CF_BUFSIZE buf))) = Ok (g', [])
     else trace g' = trace g).
Proof.
  intros L CP. unfold LogRaw. set (n := if (CF_BUFSIZE <? length buf)%nat then CF_BUFSIZE else length buf).
  assert (NB : (n <= length buf)%nat /\ (n < CF_BUFSIZE + 1)%nat /\ firstn n buf = firstn CF_BUFSIZE buf).
  { subst n. destruct (Nat.ltb_spec CF_BUFSIZE (length buf)); split; try lia; split; try lia; auto. rewrite firstn_all, firstn_all2 by lia. reflexivity. }
  clearbody n. destruct NB as (NB1 & NB2 & NB3).
  destruct (GetCurrentThreadContext g t) as [g' c] eqn:E. cbn [fst].
  assert (CT : contexts g' t = Some c /\ trace g' = trace g /\ GetCurrentThreadContext g' t = (g', c)).
  { unfold GetCurrentThreadContext in *. destruct (contexts g t) as [k|] eqn:C; injection E; intros; subst; [rewrite C; auto|].
    cbn. rewrite Nat.eqb_refl. auto. }
  destruct CT as (CT & TR & G2).
  destruct ((l <=? report_level c) || (l <=? log_level c)) eqn:B.
  - pose proof (@raw_spec buf rest n NB1 NB2 n 0%nat ltac:(lia)) as R. cbn [firstn map app] in R. rewrite Nat.sub_0_r in R. rewrite R. cbn [bind].
    assert (PR : forall x, printable x <> NUL). { intros x. unfold printable. destruct (isprint x) eqn:P; [|discriminate]. intros ->. discriminate P. }
    assert (CSB : is_cstr (map printable (firstn n buf))). { intros I. apply in_map_iff in I as (x & X & _). exact (PR x X). }
    assert (ST : exists r, aset (map Some (map printable (firstn n buf)) ++ repeat None (CF_BUFSIZE + 1 - n)) n NUL = Ok (map Some (map printable (firstn n buf)) ++ Some NUL :: r)).
    { replace (CF_BUFSIZE + 1 - n)%nat with (S (CF_BUFSIZE - n)) by lia. cbn [repeat]. exists (repeat None (CF_BUFSIZE - n)).
      unfold aset. rewrite app_length, !map_length, firstn_length. cbn [length]. rewrite (proj2 (Nat.ltb_lt _ _)) by lia. f_equal.
      rewrite upd_app_r by (rewrite !map_length, firstn_length; lia). rewrite !map_length, firstn_length. replace (n - Nat.min n (length buf))%nat with 0%nat by lia. reflexivity. }
    destruct ST as [r ->]. cbn [bind]. rewrite (mstr_at r CSB). cbn [bind].
    assert (CSA : is_cstr (prefix ++ map printable (firstn n buf))). { intros I. apply in_app_or in I as [I|I]; [now apply CP|now apply CSB]. }
    rewrite (@VLog_gen _ _ stamp _ _ _ _ L CSA G2). eexists. split; [reflexivity|]. exists c. split; [exact CT|]. rewrite B.
    unfold perform. cbn [fst snd]. rewrite <- NB3, (@VLog_gen _ _ stamp _ _ _ _ L CSA E). reflexivity.
  - exists g'. split; [reflexivity|]. exists c. split; [exact CT|]. rewrite B. exact TR.
Qed.
Print Assumptions C97_raw.
Definition trace_of (r : res log) := match r with Ok g => Some (trace g) | _ => None end.
Example C97_raw_example : trace_of (LogRaw (start []) 1 [] 3 (lit "> ") (map Some [ascii_of_nat 0; "a"%char; ascii_of_nat 200; " "%char; NL]) 5) =
  Some [Stdout (lit "  notice: > .a. ." ++ [NL]); Syslog 5 (lit "CFEngine(generic)  > .a. ." ++ [NL])].
Proof. vm_compute. reflexivity. Qed.
(** the claim that raw messages reach the same places as other messages is false: a hook that is forced
    for the level (and would see a Log() of the same text) does not see a LogRaw() *)
Definition debug_hook : LoggingPrivContext := mkP (Some (fun _ _ => None)) 6.
Theorem C97_forced_hook_refuted : exists g text,
  trace_of (VLog g 1 [] 6 text) = Some [Hooked 6 text] /\ WouldLog g 1 6 = (g, true) /\
  trace_of (LogRaw g 1 [] 6 [] (map Some text) (length text)) = Some [].
Proof.
  exists (LoggingPrivSetContext (start []) 1 (Some debug_hook)), (lit "x"). split; [vm_compute; reflexivity|]. split; [reflexivity|]. vm_compute. reflexivity.
Qed.
Print Assumptions C97_forced_hook_refuted.

(** * C98: human readable sizes *)
Definition unit_size (u : list byte) : Z :=
  if bytes_eqb u (lit "GiB") then 2 ^ 30 else if bytes_eqb u (lit "MiB") then 2 ^ 20 else if bytes_eqb u (lit "KiB") then 2 ^ 10 else 1.
(** the number and the unit that are printed fit together: the number of whole units, at least 8 of
    them (unless bytes), and less than a unit is lost: under one part in eight *)
Theorem C98_magnitude bytes : 
  let n := byte_magnitude bytes in let u := unit_size (byte_unit bytes) in
  In (byte_unit bytes) [lit "bytes"; lit "KiB"; lit "MiB"; lit "GiB"] /\
  n * u <= bytes < (n + 1) * u /\ (u = 1 \/ 8 <= n /\ 8 * (bytes - n * u) < bytes) /\ (u < 2 ^ 30 -> n <= 8 * 2 ^ 10).
Proof.
  cbv zeta. unfold byte_magnitude, byte_unit. change (1024 * 1024 * 1024) with 1073741824. change (1024 * 1024) with 1048576.
  change (8 * 1073741824) with 8589934592. change (8 * 1048576) with 8388608. change (8 * 1024) with 8192.
  change (2 ^ 30) with 1073741824. change (8 * 2 ^ 10) with 8192.
  destruct (Z.ltb_spec 8589934592 bytes); [|destruct (Z.ltb_spec 8388608 bytes); [|destruct (Z.ltb_spec 8192 bytes)]].
  - change (unit_size (lit "GiB")) with 1073741824. rewrite Z.quot_div_nonneg by lia.
    pose proof (Z.div_mod bytes 1073741824 ltac:(lia)). pose proof (Z.mod_pos_bound bytes 1073741824 ltac:(lia)). split; [cbn; tauto|]. lia.
  - change (unit_size (lit "MiB")) with 1048576. rewrite Z.quot_div_nonneg by lia.
    pose proof (Z.div_mod bytes 1048576 ltac:(lia)). pose proof (Z.mod_pos_bound bytes 1048576 ltac:(lia)). split; [cbn; tauto|]. lia.
  - change (unit_size (lit "KiB")) with 1024. rewrite Z.quot_div_nonneg by lia.
    pose proof (Z.div_mod bytes 1024 ltac:(lia)). pose proof (Z.mod_pos_bound bytes 1024 ltac:(lia)). split; [cbn; tauto|]. lia.
  - change (unit_size (lit "bytes")) with 1. split; [cbn; tauto|]. lia.
Qed.
Print Assumptions C98_magnitude.
Example C98_example : (byte_magnitude (10 * 1024), byte_unit (10 * 1024)) = (10, lit "KiB") /\ (byte_magnitude 8192, byte_unit 8192) = (8192, lit "bytes").
Proof. split; reflexivity. Qed.
Example C96_debug_example : trace_of (LogDebug (start []) 1 [] 7 (lit "x")) = Some [] /\
  trace_of (let* g := LogEnableModule (LogSetGlobalLevel (start []) 1 6) 7 in LogDebug g 1 [] 7 (lit "x")) = Some [Stdout (lit "   debug: x" ++ [NL])].
Proof. split; vm_compute; reflexivity. Qed.
