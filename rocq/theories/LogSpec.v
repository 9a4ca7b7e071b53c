(** What a program that logs sees: an account of logging by histories of calls. *)
From Verif Require Import Prelude Str Libc LogModel.
Set Implicit Arguments.
Local Open Scope Z_scope.

(** a call, by the thread with the given number *)
Inductive call :=
| SetLevels (ll rl : Z)             (* LoggingPrivSetLevels: system log, console *)
| SetGlobal (l : Z)                 (* LogSetGlobalLevel *)
| SetColor (b : bool)               (* LoggingSetColor *)
| Attach (p : option LoggingPrivContext)  (* LoggingPrivSetContext *)
| Forget                            (* LoggingFreeCurrentThreadContext; the end of the thread *)
| SetAgent (s : list byte)          (* LoggingSetAgentType *)
| SetStamps (b : bool)              (* LoggingEnableTimestamps *)
| Ask (l : Z)                       (* WouldLog *)
| Message (stamp : list byte) (l : Z) (text : list byte).  (* Log; [stamp] is the time *)
Definition history := list (nat * call).

(** ** What is known of the whole process: the last settings made by anyone *)
Record process := mkProc { p_level : Z; p_agent : list byte; p_stamps : bool }.
Definition on_process (p : process) (c : nat * call) : process :=
  match snd c with
  | SetGlobal l => mkProc l (p_agent p) (p_stamps p)
  | SetAgent s => mkProc (p_level p) (firstn 79 s) (p_stamps p)
  | SetStamps b => mkProc (p_level p) (p_agent p) b
  | _ => p
  end.
Definition process_after (h : history) : process := fold_left on_process h (mkProc 3 (lit "generic") false).

(** ** What is known of a thread: its own settings.  A thread that has not used logging (since
    Forget) has none. *)
Record view := mkView { v_log : Z; v_report : Z; v_color : bool; v_hook : option (hook * Z) }.
(** the settings a thread begins with: the global level *)
Definition fresh (h : history) : view := mkView (p_level (process_after h)) (p_level (process_after h)) false None.
Definition attached (p : option LoggingPrivContext) : option (hook * Z) :=
  match p with Some (mkP (Some h) f) => Some (h, f) | _ => None end.
Definition on_view (v : view) (c : call) : option view :=
  match c with
  | SetLevels ll rl => Some (mkView ll rl (v_color v) (v_hook v))
  | SetGlobal l => Some (mkView l l (v_color v) (v_hook v))
  | SetColor b => Some (mkView (v_log v) (v_report v) b (v_hook v))
  | Attach p => Some (mkView (v_log v) (v_report v) (v_color v) (attached p))
  | Forget => None
  | Ask _ | Message _ _ _ => Some v
  | SetAgent _ | SetStamps _ => Some v
  end.
(** SetAgent and SetStamps do not concern the thread *)
Definition process_wide (c : call) : bool := match c with SetAgent _ | SetStamps _ => true | _ => false end.
(** [h] in reverse order *)
Fixpoint known (t : nat) (rh : list (nat * call)) : option view :=
  match rh with
  | [] => None
  | (u, c) :: rh =>
      if negb (u =? t)%nat || process_wide c then known t rh
      else on_view (match known t rh with Some v => v | None => fresh (rev rh) end) c
  end.
(** the settings that apply to a call of thread [t] after [h] *)
Definition settings (t : nat) (h : history) : view := match known t (rev h) with Some v => v | None => fresh h end.

(** ** What a message does *)
(** a final newline is not part of a message *)
Definition chop (text : list byte) : list byte :=
  match rev text with c :: r => if beq c NL then rev r else text | [] => [] end.
Definition level_name (l : Z) : list byte :=
  nth (Z.to_nat l) [lit "CRITICAL"; lit "error"; lit "warning"; lit "notice"; lit "info"; lit "verbose"; lit "debug"] [].
Definition level_color (l : Z) : list byte :=
  ESC :: nth (Z.to_nat l) [lit "[31m"; lit "[31m"; lit "[33m"; lit "[32m"; lit "[32m"; lit "[34m"; lit "[34m"] [].
(** RFC 5424 severities *)
Definition severity (l : Z) : Z := nth (Z.to_nat l) [2; 3; 4; 5; 6; 7; 7] 0.
Definition console_line (p : process) (prefix : list byte) (colored : bool) (stamp : list byte) (l : Z) (msg : list byte) : list byte :=
  (if colored then level_color l else []) ++
  (if (4 <=? l) && (match prefix with [] => false | _ => true end) then prefix ++ lit " " else []) ++
  (if p_stamps p then stamp ++ lit " " else []) ++
  repeat " "%char (8 - length (level_name l)) ++ level_name l ++ lit ": " ++ msg ++ [NL] ++
  (if colored then ESC :: lit "[0m" else []).
Definition system_line (p : process) (prefix msg : list byte) : list byte :=
  firstn 4095 (lit "CFEngine(" ++ p_agent p ++ lit ") " ++ prefix ++ lit " " ++ msg ++ [NL]).
(** where a message goes *)
Definition to_console (v : view) (l : Z) : bool := l <=? v_report v.
(** the levels verbose and debug never go to the system log *)
Definition to_system (v : view) (l : Z) : bool := (l <=? v_log v) && (l <? 5).
Definition forced (v : view) (l : Z) : bool := match v_hook v with Some (_, f) => l <=? f | None => false end.
Definition wanted (v : view) (l : Z) : bool := to_console v l || to_system v l || forced v l.
Definition message_events (p : process) (prefix : list byte) (v : view) (stamp : list byte) (l : Z) (text : list byte) : list event :=
  if wanted v l then
    let msg := chop text in
    let shown := match v_hook v with Some (h, _) => match h l msg with Some s => s | None => msg end | None => msg end in
    (match v_hook v with Some _ => [Hooked l msg] | None => [] end) ++
    (if to_console v l then [Stdout (console_line p prefix (v_color v) stamp l shown)] else []) ++
    (if to_system v l then [Syslog (severity l) (system_line p prefix shown)] else [])
  else [].
(** the trace of a history that follows [before] *)
Fixpoint events_of (prefix : list byte) (before h : history) : list event :=
  match h with
  | [] => []
  | (t, c) :: h =>
      (match c with Message stamp l text => message_events (process_after before) prefix (settings t before) stamp l text | _ => [] end) ++
      events_of prefix (before ++ [(t, c)]) h
  end.
(** messages have one of the seven levels and are strings *)
Definition valid_call (c : nat * call) : Prop := match snd c with Message _ l text => 0 <= l <= 6 /\ is_cstr text | _ => True end.

(** running the calls; the answers of WouldLog *)
Definition perform (g : log) (c : nat * call) : res (log * list bool) :=
  let t := fst c in
  match snd c with
  | SetLevels ll rl => Ok (LoggingPrivSetLevels g t ll rl, [])
  | SetGlobal l => Ok (LogSetGlobalLevel g t l, [])
  | SetColor b => Ok (LoggingSetColor g t b, [])
  | Attach p => Ok (LoggingPrivSetContext g t p, [])
  | Forget => Ok (LoggingFreeCurrentThreadContext g t, [])
  | SetAgent s => Ok (LoggingSetAgentType g s, [])
  | SetStamps b => Ok (LoggingEnableTimestamps g b, [])
  | Ask l => let '(g, b) := WouldLog g t l in Ok (g, [b])
  | Message stamp l text => let* g := VLog g t stamp l text in Ok (g, [])
  end.
Fixpoint perform_all (g : log) (h : history) : res (log * list bool) :=
  match h with
  | [] => Ok (g, [])
  | c :: h => let* ' (g, a) := perform g c in let* ' (g, b) := perform_all g h in Ok (g, a ++ b)
  end.
Fixpoint answers_of (before h : history) : list bool :=
  match h with
  | [] => []
  | (t, c) :: h => (match c with Ask l => [wanted (settings t before) l] | _ => [] end) ++ answers_of (before ++ [(t, c)]) h
  end.
(** at the start of the process; VPREFIX is set by the program *)
Definition start (prefix : list byte) : log := mkLog 3 (fun _ => None) prefix (lit "generic") false (repeat false 9) [].

(** ** Debug modules *)
Definition module_name (m : nat) : list byte :=
  match m with
  | 1 => lit "evalctx" | 2 => lit "expand" | 3 => lit "iterations" | 4 => lit "parser"
  | 5 => lit "vartable" | 6 => lit "vars" | 7 => lit "locks" | 8 => lit "ps" | _ => []
  end%nat.
(** the part of a list of names that counts: up to the first help *)
Fixpoint before_help (l : list (list byte)) : list (list byte) :=
  match l with [] => [] | w :: l => if bytes_eqb w (lit "help") then [] else w :: before_help l end.
Definition asks_help (l : list (list byte)) : bool := existsb (fun w => bytes_eqb w (lit "help")) l.
Definition unknown_module (w : list byte) : bool :=
  negb (bytes_eqb w (lit "all")) && negb (existsb (fun m => bytes_eqb w (module_name m)) [1; 2; 3; 4; 5; 6; 7; 8]%nat).
Definition unknown_text (w : list byte) : list byte := lit "Unknown debug logging module '" ++ w ++ lit "'".
Definition help_text : list byte :=
  [NL] ++ lit "--log-modules accepts a comma separated list of one or more of the following:" ++ [NL; NL] ++
  concat (map (fun w => lit "    " ++ w ++ [NL]) ([lit "help"; lit "all"] ++ map module_name [1; 2; 3; 4; 5; 6; 7; 8]%nat)) ++ [NL].
