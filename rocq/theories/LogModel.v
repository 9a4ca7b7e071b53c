(** Model of libutils/logging.c.

    Threads are numbers; the variables of a thread (pthread_getspecific) are a function of them.
    The back ends (stdout, syslog(3), the hook of the logging extension) are a trace of events in
    the order in which they are called.  Simplifications: the format has already been expanded
    (StringVFormat, libutils/string_lib.c, on the libc's vsnprintf), memory does not run out, the
    fields of a LoggingPrivContext do not change while it is attached, VPREFIX and AgentType are
    plain strings, the time stamp is an input. *)
From Verif Require Import Prelude Str Libc CmpModel CompatModel.
Set Implicit Arguments.
Local Open Scope Z_scope.

(** libutils/logging.h:38-48 *)
Definition LogLevel := Z.
Definition LOG_LEVEL_NOTHING : LogLevel := -1.
Definition LOG_LEVEL_CRIT : LogLevel := 0.
Definition LOG_LEVEL_ERR : LogLevel := 1.
Definition LOG_LEVEL_WARNING : LogLevel := 2.
Definition LOG_LEVEL_NOTICE : LogLevel := 3.
Definition LOG_LEVEL_INFO : LogLevel := 4.
Definition LOG_LEVEL_VERBOSE : LogLevel := 5.
Definition LOG_LEVEL_DEBUG : LogLevel := 6.

(** libutils/logging_priv.h:32-50: log_hook (None: NULL) and force_hook_level; the hook returns its
    argument (None) or a new string *)
Definition hook := LogLevel -> list byte -> option (list byte).
Record LoggingPrivContext := mkP { log_hook : option hook; force_hook_level : LogLevel }.
(** libutils/logging.h:73-80 *)
Record LoggingContext := mkL { log_level : LogLevel; report_level : LogLevel; color : bool; pctx : option LoggingPrivContext }.

Inductive event :=
| Hooked (l : LogLevel) (msg : list byte)
| Stdout (text : list byte)
| Syslog (priority : Z) (text : list byte)
| Stderr (text : list byte)
| Exit (code : Z).

(** the static variables, the thread-specific contexts and the trace *)
Record log := mkLog { global_level : LogLevel; contexts : nat -> option LoggingContext; VPREFIX : list byte; AgentType : list byte;
                      TIMESTAMPS : bool; module_is_enabled : list bool; trace : list event }.
Definition set_context (g : log) (t : nat) (c : option LoggingContext) : log :=
  mkLog (global_level g) (fun u => if (u =? t)%nat then c else contexts g u) (VPREFIX g) (AgentType g) (TIMESTAMPS g) (module_is_enabled g) (trace g).
Definition emit (g : log) (e : list event) : log :=
  mkLog (global_level g) (contexts g) (VPREFIX g) (AgentType g) (TIMESTAMPS g) (module_is_enabled g) (trace g ++ e).

(** libutils/logging.c:56-68 GetCurrentThreadContext *)
Definition GetCurrentThreadContext (g : log) (t : nat) : log * LoggingContext :=
  match contexts g t with
  | Some c => (g, c)
  | None => let c := mkL (global_level g) (global_level g) false None in (set_context g t (Some c), c)
  end.
(** libutils/logging.c:70-81 LoggingFreeCurrentThreadContext *)
Definition LoggingFreeCurrentThreadContext (g : log) (t : nat) : log :=
  match contexts g t with None => g | Some _ => set_context g t None end.
(** libutils/logging.c:83-86 LoggingSetAgentType; strlcpy into 80 bytes *)
Definition LoggingSetAgentType (g : log) (type : list byte) : log :=
  mkLog (global_level g) (contexts g) (VPREFIX g) (firstn 79 type) (TIMESTAMPS g) (module_is_enabled g) (trace g).
(** libutils/logging.c:88-91 LoggingEnableTimestamps *)
Definition LoggingEnableTimestamps (g : log) (enable : bool) : log :=
  mkLog (global_level g) (contexts g) (VPREFIX g) (AgentType g) enable (module_is_enabled g) (trace g).
(** libutils/logging.c:93-97 LoggingPrivSetContext *)
Definition LoggingPrivSetContext (g : log) (t : nat) (p : option LoggingPrivContext) : log :=
  let '(g, c) := GetCurrentThreadContext g t in set_context g t (Some (mkL (log_level c) (report_level c) (color c) p)).
(** libutils/logging.c:99-103 LoggingPrivGetContext *)
Definition LoggingPrivGetContext (g : log) (t : nat) : log * option LoggingPrivContext :=
  let '(g, c) := GetCurrentThreadContext g t in (g, pctx c).
(** libutils/logging.c:105-110 LoggingPrivSetLevels *)
Definition LoggingPrivSetLevels (g : log) (t : nat) (ll rl : LogLevel) : log :=
  let '(g, c) := GetCurrentThreadContext g t in set_context g t (Some (mkL ll rl (color c) (pctx c))).
(** libutils/logging.c:586-590 LoggingSetColor *)
Definition LoggingSetColor (g : log) (t : nat) (enabled : bool) : log :=
  let '(g, c) := GetCurrentThreadContext g t in set_context g t (Some (mkL (log_level c) (report_level c) enabled (pctx c))).
(** libutils/logging.c:561-565 LogSetGlobalLevel *)
Definition LogSetGlobalLevel (g : log) (t : nat) (level : LogLevel) : log :=
  LoggingPrivSetLevels (mkLog level (contexts g) (VPREFIX g) (AgentType g) (TIMESTAMPS g) (module_is_enabled g) (trace g)) t level level.
(** libutils/logging.c:581-584 LogGetGlobalLevel *)
Definition LogGetGlobalLevel (g : log) : LogLevel := global_level g.

(** libutils/logging.c:112-133 LogLevelToString; ProgrammingError aborts *)
Definition LogLevelToString (level : LogLevel) : res (list byte) :=
  if level =? LOG_LEVEL_CRIT then Ok (lit "CRITICAL")
  else if level =? LOG_LEVEL_ERR then Ok (lit "error")
  else if level =? LOG_LEVEL_WARNING then Ok (lit "warning")
  else if level =? LOG_LEVEL_NOTICE then Ok (lit "notice")
  else if level =? LOG_LEVEL_INFO then Ok (lit "info")
  else if level =? LOG_LEVEL_VERBOSE then Ok (lit "verbose")
  else if level =? LOG_LEVEL_DEBUG then Ok (lit "debug")
  else Abort.
Section WithLibc.
Variable strncasecmp : list byte -> list byte -> nat -> Z.
(** libutils/logging.c:135-173 LogLevelFromString; None is NULL *)
Definition LogLevelFromString (level : option (list byte)) : res LogLevel :=
  match level with
  | None | Some [] => Ok LOG_LEVEL_NOTHING
  | Some s =>
      let is name := StringEqualN_IgnoreCase strncasecmp (Some (0%N, s)) (Some (1%N, name)) (length s) in
      let* b := is (lit "CRITICAL") in if b : bool then Ok LOG_LEVEL_CRIT else
      let* b := is (lit "errors") in if b : bool then Ok LOG_LEVEL_ERR else
      let* b := is (lit "warnings") in if b : bool then Ok LOG_LEVEL_WARNING else
      let* b := is (lit "notices") in if b : bool then Ok LOG_LEVEL_NOTICE else
      let* b := is (lit "information") in if b : bool then Ok LOG_LEVEL_INFO else
      let* b := is (lit "verbose") in if b : bool then Ok LOG_LEVEL_VERBOSE else
      let* b := is (lit "debug") in if b : bool then Ok LOG_LEVEL_DEBUG else
      Ok LOG_LEVEL_NOTHING
  end.
(** libutils/logging.c:567-579 LogSetGlobalLevelArgOrExit; nothing is done after an exit *)
Definition LogSetGlobalLevelArgOrExit (g : log) (t : nat) (arg : list byte) : res log :=
  let* level := LogLevelFromString (Some arg) in
  if level =? LOG_LEVEL_NOTHING
  then Ok (emit g [Stderr (lit "Invalid log level: '" ++ arg ++ lit "'" ++ [ascii_of_nat 10]); Exit 1])
  else Ok (LogSetGlobalLevel g t level).
End WithLibc.

Definition NL : byte := ascii_of_nat 10.
Definition ESC : byte := ascii_of_nat 27.
(** libutils/logging.c:175-198 LogLevelToColor *)
Definition LogLevelToColor (level : LogLevel) : res (list byte) :=
  if (level =? LOG_LEVEL_CRIT) || (level =? LOG_LEVEL_ERR) then Ok (ESC :: lit "[31m")
  else if level =? LOG_LEVEL_WARNING then Ok (ESC :: lit "[33m")
  else if (level =? LOG_LEVEL_NOTICE) || (level =? LOG_LEVEL_INFO) then Ok (ESC :: lit "[32m")
  else if (level =? LOG_LEVEL_VERBOSE) || (level =? LOG_LEVEL_DEBUG) then Ok (ESC :: lit "[34m")
  else Abort.
(** printf("%8s") *)
Definition right8 (s : list byte) : list byte := repeat " "%char (8 - length s) ++ s.
(** libutils/logging.c:210-240 LogToConsole: [stamp] is what LoggingFormatTimestamp gives *)
Definition LogToConsole (g : log) (stamp : list byte) (msg : list byte) (level : LogLevel) (color : bool) : res log :=
  let* c1 := (if color then LogLevelToColor level else Ok []) in
  let c2 := if (LOG_LEVEL_INFO <=? level) && (match VPREFIX g with [] => false | _ => true end) then VPREFIX g ++ lit " " else [] in
  let c3 := if TIMESTAMPS g then stamp ++ lit " " else [] in
  let* name := LogLevelToString level in
  let c4 := right8 name ++ lit ": " ++ msg ++ [NL] in
  let c5 := if color then ESC :: lit "[0m" else [] in
  Ok (emit g [Stdout (c1 ++ c2 ++ c3 ++ c4 ++ c5)]).
(** libutils/logging.c:243-259 LogLevelToSyslogPriority; syslog.h: LOG_CRIT 2, LOG_ERR 3, LOG_WARNING 4,
    LOG_NOTICE 5, LOG_INFO 6, LOG_DEBUG 7 *)
Definition LogLevelToSyslogPriority (level : LogLevel) : res Z :=
  if level =? LOG_LEVEL_CRIT then Ok 2
  else if level =? LOG_LEVEL_ERR then Ok 3
  else if level =? LOG_LEVEL_WARNING then Ok 4
  else if level =? LOG_LEVEL_NOTICE then Ok 5
  else if level =? LOG_LEVEL_INFO then Ok 6
  else if level =? LOG_LEVEL_VERBOSE then Ok 7
  else if level =? LOG_LEVEL_DEBUG then Ok 7
  else Abort.
(** libutils/logging.c:261-266 LogToSystemLog; snprintf into 4096 bytes *)
Definition LogToSystemLog (g : log) (msg : list byte) (level : LogLevel) : res log :=
  let logmsg := firstn 4095 (lit "CFEngine(" ++ AgentType g ++ lit ") " ++ VPREFIX g ++ lit " " ++ msg ++ [NL]) in
  let* p := LogLevelToSyslogPriority level in
  Ok (emit g [Syslog p logmsg]).

(** libutils/logging.c:308-320 WouldLog *)
Definition has_hook (c : LoggingContext) : option (hook * LogLevel) :=
  match pctx c with Some p => match log_hook p with Some h => Some (h, force_hook_level p) | None => None end | None => None end.
Definition WouldLog (g : log) (t : nat) (level : LogLevel) : log * bool :=
  let '(g, c) := GetCurrentThreadContext g t in
  let log_to_console := level <=? report_level c in
  let log_to_syslog := (level <=? log_level c) && (level <? LOG_LEVEL_VERBOSE) in
  let force_hook := match has_hook c with Some (_, f) => f >=? level | None => false end in
  (g, log_to_console || log_to_syslog || force_hook).

(** libutils/logging.c:322-375 VLog: the loop that removes the ending EOLN *)
Fixpoint eoln_loop (fuel sp : nat) (msg : cells byte) : res (cells byte) :=
  match fuel with
  | O => Fuel
  | S f =>
      let* c := aget msg sp in
      if beq c NUL then Ok msg
      else
        let* last := (if beq c NL then let* d := aget msg (S sp) in Ok (beq d NUL) else Ok false) in
        if last : bool then aset msg sp NUL else eoln_loop f (S sp) msg
  end.
(** libutils/logging.c:322-375 VLog; [text] is the expanded format *)
Definition VLog (g : log) (t : nat) (stamp : list byte) (level : LogLevel) (text : list byte) : res log :=
  let '(g, c) := GetCurrentThreadContext g t in
  let log_to_console := level <=? report_level c in
  let log_to_syslog := (level <=? log_level c) && (level <? LOG_LEVEL_VERBOSE) in
  let force_hook := match has_hook c with Some (_, f) => f >=? level | None => false end in
  if negb log_to_console && negb log_to_syslog && negb force_hook then Ok g
  else
    let* m := eoln_loop (S (length text)) 0 (block text) in
    let* msg := mstr m in
    let '(g, hooked_msg) :=
      match has_hook c with
      | Some (h, _) => (emit g [Hooked level msg], match h level msg with Some s => s | None => msg end)
      | None => (g, msg)
      end in
    let* g := (if log_to_console then LogToConsole g stamp hooked_msg level (color c) else Ok g) in
    if log_to_syslog then LogToSystemLog g hooked_msg level else Ok g.

Definition CF_BUFSIZE : nat := 4096.
(** libutils/logging.c:382-407 LogRaw: the loop *)
Fixpoint raw_loop (n i : nat) (src : cells byte) (dst : cells byte) : res (cells byte) :=
  match n with
  | O => Ok dst
  | S n => let* c := aget src i in let* dst := aset dst i (if isprint c then c else "."%char) in raw_loop n (S i) src dst
  end.
(** libutils/logging.c:382-407 LogRaw, NDEBUG: debug_abort_if_reached does nothing *)
Definition LogRaw (g : log) (t : nat) (stamp : list byte) (level : LogLevel) (prefix : list byte) (buf : cells byte) (buflen : nat) : res log :=
  let buflen := if (CF_BUFSIZE <? buflen)%nat then CF_BUFSIZE else buflen in
  let '(g, c) := GetCurrentThreadContext g t in
  if (level <=? report_level c) || (level <=? log_level c) then
    let* dst := raw_loop buflen 0 buf (repeat None (CF_BUFSIZE + 1)) in
    let* dst := aset dst buflen NUL in
    let* s := mstr dst in
    VLog g t stamp level (prefix ++ s)
  else Ok g.

(** * Modules *)
(** libutils/logging.h:55-67; LOG_MOD_NONE is 0 *)
Definition LOG_MOD_MAX : nat := 9.
Definition log_modules : list (list byte) :=
  [[]; lit "evalctx"; lit "expand"; lit "iterations"; lit "parser"; lit "vartable"; lit "vars"; lit "locks"; lit "ps"].
(** libutils/logging.c:433-444 LogModuleFromString *)
Fixpoint module_loop (l : list (list byte)) (i : nat) (s : list byte) : nat :=
  match l with [] => 0 | m :: l => if bytes_eqb m s then i else module_loop l (S i) s end.
Definition LogModuleFromString (s : list byte) : nat := module_loop log_modules 0 s.
(** libutils/logging.c:446-451 LogEnableModule *)
Definition LogEnableModule (g : log) (m : nat) : res log :=
  massert (m <? LOG_MOD_MAX)%nat
    (if (m <? length (module_is_enabled g))%nat
     then Ok (mkLog (global_level g) (contexts g) (VPREFIX g) (AgentType g) (TIMESTAMPS g) (upd (module_is_enabled g) m true) (trace g))
     else UB).
(** libutils/logging.c:453-463 LogModuleHelp *)
Definition LogModuleHelp (g : log) : log :=
  emit g [Stdout ([NL] ++ lit "--log-modules accepts a comma separated list of one or more of the following:" ++ [NL; NL] ++
                  lit "    help" ++ [NL] ++ lit "    all" ++ [NL] ++
                  concat (map (fun m => lit "    " ++ m ++ [NL]) (tl log_modules)) ++ [NL])].
Fixpoint enable_from (n j : nat) (g : log) : res log :=
  match n with O => Ok g | S n => let* g := LogEnableModule g j in enable_from n (S j) g end.
(** libutils/logging.c:476-525 LogEnableModulesFromString: the loop; [s] is the memory of the string,
    [token] an offset *)
Fixpoint modules_loop (fuel : nat) (g : log) (t : nat) (stamp : list byte) (s : cells byte) (token : nat) : res (log * cells byte * bool) :=
  match fuel with
  | O => Fuel
  | S f =>
      let* rest := mstr (skipn token s) in
      let token_len := strchrnul rest ","%char in
      let next_token := (token + token_len)%nat in
      let* saved_sep := aget s next_token in
      let* s := aset s next_token NUL in
      let* tok := mstr (skipn token s) in
      let* ' (g, retval) :=
        (if bytes_eqb tok (lit "help") then Ok (LogModuleHelp g, false)
         else if bytes_eqb tok (lit "all") then let* g := enable_from (LOG_MOD_MAX - 1) 1 g in Ok (g, true)
         else
           let md := LogModuleFromString tok in
           massert (md <? LOG_MOD_MAX)%nat
             (if (md =? 0)%nat
              then let* g := VLog g t stamp LOG_LEVEL_WARNING (lit "Unknown debug logging module '" ++ tok ++ lit "'") in Ok (g, true)
              else let* g := LogEnableModule g md in Ok (g, true))) in
      let* s := aset s next_token saved_sep in
      if negb (beq saved_sep NUL) && retval then modules_loop f g t stamp s (S next_token) else Ok (g, s, retval)
  end.
Definition LogEnableModulesFromString (g : log) (t : nat) (stamp : list byte) (s : cells byte) : res (log * cells byte * bool) :=
  modules_loop (S (length s)) g t stamp s 0.
(** libutils/logging.c:527-540 LogModuleEnabled *)
Definition LogModuleEnabled (g : log) (m : nat) : res bool :=
  massert (0 <? m)%nat (massert (m <? LOG_MOD_MAX)%nat (match nth_error (module_is_enabled g) m with Some b => Ok b | None => UB end)).
(** libutils/logging.c:542-558 LogDebug *)
Definition LogDebug (g : log) (t : nat) (stamp : list byte) (m : nat) (text : list byte) : res log :=
  massert (m <? LOG_MOD_MAX)%nat (let* b := LogModuleEnabled g m in if b : bool then VLog g t stamp LOG_LEVEL_DEBUG text else Ok g).

(** libutils/logging.c:593-612 byte_magnitude; 64-bit long *)
Definition byte_magnitude (bytes : Z) : Z :=
  let Ki := 1024 in let Mi := Ki * 1024 in let Gi := Mi * 1024 in
  if 8 * Gi <? bytes then Z.quot bytes Gi
  else if 8 * Mi <? bytes then Z.quot bytes Mi
  else if 8 * Ki <? bytes then Z.quot bytes Ki
  else bytes.
(** libutils/logging.c:617-636 byte_unit *)
Definition byte_unit (bytes : Z) : list byte :=
  let Ki := 1024 in let Mi := Ki * 1024 in let Gi := Mi * 1024 in
  if 8 * Gi <? bytes then lit "GiB"
  else if 8 * Mi <? bytes then lit "MiB"
  else if 8 * Ki <? bytes then lit "KiB"
  else lit "bytes".
