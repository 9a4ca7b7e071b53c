(** Model of libutils/known_dirs.c (not Windows, Cygwin or Android).

    Simplifications: the static buffers hold the text up to the NUL; a text of snprintf has less
    than INT_MAX characters; MapName (libutils/file_lib.c) is the identity on these systems. *)
From Verif Require Import Prelude Str Libc.
Set Implicit Arguments.

(** the eight directories *)
Inductive dir := Work | Bin | Data | LogD | Pid | Master | Input | State.
Definition dir_eqb (a b : dir) : bool :=
  match a, b with
  | Work, Work | Bin, Bin | Data, Data | LogD, LogD | Pid, Pid | Master, Master | Input, Input | State, State => true
  | _, _ => false
  end.
(** limits.h PATH_MAX; libutils/definitions.h:58 CF_BUFSIZE *)
Definition PATH_MAX : nat := 4096.
Definition CF_BUFSIZE : nat := 4096.
(** snprintf of [text] into a buffer of [size]: what is in the buffer then *)
Definition printed (size : nat) (text : list byte) : list byte := firstn (size - 1) text.

(** what the process finds outside at the time of a call *)
Record outside := mkOut {
  uid : N;                          (* getuid() *)
  home : option (list byte);        (* getpwuid(): the home directory, or NULL *)
  override : option (list byte) }.  (* the environment variable CFENGINE_TEST_OVERRIDE_WORKDIR *)
(** the static buffers: those of the GetDefault...Dir functions, OVERRIDE_BINDIR, those of GetInputDir, ... *)
Record statics := mkStat { cached : dir -> list byte; bin_buf : list byte; work_buf : dir -> list byte }.
Definition initial : statics := mkStat (fun _ => []) [] (fun _ => []).
(** what a function returns: NULL, a string constant or the value of the variable, or one of the buffers *)
Inductive pointer := PNull | PText (s : list byte) | PCached (d : dir) | PBin | PWork (d : dir).
Definition deref (st : statics) (p : pointer) : option (list byte) :=
  match p with PNull => None | PText s => Some s | PCached d => Some (cached st d) | PBin => Some (bin_buf st) | PWork d => Some (work_buf st d) end.

Section Compiled.
  (** WORKDIR, BINDIR, CF_DATADIR, LOGDIR, PIDDIR, MASTERDIR, INPUTDIR, STATEDIR *)
  Variable compiled : dir -> list byte.
  (** libutils/known_dirs.c:93-110: the folders of GET_DEFAULT_DIRECTORY_DEFINE *)
  Definition folder (d : dir) : option (list byte) :=
    match d with
    | Work | Pid => None
    | Bin => Some (lit "bin") | Data => Some (lit "data") | LogD => Some (lit "log")
    | Master => Some (lit "masterfiles") | Input => Some (lit "inputs") | State => Some (lit "state")
    end.
  (** libutils/known_dirs.c:52-91 GetDefaultDir_helper on the static buffer of [d] *)
  Definition GetDefaultDir (st : statics) (o : outside) (d : dir) : statics * pointer :=
    if (0 <? uid o)%N then
      match cached st d with
      | [] =>
          match home o with
          | None => (st, PNull)
          | Some h =>
              let text := match folder d with
                          | None => h ++ lit "/.cfagent"
                          | Some f => h ++ lit "/.cfagent/" ++ f
                          end in
              let st := mkStat (fun x => if dir_eqb x d then printed PATH_MAX text else cached st x) (bin_buf st) (work_buf st) in
              if (PATH_MAX <=? length text)%nat then (st, PNull) else (st, PCached d)
          end
      | _ => (st, PCached d)
      end
    else (st, PText (compiled d)).
  (** libutils/known_dirs.c:116-121 GetWorkDir, GetLogDir, GetPidDir *)
  Definition plain_dir (st : statics) (o : outside) (d : dir) : statics * pointer :=
    match override o with None => GetDefaultDir st o d | Some w => (st, PText w) end.
  (** libutils/known_dirs.c:123-146 GetBinDir *)
  Definition GetBinDir (st : statics) (o : outside) : statics * pointer :=
    match override o with
    | None => GetDefaultDir st o Bin
    | Some w => (mkStat (cached st) (printed PATH_MAX (w ++ lit "/bin")) (work_buf st), PBin)
    end.
  (** libutils/known_dirs.c:158-191 GET_DIRECTORY_DEFINE_FUNC_BODY; UB: %s of NULL *)
  Definition folder_dir (st : statics) (o : outside) (d : dir) (f : list byte) : res (statics * pointer) :=
    let set st text := (mkStat (cached st) (bin_buf st) (fun x => if dir_eqb x d then printed CF_BUFSIZE text else work_buf st x), PWork d) in
    match override o with
    | Some w => Ok (set st (w ++ lit "/" ++ f))
    | None =>
        if bytes_eqb (compiled d) (lit "default") then
          let (st, w) := plain_dir st o Work in
          match deref st w with
          | Some w => Ok (set st (w ++ lit "/" ++ f))
          | None => UB
          end
        else Ok (GetDefaultDir st o d)
    end.
  (** the functions Get...Dir *)
  Definition GetDir (st : statics) (o : outside) (d : dir) : res (statics * pointer) :=
    match d with
    | Work | LogD | Pid => Ok (plain_dir st o d)
    | Bin => Ok (GetBinDir st o)
    | Input => folder_dir st o d (lit "inputs")
    | Master => folder_dir st o d (lit "masterfiles")
    | State => folder_dir st o d (lit "state")
    | Data => folder_dir st o d (lit "data")
    end.
  (** a history of calls, each with what it finds outside: the results, latest last *)
  Fixpoint calls (st : statics) (cs : list (outside * dir)) : res (statics * list pointer) :=
    match cs with
    | [] => Ok (st, [])
    | (o, d) :: cs =>
        let* ' (st, p) := GetDir st o d in
        let* ' (st, ps) := calls st cs in Ok (st, p :: ps)
    end.
End Compiled.
