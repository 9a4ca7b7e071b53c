(** Model of putenv_wrapper, setenv_wrapper and xsnprintf of libutils/misc_lib.c (Linux).
    setenv(3) of the C library keeps the environment as a list of entries name=value. *)
From Verif Require Import Prelude Str StrFacts Libc CompatModel PrintfModel.
Set Implicit Arguments.

(** ** Environment *)
Inductive errno := EINVAL | ENOMEM.
(** one call: the result, errno if it is set, the environment *)
Definition env_result := (Z * option errno * list (list byte))%type.
(** setenv(3): the first entry for the name is replaced, or one is added at the end *)
Fixpoint replace_entry (name value : list byte) (environ : list (list byte)) : option (list (list byte)) :=
  match environ with
  | [] => None
  | e :: environ =>
      if prefixb (name ++ lit "=") e then Some ((name ++ lit "=" ++ value) :: environ)
      else option_map (cons e) (replace_entry name value environ)
  end.
Definition setenv (mem : bool) (name value : list byte) (overwrite : bool) (environ : list (list byte)) : env_result :=
  match name, strchr name "=" with
  | [], _ | _, Some _ => ((-1)%Z, Some EINVAL, environ)
  | _, None =>
      if existsb (prefixb (name ++ lit "=")) environ && negb overwrite then (0%Z, None, environ)
      else if mem then
        (0%Z, None, match replace_entry name value environ with Some e => e | None => environ ++ [name ++ lit "=" ++ value] end)
      else ((-1)%Z, Some ENOMEM, environ)
  end.
(** libutils/misc_lib.c:140-167 setenv_wrapper, on Linux *)
Definition setenv_wrapper := setenv.
(** libutils/misc_lib.c:169-184 putenv_wrapper; [copied]: xstrdup gets its memory (if not the process
    ends: Abort), [mem]: setenv gets it *)
Definition putenv_wrapper (copied mem : bool) (str : cells byte) (environ : list (list byte)) : res env_result :=
  let* name := strdup copied str in
  match name with
  | None => Abort
  | Some name =>
      let* text := mstr name in
      match strchr text "=" with
      | None => Ok ((-1)%Z, Some EINVAL, environ)
      | Some equal_sign =>
          let* name := aset name equal_sign NUL in
          let* value := mstr (skipn (equal_sign + 1) name) in
          let* name := mstr name in
          Ok (setenv_wrapper mem name value true environ)
      end
  end.

(** ** xsnprintf *)
(** what is said: the warning in the log, or on stderr that the result was cut *)
Inductive report := Failed | Truncated.
(** libutils/misc_lib.c:114-138 xsnprintf; [ndebug]: compiled with NDEBUG; otherwise ProgrammingError
    ends the process (Abort).  vsnprintf is that of libcompat/snprintf.c *)
Definition xsnprintf (ndebug : bool) (str : cells byte) (str_size : nat) (format : list byte) (args : list arg) : res (cells byte * option report) :=
  let* ' (str, r, _) := rpl_vsnprintf (Some str) str_size format args in
  if (r <? 0)%Z then
    let* str := aset str 0 NUL in
    Ok (str, Some Failed)
  else if (Z.of_nat str_size <=? r)%Z then
    if ndebug then Ok (str, Some Truncated) else Abort
  else Ok (str, None).
