(** Model of FileRead of libutils/file_lib.c, JsonParseAnyFile and JsonParseFile of libutils/json.c, JsonParseYamlFile of libutils/json-yaml.c,
    JsonReadDataFile of libutils/json-utils.c. *)
From Verif Require Import Prelude Str Libc CompatModel IoModel WriterModel JsonModel YamlModel EnvModel.
Set Implicit Arguments.

(** the codes JsonParseAnyFile adds to those of the parser (libutils/json.h:82-121 JsonParseError) *)
Inductive ferr := E_parser (e : perr) | E_NO_LIBYAML | E_LIBYAML_FAILURE | E_NO_SUCH_FILE | E_TRUNCATED.
Inductive fparsed := FOk (j : json) | FErr (e : ferr).

(** what a process holds: open descriptors and writers *)
Record held := mkHeld { fds : nat; writers : nat }.

(** what opening the path gives: to read(2), to stdio by lines, and to the reader of CSV; None if it cannot be opened *)
Record datafile := mkFile { as_fd : option infile; as_stream : option CompatModel.stream; as_csv : option (list byte) }.

Section Data.
  (** %.4f of strtod (see YamlModel); libyaml: what it reports for a text, None if it is not built in or cannot be initialised *)
  Variable fmt4 : list byte -> list byte.
  Variable libyaml : list byte -> option (list event).
  (** memory and the greatest size, for the lines of ENV files (see EnvModel) *)
  Variable mem : nat -> bool.
  Variable smax : N.
  (** whether the library is built with libyaml: what is reported if there is no parser *)
  Variable built : bool.
  Definition no_libyaml : ferr := if built then E_LIBYAML_FAILURE else E_NO_LIBYAML.

  (** libutils/file_lib.c:63-74 FileRead: the writer or NULL, *truncated *)
  Definition FileRead (f : option infile) (max_size : nat) (h : held) : res (option Writer * bool * held) :=
    match f with
    | None => Ok (None, false, h)
    | Some f =>
        let h := mkHeld (S (fds h)) (writers h) in
        let* ' (w, truncated) := FileReadFromFd f max_size in
        let h := mkHeld (pred (fds h)) (match w with Some _ => S (writers h) | None => writers h end) in
        Ok (w, truncated, h)
    end.
  (** libutils/json.c:2746-2780 JsonParseAnyFile; the cursor into the text is lost with it *)
  Definition JsonParseAnyFile (f : option infile) (size_max : nat) (yaml_format : bool) (h : held) : res (fparsed * held) :=
    let* ' (contents, truncated, h) := FileRead f size_max h in
    match contents with
    | None => Ok (FErr E_NO_SUCH_FILE, h)
    | Some w =>
        if truncated then Ok (FErr E_TRUNCATED, h)
        else
          let* m := StringWriterData w in
          let* data := mstr m in
          let* err :=
            if yaml_format then
              match libyaml data with
              | None => Ok (FErr no_libyaml)
              | Some evs => let* j := JsonParseYamlString fmt4 evs in Ok (FOk j)
              end
            else
              let* p := JsonParse data in
              Ok (match p with POk j _ => FOk j | PErr e => FErr (E_parser e) end) in
          Ok (err, mkHeld (fds h) (pred (writers h)))
    end.
  (** libutils/json.c:2782-2788 JsonParseFile *)
  Definition JsonParseFile (f : option infile) (size_max : nat) (h : held) : res (fparsed * held) := JsonParseAnyFile f size_max false h.
  (** libutils/json-yaml.c:32-35 JsonParseYamlFile *)
  Definition JsonParseYamlFile (f : option infile) (size_max : nat) (h : held) : res (fparsed * held) := JsonParseAnyFile f size_max true h.
  (** libutils/json-utils.c:323-381 JsonReadDataFile; None is NULL.  The ENV and CSV readers close what they open. *)
  Definition JsonReadDataFile (path : datafile) (requested_mode : DataFileType) (size_max : nat) (h : held) : res (option json * held) :=
    match requested_mode with
    | TEnv => let* j := JsonParseEnvFile mem smax (as_stream path) size_max in Ok (j, h)
    | TCsv => let* j := JsonParseCsvFile (as_csv path) size_max in Ok (j, h)
    | mode =>
        let* ' (r, h) := JsonParseAnyFile (as_fd path) size_max (match mode with TYaml => true | _ => false end) h in
        match r with
        | FErr _ => Ok (None, h)
        | FOk (JPrim _ _) => Ok (None, h)
        | FOk j => Ok (Some j, h)
        end
    end.
End Data.
