(** Model of libutils/json-utils.c (data files), CfReadLine/CfReadLines of file_lib.c and
    proc_keyvalue.c.  Streams and getline are those of CompatModel.v. *)
From Verif Require Import Prelude Str Libc CmpModel EditModel JsonModel CsvModel CompatModel.
Set Implicit Arguments.

(** json-utils.c:52-94 filtered_copy: [src] and [dst] are offsets into the same buffer; the
    result tells whether the pointer returned is non-NULL (it is the initial [dst]) *)
Fixpoint filtered_loop (fuel : nat) (m : cells byte) (oq : byte) (src dst : nat) : res (cells byte * bool) :=
  match fuel with
  | O => Fuel
  | S f =>
      let* c := aget m src in
      if negb (beq c NUL) && negb (beq c oq) then
        if beq oq NUL && (beq c """" || beq c "'") then Ok (m, false)
        else if beq c "\" then
          let src := S src in
          let* c := aget m src in
          if beq c "n" then
            let* m := aset m dst (ascii_of_nat 10) in
            filtered_loop f m oq (S src) (S dst)
          else
            let* m := aset m dst c in
            filtered_loop f m oq (S src) (S dst)
        else
          let* m := aset m dst c in
          filtered_loop f m oq (S src) (S dst)
      else
        let* m := aset m dst NUL in Ok (m, true)
  end.
Definition filtered_copy (m : cells byte) (src dst : nat) : res (cells byte * bool) :=
  let* c := aget m src in
  let quote := beq c """" || beq c "'" in
  filtered_loop (S (length m)) m (if quote then c else NUL) (if quote then S src else src) dst.

(** [f] applied to the buffer behind offset [o] (a pointer into the middle) *)
Definition at_offset (m : cells byte) (o : nat) (f : cells byte -> res (cells byte * nat)) : res (cells byte * nat) :=
  let* ' (t, k) := f (skipn o m) in Ok (firstn o m ++ t, o + k).

(** libutils/json-utils.c:109-168 ParseEnvLine: the buffer after the call, and [*key_out], [*value_out]
    as offsets into it (always both or none).  Logging is left out. *)
Definition ParseEnvLine (raw_line : cells byte) : res (cells byte * option (nat * nat)) :=
  let* ' (m, line) := TrimWhitespace raw_line in
  let* text := mstr (skipn line m) in
  let line_length := length text in
  if line_length =? 0 then Ok (m, None)
  else
    let* first := aget m line in
    if beq first "#" || (line_length =? 0) then Ok (m, None)
    else
      match strchr text "=" with
      | None => Ok (m, None)
      | Some equal_index =>
          if equal_index =? 0 then Ok (m, None)
          else
            let next_equal := line + equal_index in
            let* m := aset m next_equal NUL in
            let* ' (m, key) := at_offset m line TrimWhitespace in
            let* ' (m, value) := at_offset m (next_equal + 1) TrimWhitespace in
            let* ' (m, ok) := filtered_copy m value value in
            if ok : bool then Ok (m, Some (key, value)) else Ok (m, None)
      end.

Section Files.
  (** the allocator and SSIZE_MAX, see CompatModel.v *)
  Variable mem : nat -> bool.
  Variable smax : N.

  (** file_lib.c:1476-1491 CfReadLine *)
  Definition CfReadLine (buff : option (cells byte)) (size : nat) (fp : stream)
    : res (option (cells byte) * nat * stream * Z) :=
    let* ' (buff, size, fp, b) := getline mem smax buff size fp in
    massert (negb (b =? 0)%Z)
    (if (0 <? b)%Z then
       match buff with
       | None => UB
       | Some m =>
           let i := Z.to_nat (b - 1) in
           let* c := aget m i in
           if beq c (ascii_of_nat 10) then
             let* m := aset m i NUL in Ok (Some m, size, fp, (b - 1)%Z)
           else Ok (buff, size, fp, b)
       end
     else Ok (buff, size, fp, b)).

  (** file_lib.c:1493-1531 CfReadLines: the lines appended and the return value *)
  Fixpoint readlines_loop (fuel : nat) (buff : option (cells byte)) (size : nat) (fp : stream) (lines : list (list byte)) (appended : nat)
    : res (list (list byte) * Z) :=
    match fuel with
    | O => Fuel
    | S f =>
        if eof fp then Ok (lines, Z.of_nat appended)
        else
          let* ' (buff, size, fp, ret) := CfReadLine buff size fp in
          if (ret =? -1)%Z then
            if eof fp then readlines_loop f buff size fp lines appended
            else Ok (lines, (-1)%Z)
          else
            match buff with
            | None => UB
            | Some m => let* s := mstr m in readlines_loop f buff size fp (lines ++ [s]) (S appended)
            end
    end.
  Definition CfReadLines (buff : option (cells byte)) (size : nat) (fp : stream) (lines : list (list byte))
    : res (list (list byte) * Z) :=
    readlines_loop (S (S (length (rest fp)))) buff size fp lines 0.

  (** json-utils.c:180-235 JsonParseEnvFile: the reading loop; result: object, byte count, stream *)
  Fixpoint env_loop (fuel : nat) (raw_line : option (cells byte)) (line_size : nat) (fin : stream)
    (size_max byte_count : nat) (json : list (list byte * json)) : res (list (list byte * JsonModel.json) * nat * stream) :=
    match fuel with
    | O => Fuel
    | S f =>
        let* ' (raw_line, line_size, fin, ret) := CfReadLine raw_line line_size fin in
        if (ret =? -1)%Z then Ok (json, byte_count, fin)
        else
          match raw_line with
          | None => UB
          | Some m =>
              let* s := mstr m in
              let byte_count := byte_count + length s in
              if size_max <? byte_count then Ok (json, byte_count, fin)
              else
                let* ' (m, kv) := ParseEnvLine m in
                let* json :=
                  match kv with
                  | None => Ok json
                  | Some (key, value) =>
                      let* k := mstr (skipn key m) in
                      let* v := mstr (skipn value m) in
                      Ok (JsonObjectAppendElement json k (JsonStringCreate v))
                  end in
                env_loop f (Some m) line_size fin size_max byte_count json
          end
    end.
  (** json-utils.c:180-235 JsonParseEnvFile: [fin] is None when the file cannot be opened; the
      result is None when false is returned *)
  Definition JsonParseEnvFile (fin : option stream) (size_max : nat) : res (option json) :=
    match fin with
    | None => Ok None
    | Some fin =>
        let* ' (json, byte_count, fin) :=
          env_loop (S (length (rest fin))) (Some (repeat None (Pos.to_nat 4096))) (Pos.to_nat 4096) fin size_max 0 [] in
        if negb (eof fin) && (byte_count <=? size_max) then Ok None else Ok (Some (JObj json))
    end.
End Files.

(** json-utils.c:237-321 JsonParseCsvFile: the reading loop on the bytes of the file (no read
    errors); result: the array, and whether the loop ended at the end of the file *)
Fixpoint csv_file_loop (fuel : nat) (fin : list byte) (size_max byte_count : nat) (json : list json)
  : res (list JsonModel.json * nat * bool) :=
  match fuel with
  | O => Fuel
  | S f =>
      let ' (line, fin) := GetCsvLineNext fin in
      match line with
      | None => Ok (json, byte_count, true)
      | Some line =>
          let byte_count := byte_count + length line in
          if size_max <? byte_count then Ok (json, byte_count, false)
          else
            let* l := SeqParseCsvString line in
            csv_file_loop f fin size_max byte_count
              (match l with
               | None => json
               | Some l => JsonArrayAppendElement json (JArr (map JsonStringCreate l))
               end)
      end
  end.
Definition JsonParseCsvFile (fin : option (list byte)) (size_max : nat) : res (option json) :=
  match fin with
  | None => Ok None
  | Some fin =>
      let* ' (json, byte_count, reached_eof) := csv_file_loop (S (length fin)) fin size_max 0 [] in
      if negb reached_eof && (byte_count <=? size_max) then Ok None else Ok (Some (JArr json))
  end.

(** libutils/json-utils.h:30-36 DataFileType *)
Inductive DataFileType := TUnknown | TJson | TYaml | TEnv | TCsv.

Section Types.
  Variable strcasecmp : list byte -> list byte -> Z.
  Local Notation eqi a b := (StringEqual_IgnoreCase strcasecmp (Some (0%N, a)) (Some (1%N, b))).
  (** json-utils.c:383-404 GetDataFileTypeFromString with a non-NULL argument *)
  Definition GetDataFileTypeFromString (requested_mode : list byte) : res DataFileType :=
    let* b := eqi requested_mode (lit "yaml") in
    if b : bool then Ok TYaml else
    let* b := eqi requested_mode (lit "csv") in
    if b : bool then Ok TCsv else
    let* b := eqi requested_mode (lit "env") in
    if b : bool then Ok TEnv else
    let* b := eqi requested_mode (lit "json") in
    if b : bool then Ok TJson else Ok TUnknown.
End Types.
(** json-utils.c:406-425 GetDataFileTypeFromSuffix *)
Definition GetDataFileTypeFromSuffix (filename : list byte) : res DataFileType :=
  let* b := StringEndsWithCase filename (lit ".csv") true in
  if b : bool then Ok TCsv else
  let* b := StringEndsWithCase filename (lit ".yaml") true in
  let* b := if b : bool then Ok true else StringEndsWithCase filename (lit ".yml") true in
  if b : bool then Ok TYaml else
  let* b := StringEndsWithCase filename (lit ".env") true in
  if b : bool then Ok TEnv else Ok TJson.

(** fgets(buf, n, fd) on a stream: what is stored in front of the terminator (None: NULL is
    returned, nothing is stored), and the stream *)
Fixpoint fgets_loop (n : nat) (s : stream) : list byte * stream * bool :=
  match n with
  | O => ([], s, false)
  | S k =>
      let ' (c, s) := getc s in
      match c with
      | None => ([], s, true)
      | Some c => if beq c (ascii_of_nat 10) then ([c], s, false)
                  else let ' (t, s, e) := fgets_loop k s in (c :: t, s, e)
      end
  end.
Definition fgets (n : nat) (s : stream) : option (list byte) * stream :=
  let ' (t, s', e) := fgets_loop (n - 1) s in
  (* at the end of the file with nothing read, and after a read error, NULL is returned *)
  if e && (match t with [] => true | _ => false end || bad s) then (None, s') else (Some t, s').

Section KeyValue.
  Variable St : Type.
  (** the callback with its state, and whether it returned true *)
  Variable callback : St -> list byte -> list byte -> St * bool.

  (** proc_keyvalue.c:60-83 ParseKeyValue; the callback sees C strings *)
  Fixpoint keyvalue_loop (fuel : nat) (fd : stream) (st : St) : res (St * bool) :=
    match fuel with
    | O => Fuel
    | S f =>
        let ' (buf, fd) := fgets 1024 fd in
        match buf with
        | None => Ok (st, negb (err fd))
        | Some buf =>
            let text := upto_nul buf in
            match strchr text ":" with
            | None => Ok (st, false)
            | Some s =>
                let ' (st, b) := callback st (firstn s text) (skipn (S s) text) in
                if b then keyvalue_loop f fd st else Ok (st, false)
            end
        end
    end.
  Definition ParseKeyValue (fd : stream) (st : St) : res (St * bool) := keyvalue_loop (S (length (rest fd))) fd st.
End KeyValue.

Section KeyNumeric.
  Variable St : Type.
  (** sscanf(value, "%lli", &n): the number, or None when the result is not 1 *)
  Variable scan : list byte -> option Z.
  Variable callback : St -> list byte -> Z -> St * bool.
  (** proc_keyvalue.c:33-51 KeyNumericParserCallback *)
  Definition KeyNumericParserCallback (st : St) (field value : list byte) : St * bool :=
    match scan value with
    | None => (st, false)
    | Some n => callback st field n
    end.
  (** proc_keyvalue.c:53-58 ParseKeyNumericValue *)
  Definition ParseKeyNumericValue (fd : stream) (st : St) : res (St * bool) :=
    ParseKeyValue KeyNumericParserCallback fd st.
End KeyNumeric.
