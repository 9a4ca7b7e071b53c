(** Model of libutils/csv_writer.c and libutils/csv_parser.c.  The Writer below a
    CsvWriter is the text it has received (see WriterModel.v and C23 for why a writer is
    that text); a FILE being read is the list of the bytes still to come. *)
From Verif Require Import Prelude Str Libc.
Set Implicit Arguments.

Definition CR : byte := ascii_of_nat 13.
Definition LF : byte := ascii_of_nat 10.
Definition TAB : byte := ascii_of_nat 9.
Definition QUOTE : byte := ascii_of_nat 34.
Definition COMMA : byte := ","%char.
Definition SPACE : byte := " "%char.
Definition CRLF : list byte := [CR; LF].

(* ------------------------------------------------------------------ csv_writer.c *)
(** libutils/csv_writer.c:29-34 CsvWriter_ *)
Record CsvWriter := mkCsvW { cw : list byte; beginning_of_line : bool; terminate_last_line : bool }.

(** libutils/csv_writer.c:43-51 CsvWriterOpenSpecifyTerminate *)
Definition CsvWriterOpenSpecifyTerminate (w : list byte) (terminate : bool) : CsvWriter := mkCsvW w true terminate.
(** libutils/csv_writer.c:53-56 CsvWriterOpen *)
Definition CsvWriterOpen (w : list byte) : CsvWriter := CsvWriterOpenSpecifyTerminate w true.

(** libutils/csv_writer.c:135-148 WriteCsvEscapedString *)
Fixpoint escape_loop (w s : list byte) : list byte :=
  match s with
  | [] => w
  | c :: s => let w := if beq c QUOTE then w ++ [QUOTE] else w in escape_loop (w ++ [c]) s
  end.
Definition WriteCsvEscapedString (w s : list byte) : list byte := escape_loop (w ++ [QUOTE]) s ++ [QUOTE].

(** libutils/csv_writer.c:60-81 CsvWriterField (CsvWriterFieldF formats and calls it);
    strpbrk tells whether one of the given characters occurs *)
Definition strpbrk (s accept : list byte) : bool := existsb (fun c => existsb (beq c) accept) s.
Definition CsvWriterField (c : CsvWriter) (str : list byte) : CsvWriter :=
  let w := if beginning_of_line c then cw c else cw c ++ [COMMA] in
  let w := if strpbrk str [QUOTE; COMMA; CR; LF] then WriteCsvEscapedString w str else w ++ str in
  mkCsvW w false (terminate_last_line c).
(** libutils/csv_writer.c:96-102 CsvWriterNewRecord *)
Definition CsvWriterNewRecord (c : CsvWriter) : CsvWriter := mkCsvW (cw c ++ CRLF) true (terminate_last_line c).
(** libutils/csv_writer.c:106-115 CsvWriterClose: the text left in the writer *)
Definition CsvWriterClose (c : CsvWriter) : list byte :=
  if negb (beginning_of_line c) && terminate_last_line c then cw c ++ CRLF else cw c.

(* ------------------------------------------------------------------ csv_parser.c *)
(** libutils/csv_parser.c:30-42 csv_state *)
Inductive csv_state := NEW_LINE | PRE_START_SPACE | NO_QUOTE_MODE | SEPARATOR | LEADING_QUOTE | INTERNAL_QUOTE
                     | WITH_QUOTE_MODE | SPACE_AFTER_QUOTE | ERROR.

(** libutils/csv_parser.c:44-47 the character classes *)
Definition CSVCL_BLANK (c : byte) : bool := beq c SPACE || beq c TAB || beq c LF || beq c CR.
Definition CSVCL_QUOTE (c : byte) : bool := beq c QUOTE.
Definition CSVCL_SEP (c : byte) : bool := beq c COMMA.
(** libutils/csv_parser.c:49-56: ANY1, 2, 4, 6 are the same, so are ANY5 and ANY7 *)
Definition CSVCL_ANY1 (c : byte) : bool := negb (CSVCL_BLANK c) && negb (CSVCL_QUOTE c) && negb (CSVCL_SEP c).
Definition CSVCL_ANY3 (c : byte) : bool := negb (CSVCL_QUOTE c) && negb (CSVCL_SEP c).
Definition CSVCL_ANY5 (c : byte) : bool := negb (CSVCL_QUOTE c).
Definition CSVCL_ANY8 (c : byte) : bool := negb (CSVCL_BLANK c) && negb (CSVCL_SEP c).

(** the variables of LaunchCsvAutomata: the state, the buffer, the write position in it
    (None: NULL) and the list of fields *)
Record vars := mkV { st : csv_state; snatched : cells byte; sn : option nat; newlist : list (list byte) }.

(** [*sn = c] and [*sn = c; sn++] *)
Definition put_sn (v : vars) (c : byte) : res vars :=
  match sn v with None => UB | Some i => let* m := aset (snatched v) i c in Ok (mkV (st v) m (sn v) (newlist v)) end.
Definition push_sn (v : vars) (c : byte) : res vars :=
  match sn v with None => UB | Some i => let* m := aset (snatched v) i c in Ok (mkV (st v) m (Some (S i)) (newlist v)) end.
(** [snatched[0] = '\0'] *)
Definition reset (v : vars) : res vars := let* m := aset (snatched v) 0 NUL in Ok (mkV (st v) m (sn v) (newlist v)).
Definition set_sn (v : vars) (p : option nat) : vars := mkV (st v) (snatched v) p (newlist v).
Definition goto (v : vars) (s : csv_state) : res vars := Ok (mkV s (snatched v) (sn v) (newlist v)).
(** [SeqAppend( *newlist, xstrdup(t))] *)
Definition append (v : vars) (t : list byte) : vars := mkV (st v) (snatched v) (sn v) (newlist v ++ [t]).
Definition append_snatched (v : vars) : res vars := let* t := mstr (snatched v) in Ok (append v t).

(** libutils/csv_parser.c:75-312 LaunchCsvAutomata, the body of the loop; None is the jump
    to the label clean (the list is destroyed, an error returned) *)
Definition csv_step (v : vars) (c : byte) : res (option vars) :=
  match st v with
  | ERROR => Ok None
  | NEW_LINE =>
      let* v := (if CSVCL_SEP c then let* v := put_sn v NUL in goto (append (set_sn v None) []) SEPARATOR
                 else if CSVCL_BLANK c then let* v := push_sn v c in goto v PRE_START_SPACE
                 else if CSVCL_QUOTE c then let* v := reset v in goto (set_sn v None) LEADING_QUOTE
                 else if CSVCL_ANY1 c then let* v := push_sn v c in goto v NO_QUOTE_MODE
                 else Ok v) in Ok (Some v)
  | PRE_START_SPACE =>
      let* v := (if CSVCL_SEP c then
                   let* v := put_sn v NUL in let* v := append_snatched (set_sn v None) in let* v := reset v in goto v SEPARATOR
                 else if CSVCL_BLANK c then let* v := push_sn v c in goto v PRE_START_SPACE
                 else if CSVCL_QUOTE c then let* v := reset v in goto (set_sn v None) LEADING_QUOTE
                 else if CSVCL_ANY1 c then let* v := push_sn v c in goto v NO_QUOTE_MODE
                 else Ok v) in Ok (Some v)
  | NO_QUOTE_MODE =>
      let* v := (if CSVCL_SEP c then
                   let* v := put_sn v NUL in let* v := append_snatched (set_sn v None) in let* v := reset v in goto v SEPARATOR
                 else if CSVCL_QUOTE c then let* v := reset v in goto (set_sn v None) ERROR
                 else if CSVCL_ANY3 c then let* v := push_sn v c in goto v NO_QUOTE_MODE
                 else Ok v) in Ok (Some v)
  | SEPARATOR =>
      let* v := (if CSVCL_SEP c then
                   let* v := reset v in let* v := append_snatched (set_sn v None) in goto v SEPARATOR
                 else if CSVCL_BLANK c then let* v := push_sn (set_sn v (Some 0)) c in goto v PRE_START_SPACE
                 else if CSVCL_QUOTE c then let* v := reset v in goto (set_sn v None) LEADING_QUOTE
                 else if CSVCL_ANY1 c then let* v := push_sn (set_sn v (Some 0)) c in goto v NO_QUOTE_MODE
                 else Ok v) in Ok (Some v)
  | LEADING_QUOTE =>
      let* v := (if CSVCL_QUOTE c then goto (set_sn v (Some 0)) INTERNAL_QUOTE
                 else if CSVCL_ANY5 c then let* v := push_sn (set_sn v (Some 0)) c in goto v WITH_QUOTE_MODE
                 else Ok v) in Ok (Some v)
  | INTERNAL_QUOTE =>
      let* v := (if CSVCL_SEP c then
                   let* v := put_sn v NUL in let* v := append_snatched (set_sn v None) in goto v SEPARATOR
                 else if CSVCL_BLANK c then goto v SPACE_AFTER_QUOTE
                 else if CSVCL_QUOTE c then let* v := push_sn v c in goto v WITH_QUOTE_MODE
                 else if CSVCL_ANY1 c then
                   let* v := reset v in
                   match sn v with None => UB | Some i => goto (set_sn v (Some (S i))) ERROR end
                 else Ok v) in Ok (Some v)
  | WITH_QUOTE_MODE =>
      let* v := (if CSVCL_QUOTE c then goto v INTERNAL_QUOTE
                 else if CSVCL_ANY5 c then let* v := push_sn v c in goto v WITH_QUOTE_MODE
                 else Ok v) in Ok (Some v)
  | SPACE_AFTER_QUOTE =>
      let* v := (if CSVCL_SEP c then
                   let* v := append_snatched (set_sn v None) in goto v SEPARATOR
                 else if CSVCL_BLANK c then
                   let* v := (match sn v with Some _ => put_sn v NUL | None => Ok v end) in
                   goto (set_sn v None) SPACE_AFTER_QUOTE
                 else if CSVCL_ANY8 c then let* v := reset v in goto (set_sn v None) ERROR
                 else Ok v) in Ok (Some v)
  end.
Fixpoint csv_loop (v : vars) (s : list byte) : res (option vars) :=
  match s with
  | [] => Ok (Some v)
  | c :: s => let* o := csv_step v c in match o with None => Ok None | Some v => csv_loop v s end
  end.

(** conversion of a size_t to int (two's complement, as the ABI has it) *)
Definition int_of_size (n : nat) : Z := ((Z.of_nat n + 2147483648) mod 4294967296 - 2147483648)%Z.

(** libutils/csv_parser.c:75-312 LaunchCsvAutomata, after the loop: the trailing NUL, the
    trimming of a trailing CRLF, the last field *)
Definition csv_finish (v : vars) : res (option (list (list byte))) :=
  match st v with
  | LEADING_QUOTE | WITH_QUOTE_MODE => Ok None
  | s =>
      let* v := (match sn v with Some _ => put_sn v NUL | None => Ok v end) in
      let* m := (match s with
                 | NO_QUOTE_MODE | PRE_START_SPACE =>
                     let* t := mstr (snatched v) in
                     let len := int_of_size (length t) in
                     if (1 <? len)%Z then
                       let* a := aget (snatched v) (Z.to_nat (len - 2)) in
                       if beq a CR then
                         let* b := aget (snatched v) (Z.to_nat (len - 1)) in
                         if beq b LF then aset (snatched v) (Z.to_nat (len - 2)) NUL else Ok (snatched v)
                       else Ok (snatched v)
                     else Ok (snatched v)
                 | _ => Ok (snatched v)
                 end) in
      let* t := mstr m in
      Ok (Some (newlist v ++ [t]))
  end.

(** libutils/csv_parser.c:75-312 LaunchCsvAutomata; libutils/csv_parser.c:314-324 SeqParseCsvString *)
Definition SeqParseCsvString (str : list byte) : res (option (list (list byte))) :=
  let* m := aset (repeat None (S (length str))) 0 NUL in
  let* o := csv_loop (mkV NEW_LINE m (Some 0) []) str in
  match o with None => Ok None | Some v => csv_finish v end.

(** libutils/csv_parser.c:326-367 GetCsvLineNext: the line (None: NULL) and the rest of the
    file.  What a caller sees of the returned buffer is the C string in it. *)
Fixpoint line_loop (buffer : list byte) (prev : byte) (in_quotes : bool) (fp : list byte) : list byte * list byte :=
  match fp with
  | [] => (buffer, [])
  | c :: fp =>
      let buffer := buffer ++ [c] in
      if beq c QUOTE then line_loop buffer c (negb in_quotes) fp
      else if negb in_quotes && beq c LF && beq prev CR then (buffer, fp)
      else line_loop buffer c in_quotes fp
  end.
Definition GetCsvLineNext (fp : list byte) : option (list byte) * list byte :=
  let ' (buffer, fp) := line_loop [] NUL false fp in
  if length buffer =? 0 then (None, fp) else (Some (upto_nul buffer), fp).
