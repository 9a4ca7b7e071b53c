(** Model of libutils/string_sequence.c.  A Seq of strings is a list of strings (C01 and C02
    relate sequence.c to lists); opening files is left out, the functions on files get
    the open file. *)
From Verif Require Import Prelude Str Libc EditModel WriterModel IoModel.
Set Implicit Arguments.

Definition cSPACE : byte := " "%char.
Definition cNEWL : byte := ascii_of_N 10.

(** libutils/string_sequence.c:13-44 SeqStringAddSplit: [prev] is the piece between prev and cur *)
Fixpoint add_split (prev str : list byte) (delimiter : byte) : list (list byte) :=
  match str with
  | [] => match prev with [] => [] | _ => [prev] end
  | c :: rest => if beq c delimiter then prev :: add_split [] rest delimiter else add_split (prev ++ [c]) rest delimiter
  end.
(** string_sequence.c:46-53 SeqStringFromString; a NULL string gives an empty sequence *)
Definition SeqStringFromString (str : option (list byte)) (delimiter : byte) : list (list byte) :=
  match str with Some s => add_split [] s delimiter | None => [] end.
(** string_sequence.c:55-69 SeqStringContains *)
Definition SeqStringContains (seq : list (list byte)) (str : list byte) : bool := existsb (fun s => bytes_eqb str s) seq.
(** string_sequence.c:71-83 SeqStringLength: the int total overflows *)
Fixpoint seq_string_length (seq : list (list byte)) (total : Z) : res Z :=
  match seq with
  | [] => Ok total
  | s :: seq => let t := (total + Z.of_nat (length s))%Z in if (t <=? INT_MAX)%Z then seq_string_length seq t else UB
  end.
Definition SeqStringLength (seq : list (list byte)) : res Z := seq_string_length seq 0.

Definition STR_LENGTH_PREFIX_LEN : nat := 10.
(** string_sequence.c:86-96 HasNulByte *)
Fixpoint HasNulByte (m : cells byte) (i n : nat) : res bool :=
  match n with
  | O => Ok false
  | S n => let* c := aget m i in if beq c NUL then Ok true else HasNulByte m (S i) n
  end.
(** string_sequence.c:98-126 GetLengthPrefix: the prefix at [m]+[off]; sscanf's %ld takes the
    leading digits, of which there are at most nine *)
Definition GetLengthPrefix (m : cells byte) (off : nat) : res Z :=
  let* h := HasNulByte m off 10 in
  if h : bool then Ok (-1)%Z
  else let* c0 := aget m off in
       if negb (isdigit c0) then Ok (-1)%Z
       else let* c9 := aget m (off + (STR_LENGTH_PREFIX_LEN - 1)) in
            if negb (beq c9 cSPACE) then Ok (-1)%Z
            else let* p := aread m off 10 in Ok (Z.of_N (undec (fst (span isdigit p)))).

(** string_sequence.c:128-142 ValidDuplicate: [src] is the string at [m]+[off] *)
Definition ValidDuplicate (m : cells byte) (off n : nat) : res (option (cells byte)) :=
  let* src := mstr (skipn off m) in
  let* ' (dst, len) := StringCopy src (repeat (Some NUL) (n + 1)) (n + 1) in
  Ok (if len <? n then None else Some dst).

(** printf's %-10zu *)
Definition ljust10 (s : list byte) : list byte := s ++ repeat cSPACE (10 - length s).
(** string_sequence.c:144-156 WriteLenPrefixedString *)
Definition WriteLenPrefixedString (w : Writer) (string : list byte) : res (Writer * bool) :=
  let* ' (w, n) := WriterWriteF w (ljust10 (udec (N.of_nat (length string))) ++ string ++ [cNEWL]) in
  Ok (w, negb (n =? 0)).
(** string_sequence.c:158-171 SeqStringWrite *)
Fixpoint SeqStringWrite (seq : list (list byte)) (w : Writer) : res (Writer * bool) :=
  match seq with
  | [] => Ok (w, true)
  | s :: seq => let* ' (w, ok) := WriteLenPrefixedString w s in if ok : bool then SeqStringWrite seq w else Ok (w, false)
  end.
(** string_sequence.c:173-178 SeqStringSerialize *)
Definition SeqStringSerialize (seq : list (list byte)) : res (cells byte) :=
  let* ' (w, _) := SeqStringWrite seq StringWriter in StringWriterClose w.
(** string_sequence.c:180-188 SeqStringWriteFileStream: what reaches the file *)
Definition SeqStringWriteFileStream (seq : list (list byte)) : res (list byte * bool) :=
  let* ' (w, ok) := SeqStringWrite seq FileWriter in let* f := FileWriterDetach w in Ok (f, ok).

(** string_sequence.c:203-239 SeqStringDeserialize: NULL is [None] *)
Fixpoint deserialize (fuel : nat) (m : cells byte) (src : nat) (acc : list (cells byte)) : res (option (list (cells byte))) :=
  match fuel with
  | O => Fuel
  | S fuel =>
      let* c := aget m src in
      if beq c NUL then Ok (Some acc)
      else
        let* length_ := GetLengthPrefix m src in
        let src := src + STR_LENGTH_PREFIX_LEN in
        if (length_ <? 0)%Z then Ok None
        else let* before := aget m (src - 1) in
             if negb (beq before cSPACE) then Ok None
             else let n := Z.to_nat length_ in
                  let* new_str := ValidDuplicate m src n in
                  match new_str with
                  | None => Ok None
                  | Some new_str =>
                      let* after := aget m (src + n) in
                      if negb (beq after cNEWL) then Ok None
                      else deserialize fuel m (src + n + 1) (acc ++ [new_str])
                  end
  end.
Definition SeqStringDeserialize (serialized : cells byte) : res (option (list (cells byte))) :=
  deserialize (S (length serialized)) serialized 0 [].

(** string_sequence.c:241-272 ReadLenPrefixedString: 1 with the string, 0 or -1 *)
Definition ReadLenPrefixedString (fd : infile) : res (infile * Z * option (cells byte)) :=
  let* ' (fd, prefix, bytes_read) := FullRead fd (repeat None STR_LENGTH_PREFIX_LEN) 0 STR_LENGTH_PREFIX_LEN in
  if (bytes_read =? 0)%Z then Ok (fd, 0%Z, None)
  else if (bytes_read <? 0)%Z then Ok (fd, (-1)%Z, None)
  else
    let* c := aget prefix (STR_LENGTH_PREFIX_LEN - 1) in
    massert (beq c cSPACE) (
    let* length_ := GetLengthPrefix prefix 0 in
    let size := (length_ + 1)%Z in
    let data := repeat None (Z.to_nat size) in
    let* ' (fd, data, bytes_read) := FullRead fd data 0 (Z.to_nat size) in
    if negb (bytes_read =? size)%Z then Ok (fd, (-1)%Z, None)
    else if (length_ <? 0)%Z then UB                              (* data[-1] *)
    else let* c := aget data (Z.to_nat length_) in
         if negb (beq c cNEWL) then Ok (fd, (-1)%Z, None)
         else let* data := aset data (Z.to_nat length_) NUL in Ok (fd, 1%Z, Some data)).
(** string_sequence.c:274-304 SeqStringReadFile *)
Fixpoint read_file (fuel : nat) (fd : infile) (acc : list (cells byte)) : res (option (list (cells byte))) :=
  match fuel with
  | O => Fuel
  | S fuel =>
      let* ' (fd, ret, data) := ReadLenPrefixedString fd in
      if (ret <? 0)%Z then Ok None
      else if (ret =? 0)%Z then Ok (Some acc)
      else match data with Some d => read_file fuel fd (acc ++ [d]) | None => UB end
  end.
Definition SeqStringReadFile (fd : infile) : res (option (list (cells byte))) := read_file (S (length (left_ fd))) fd [].
