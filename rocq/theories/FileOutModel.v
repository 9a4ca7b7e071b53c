(** Model of the file side of libutils/writer.c on a stream whose writes can fail, and of
    SeqStringWriteFile (libutils/string_sequence.c).  (In WriterModel every write to a file
    succeeds.)  A stream is what it took so far and what the C library will do with the
    coming calls: take everything ([None], also when no answer is left) or fail after a
    number of bytes.  After a failed call the stream goes on: the C standard only sets its
    error indicator, which libntech never looks at. *)
From Verif Require Import Prelude Str Libc WriterModel StrSeqModel.
Set Implicit Arguments.

Record ofile := mkOut { written : list byte; answers : list (option nat) }.

(** fwrite(bs, 1, len, f) of the C library: the number of bytes taken *)
Definition fwrite (f : ofile) (bs : list byte) : ofile * nat :=
  match answers f with
  | Some k :: l => (mkOut (written f ++ firstn k bs) l, Nat.min k (length bs))
  | l => (mkOut (written f ++ bs) (tl l), length bs)
  end.

(** vfprintf of the C library, [text] being the text of the format: the length, or -1 if
    the stream fails, or if the length is not an int (taken to write nothing then) *)
Definition vfprintf (f : ofile) (text : list byte) : ofile * Z :=
  match answers f with
  | Some k :: l => (mkOut (written f ++ firstn k text) l, -1)%Z
  | l => if (Z.of_nat (length text) <=? INT_MAX)%Z
         then (mkOut (written f ++ text) (tl l), Z.of_nat (length text))
         else (mkOut (written f) (tl l), -1)%Z
  end.

(** libutils/writer.c:122-126 FileWriterWriteF: the int becomes a size_t *)
Definition FileWriterWriteF (f : ofile) (text : list byte) : ofile * N :=
  let (f, n) := vfprintf f text in (f, Z.to_N (n mod 2 ^ 64)).

(** libutils/writer.c:130-140 FileWriterWriteLen: the bytes up to a terminator or the limit
    are handed to fwrite *)
Definition FileOutWriteLen (f : ofile) (str : cells byte) (len_ : nat) : res (ofile * nat) :=
  let* ' (bs, _) := FileWriterWriteLen [] str len_ in
  Ok (fwrite f bs).

(** libutils/writer.c:193-196 WriterWrite *)
Definition FileOutWrite (f : ofile) (str : list byte) : res (ofile * nat) := FileOutWriteLen f (block str) NINT_MAX.

(** libutils/writer.c:200-212 WriterWriteChar *)
Definition FileOutWriteChar (f : ofile) (c : byte) : res (ofile * nat) := FileOutWriteLen f [Some c; Some NUL] 1.

(** libutils/string_sequence.c:144-156 WriteLenPrefixedString *)
Definition FileOutLenPrefixed (f : ofile) (string : list byte) : ofile * bool :=
  let (f, bytes_written) := FileWriterWriteF f (ljust10 (udec (N.of_nat (length string))) ++ string ++ [cNEWL]) in
  (f, if (bytes_written =? 0)%N then false else true).

(** libutils/string_sequence.c:158-171 SeqStringWrite *)
Fixpoint FileOutSeq (seq : list (list byte)) (f : ofile) : ofile * bool :=
  match seq with
  | [] => (f, true)
  | s :: seq => let (f, success) := FileOutLenPrefixed f s in if success then FileOutSeq seq f else (f, false)
  end.

(** libutils/string_sequence.c:180-188 SeqStringWriteFileStream *)
Definition SeqStringWriteFileStream_out (seq : list (list byte)) (f : ofile) : ofile * bool := FileOutSeq seq f.

(** libutils/string_sequence.c:190-201 SeqStringWriteFile: [opens] and [closes] are the
    outcomes of safe_fopen (which truncates the file) and fclose; the result is the new
    content of the file, if it was opened *)
Definition SeqStringWriteFile (seq : list (list byte)) (opens closes : bool) (ans : list (option nat)) : option (list byte) * bool :=
  if opens then
    let (f, write_success) := SeqStringWriteFileStream_out seq (mkOut [] ans) in
    (Some (written f), write_success && closes)
  else (None, false).
