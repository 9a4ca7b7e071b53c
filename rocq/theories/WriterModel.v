(** Model of libutils/writer.c: writing to a growing string or to a file.  [wdata] is
    the allocation; size_t values are nat (no wrap-around: that would take 2^63 bytes).
    A file is the bytes that reached it; every write to it is taken to succeed.
    WriterWriteHelp and its helpers are in HelpModel. *)
From Verif Require Import Prelude Str Libc.
Set Implicit Arguments.

(** libutils/writer.c:36-41 StringWriterImpl *)
Record StringWriterImpl := mkSW { wdata : cells byte; wlen : nat; wallocated : nat }.
(** libutils/writer.c:43-51 Writer_ *)
Inductive Writer := WT_STRING (s : StringWriterImpl) | WT_FILE (f : list byte).

(** libutils/writer.c:56-63 FileWriter *)
Definition FileWriter : Writer := WT_FILE [].
(** libutils/writer.c:67-76 StringWriter *)
Definition StringWriter : Writer := WT_STRING (mkSW (block []) 0 1).

(** libutils/writer.c:80-85 StringWriterReallocate *)
Definition StringWriterReallocate (w : StringWriterImpl) (extra_length : nat) : StringWriterImpl :=
  let allocated := Nat.max (wallocated w * 2) (wlen w + extra_length + 1) in
  mkSW (arealloc (wdata w) allocated) (wlen w) allocated.

(** libutils/writer.c:87-100 StringWriterWriteChar *)
Definition StringWriterWriteChar (w : StringWriterImpl) (c : byte) : res (StringWriterImpl * nat) :=
  let w := if wallocated w <? wlen w + 2 then StringWriterReallocate w 2 else w in
  let* m := aset (wdata w) (wlen w) c in
  let* m := aset m (wlen w + 1) NUL in
  Ok (mkSW m (S (wlen w)) (wallocated w), 1).

(** libutils/writer.c:102-118 StringWriterWriteLen *)
Definition StringWriterWriteLen (w : StringWriterImpl) (str : cells byte) (len_ : nat) : res (StringWriterImpl * nat) :=
  let* len := mstrnlen str len_ in
  let w := if wallocated w <? wlen w + len + 1 then StringWriterReallocate w len else w in
  let* m := acopy (wdata w) (wlen w) str 0 len in
  let* m := aset m (wlen w + len) NUL in
  Ok (mkSW m (wlen w + len) (wallocated w), len).

(** libutils/writer.c:130-140 FileWriterWriteLen *)
Definition FileWriterWriteLen (f : list byte) (str : cells byte) (len_ : nat) : res (list byte * nat) :=
  let* len := mstrnlen str len_ in
  let* bs := (fix rd n i := match n with O => Ok [] | S n => let* c := aget str i in let* r := rd n (S i) in Ok (c :: r) end) len 0 in
  Ok (f ++ bs, len).

(** libutils/writer.c:178-189 WriterWriteLen *)
Definition WriterWriteLen (w : Writer) (str : cells byte) (len : nat) : res (Writer * nat) :=
  match w with
  | WT_STRING s => let* ' (s, n) := StringWriterWriteLen s str len in Ok (WT_STRING s, n)
  | WT_FILE f => let* ' (f, n) := FileWriterWriteLen f str len in Ok (WT_FILE f, n)
  end.
Definition NINT_MAX : nat := N.to_nat 2147483647.
(** libutils/writer.c:193-196 WriterWrite *)
Definition WriterWrite (w : Writer) (str : list byte) : res (Writer * nat) := WriterWriteLen w (block str) NINT_MAX.
(** libutils/writer.c:157-174 WriterWriteVF (WriterWriteF calls it); [text] is the text the
    format and its arguments denote *)
Definition WriterWriteF (w : Writer) (text : list byte) : res (Writer * nat) :=
  match w with
  | WT_STRING s => let* ' (s, n) := StringWriterWriteLen s (block text) NINT_MAX in Ok (WT_STRING s, n)
  | WT_FILE f => Ok (WT_FILE (f ++ text), length text)
  end.
(** libutils/writer.c:200-212 WriterWriteChar *)
Definition WriterWriteChar (w : Writer) (c : byte) : res (Writer * nat) :=
  match w with
  | WT_STRING s => let* ' (s, n) := StringWriterWriteChar s c in Ok (WT_STRING s, n)
  | WT_FILE f => let* ' (f, n) := FileWriterWriteLen f [Some c; Some NUL] 1 in Ok (WT_FILE f, n)
  end.
(** libutils/writer.c:216-225 StringWriterLength; ProgrammingError aborts *)
Definition StringWriterLength (w : Writer) : res nat := match w with WT_STRING s => Ok (wlen s) | WT_FILE _ => Abort end.
(** libutils/writer.c:229-238 StringWriterData *)
Definition StringWriterData (w : Writer) : res (cells byte) := match w with WT_STRING s => Ok (wdata s) | WT_FILE _ => Abort end.
(** libutils/writer.c:262-275 StringWriterClose *)
Definition StringWriterClose (w : Writer) : res (cells byte) := StringWriterData w.
(** libutils/writer.c:277-287 FileWriterDetach *)
Definition FileWriterDetach (w : Writer) : res (list byte) := match w with WT_FILE f => Ok f | WT_STRING _ => Abort end.
