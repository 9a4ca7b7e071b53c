(** Model of the functions that take a printf format and build on vsnprintf and vasprintf: BufferPrintf,
    BufferVPrintf, BufferAppendF, StringFormat, StringVFormat, StringFromDouble, WriterWriteF, WriterWriteVF,
    CsvWriterFieldF, and rpl_vfprintf.  vsnprintf and vasprintf are those of libcompat/snprintf.c (PrintfModel.v);
    what %n stores is left out. *)
From Verif Require Import Prelude Str Libc PrintfModel BufModel WriterModel CsvModel.
Set Implicit Arguments.

(** vsnprintf(m + off, size, format, ap) *)
Definition vsnprintf (m : cells byte) (off size : nat) (format : list byte) (ap : list arg) : res (cells byte * Z) :=
  if length m <? off then UB
  else let* ' (s, r, _) := rpl_vsnprintf (Some (skipn off m)) size format ap in Ok (firstn off m ++ s, r).
(** an int in a variable of type size_t *)
Definition to_size_t (z : Z) : Z := (z mod 2 ^ 64)%Z.

(** libutils/buffer.c:404-438 BufferVPrintf (BufferPrintf, libutils/buffer.c:356-401 BufferPrintf, has the same body) *)
Definition BufferVPrintf (b : Buffer) (format : list byte) (ap : list arg) : res (Buffer * Z) :=
  let* ' (m, printed) := vsnprintf (bmem b) 0 (bcap b) format ap in
  let b := mkB m (bmd b) (bcap b) (bused b) in
  if (printed <? 0)%Z then Ok (b, printed)
  else if (Z.of_nat (bcap b) <=? printed)%Z then
    let b := ExpandIfNeeded b (Z.to_nat printed) in
    let* ' (m, printed) := vsnprintf (bmem b) 0 (bcap b) format ap in
    Ok (mkB m (bmd b) (bcap b) (Z.to_nat (to_size_t printed)), printed)
  else Ok (mkB (bmem b) (bmd b) (bcap b) (Z.to_nat (to_size_t printed)), printed).
(** libutils/buffer.c:325-354 BufferAppendF *)
Definition BufferAppendF (b : Buffer) (format : list byte) (ap : list arg) : res Buffer :=
  let* ' (m, printed) := vsnprintf (bmem b) (bused b) (bcap b - bused b) format ap in
  let b := mkB m (bmd b) (bcap b) (bused b) in
  massert (0 <=? printed)%Z
    (if (Z.of_nat (bcap b - bused b) <=? printed)%Z then
       let b := ExpandIfNeeded b (bused b + Z.to_nat printed) in
       let* ' (m, printed) := vsnprintf (bmem b) (bused b) (bcap b - bused b) format ap in
       Ok (mkB m (bmd b) (bcap b) (Z.to_nat (to_size_t (Z.of_nat (bused b) + printed))))
     else Ok (mkB (bmem b) (bmd b) (bcap b) (Z.to_nat (to_size_t (Z.of_nat (bused b) + printed))))).

Section Malloc.
(** the content of the [n] bytes malloc gives, or None *)
Variable malloc : nat -> option (cells byte).
(** libutils/alloc.c:82-88 xvasprintf: the string and the result; without memory, or if vasprintf fails, the
    process ends (Abort; see AllocModel.v for how) *)
Definition xvasprintf (fmt : list byte) (ap : list arg) : res (cells byte * Z) :=
  let* ' (strp, r) := rpl_vasprintf malloc fmt ap in
  match (if (r =? -1)%Z then Some None else strp) with
  | Some (Some str) => Ok (str, r)
  | Some None => Abort
  | None => UB
  end.
(** libutils/string_lib.c:37-49 StringVFormat, StringFormat; None is NULL *)
Definition StringVFormat (fmt : list byte) (ap : list arg) : res (option (cells byte)) :=
  let* ' (value, ret) := xvasprintf fmt ap in
  if (ret <? 0)%Z then Ok None else Ok (Some value).
(** libutils/string_lib.c:898-901 StringFromDouble *)
Definition StringFromDouble (number : ldouble) : res (option (cells byte)) := StringVFormat (lit "%.2f") [AFloat false number].

(** A FILE that is written to: what it holds and how many bytes can still be written. *)
Record file := mkFile { written : list byte; room : nat }.
(** fwrite(buf, 1, len, stream) *)
Definition fwrite (buf : cells byte) (n : nat) (f : file) : res (file * nat) :=
  let k := Nat.min n (room f) in
  let* bytes := (fix rd n i := match n with O => Ok [] | S n => let* c := aget buf i in let* r := rd n (S i) in Ok (c :: r) end) k 0 in
  Ok (mkFile (written f ++ bytes) (room f - k), k).
(** libcompat/snprintf.c:1571-1616 rpl_vfprintf.  [staticbuf]: what is in the local array of 1024 bytes before;
    len >= sizeof(staticbuf) compares as size_t, so -1 takes that branch *)
Definition rpl_vfprintf (staticbuf : cells byte) (stream : file) (format : list byte) (ap : list arg) : res (file * Z) :=
  let* ' (buf, len) := vsnprintf staticbuf 0 1024 format ap in
  let* r :=
    (if (1024 <=? to_size_t len)%Z then
       let buf_size := Z.to_nat (to_size_t (len + 1)) in
       match malloc buf_size with
       | None => Ok None
       | Some buf =>
           let* ' (buf, len) := vsnprintf buf 0 buf_size format ap in
           Ok (Some (buf, if (Z.of_nat buf_size <=? to_size_t len)%Z then (-1)%Z else len))
       end
     else Ok (Some (buf, len))) in
  match r with
  | None => Ok (stream, (-1)%Z)
  | Some (buf, len) =>
      if (0 <? len)%Z then
        let* ' (stream, n) := fwrite buf (Z.to_nat len) stream in
        Ok (stream, Z.of_nat n)
      else Ok (stream, len)
  end.

(** libutils/writer.c:157-174 WriterWriteVF, on a string writer *)
Definition StringWriterWriteVF (w : StringWriterImpl) (fmt : list byte) (ap : list arg) : res (StringWriterImpl * nat) :=
  let* ' (str, _) := xvasprintf fmt ap in
  StringWriterWriteLen w str NINT_MAX.
(** libutils/csv_writer.c:119-131 CsvWriterFieldVF (CsvWriterFieldF calls it) *)
Definition CsvWriterFieldVF (csvw : CsvWriter) (fmt : list byte) (ap : list arg) : res CsvWriter :=
  let* ' (str, _) := xvasprintf fmt ap in
  let* str := mstr str in
  Ok (CsvWriterField csvw str).
End Malloc.
