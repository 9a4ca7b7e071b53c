(** Model of the descriptor I/O of libutils/file_lib.c.  The kernel is a list of answers:
    each read(2), write(2), lseek(2), ftruncate(2) or close(2) takes the next one, and
    when they run out the call never returns ([Fuel]).  Files are byte lists; a file
    being written has a position, and writing or truncating past the end fills with NULs,
    as POSIX says.  Log calls and fsync have no effect in the model. *)
From Verif Require Import Prelude Str Libc EditModel WriterModel.
Set Implicit Arguments.

(** an answer: done (for as many bytes as it can, at most n), interrupted, failed *)
Inductive answer := Done (n : nat) | Eintr | Fail.

(** a file open for reading: what is left, and the answers to come *)
Record infile := mkIn { left_ : list byte; ranswers : list answer }.
(** a file open for writing *)
Record outfile := mkOut { content : list byte; fpos : nat; wanswers : list answer }.

Definition zeros (n : nat) : list byte := repeat NUL n.
(** the file after [bs] is written at [p]; writing nothing does not extend it *)
Definition overwrite (c : list byte) (p : nat) (bs : list byte) : list byte :=
  match bs with [] => c | _ => firstn p c ++ zeros (p - length c) ++ bs ++ skipn (p + length bs) c end.

Fixpoint aread (m : cells byte) (i n : nat) : res (list byte) :=
  match n with O => Ok [] | S n => let* c := aget m i in let* r := aread m (S i) n in Ok (c :: r) end.

(** libutils/file_lib.c:253-277 FullWrite: [m]+[ptr] is the memory, -1 on error *)
Fixpoint write_loop (ws : list answer) (c : list byte) (p : nat) (m : cells byte) (ptr len total : nat) : res (outfile * Z) :=
  match len with
  | O => Ok (mkOut c p ws, Z.of_nat total)
  | S _ => match ws with
           | [] => Fuel
           | Eintr :: ws => write_loop ws c p m ptr len total
           | Fail :: ws => Ok (mkOut c p ws, (-1)%Z)
           | Done n :: ws => let written := Nat.min n len in
                             let* bs := aread m ptr written in
                             write_loop ws (overwrite c p bs) (p + written) m (ptr + written) (len - written) (total + written)
           end
  end.
Definition FullWrite (f : outfile) (m : cells byte) (ptr len : nat) : res (outfile * Z) :=
  write_loop (wanswers f) (content f) (fpos f) m ptr len 0.

(** libutils/file_lib.c:279-308 FullRead; read(2) returns 0 only at the end of the file *)
Fixpoint read_loop (rs : list answer) (src : list byte) (m : cells byte) (ptr len total : nat) : res (infile * cells byte * Z) :=
  match len with
  | O => Ok (mkIn src rs, m, Z.of_nat total)
  | S _ => match rs with
           | [] => Fuel
           | Eintr :: rs => read_loop rs src m ptr len total
           | Fail :: rs => Ok (mkIn src rs, m, (-1)%Z)
           | Done n :: rs => let bytes := firstn (Nat.min (S n) len) src in
                             match length bytes with
                             | O => Ok (mkIn src rs, m, Z.of_nat total)
                             | _ => let* m := acopy m ptr (map Some bytes) 0 (length bytes) in
                                    read_loop rs (skipn (length bytes) src) m (ptr + length bytes) (len - length bytes) (total + length bytes)
                             end
           end
  end.
Definition FullRead (f : infile) (m : cells byte) (ptr len : nat) : res (infile * cells byte * Z) :=
  read_loop (ranswers f) (left_ f) m ptr len 0.

Definition READ_BUFSIZE : nat := N.to_nat 4096.
(** libutils/file_lib.c:207-251 FileReadFromFd: the writer (or NULL) and *truncated *)
Fixpoint readfd_loop (rs : list answer) (src : list byte) (max_size : nat) (w : Writer) : res (option Writer * bool) :=
  match rs with
  | [] => Fuel
  | Eintr :: rs => readfd_loop rs src max_size w
  | Fail :: rs => Ok (None, false)
  | Done n :: rs =>
      let bytes := firstn (Nat.min (S n) READ_BUFSIZE) src in
      let* len := StringWriterLength w in
      match length bytes with
      | O => Ok (Some w, false)
      | read_ =>
          let* buf := acopy (repeat None READ_BUFSIZE) 0 (map Some bytes) 0 read_ in
          if max_size <? read_ + len
          then let* ' (w, _) := WriterWriteLen w buf (max_size - len) in Ok (Some w, true)
          else let* ' (w, _) := WriterWriteLen w buf read_ in readfd_loop rs (skipn read_ src) max_size w
      end
  end.
Definition FileReadFromFd (f : infile) (max_size : nat) : res (option Writer * bool) :=
  readfd_loop (ranswers f) (left_ f) max_size StringWriter.

(** lseek(fd, count, SEEK_CUR) *)
Definition sys_seek (f : outfile) (count : nat) : res (outfile * bool) :=
  match wanswers f with
  | [] => Fuel
  | Done _ :: ws => Ok (mkOut (content f) (fpos f + count) ws, true)
  | _ :: ws => Ok (mkOut (content f) (fpos f) ws, false)
  end.
(** ftruncate(fd, n) *)
Definition sys_truncate (f : outfile) (n : nat) : res (outfile * bool) :=
  match wanswers f with
  | [] => Fuel
  | Done _ :: ws => Ok (mkOut (firstn n (content f) ++ zeros (n - length (content f))) (fpos f) ws, true)
  | _ :: ws => Ok (mkOut (content f) (fpos f) ws, false)
  end.
(** close(fd): what the file holds afterwards *)
Definition sys_close (f : outfile) : res bool :=
  match wanswers f with [] => Fuel | Done _ :: _ => Ok true | _ => Ok false end.

(** libutils/file_lib.c:1316-1346 FileSparseWrite: success, and *wrote_hole ([old] if not set) *)
Definition FileSparseWrite (f : outfile) (buf : cells byte) (count : nat) (old : bool) : res (outfile * bool * bool) :=
  let* r := memcchr buf NUL count in
  match r with
  | None => let* ' (f, ok) := sys_seek f count in Ok (f, ok, if ok then true else old)
  | Some _ => let* ' (f, r) := FullWrite f buf 0 count in
              if (r <? 0)%Z then Ok (f, false, old) else Ok (f, true, false)
  end.
(** libutils/file_lib.c:1358-1406 FileSparseCopy: success, *total_bytes_written, *last_write_was_a_hole *)
Fixpoint sparse_loop (fuel : nat) (s : infile) (d : outfile) (buf : cells byte) (blk total : nat) (hole : bool) : res (outfile * bool * nat * bool) :=
  match fuel with
  | O => Fuel
  | S fuel =>
      let* ' (s, buf, n_read) := FullRead s buf 0 blk in
      if (n_read <? 0)%Z then Ok (d, false, total, hole)
      else if (n_read =? 0)%Z then Ok (d, true, total, hole)
      else let* ' (d, ok, hole) := FileSparseWrite d buf (Z.to_nat n_read) hole in
           if ok : bool then sparse_loop fuel s d buf blk (total + Z.to_nat n_read) hole else Ok (d, false, total, hole)
  end.
Definition FileSparseCopy (s : infile) (d : outfile) (blk_size : nat) : res (outfile * bool * nat * bool) :=
  sparse_loop (S (length (left_ s))) s d (repeat None blk_size) blk_size 0 false.
(** libutils/file_lib.c:1426-1474 FileSparseClose: success, and the file afterwards *)
Definition FileSparseClose (f : outfile) (total_bytes_written : nat) (last_write_was_hole : bool) : res (bool * list byte) :=
  let* ' (f, ok) :=
    if last_write_was_hole
    then let* ' (f, r1) := FullWrite f (block []) 0 1 in
         if (r1 =? -1)%Z then Ok (f, false) else sys_truncate f total_bytes_written
    else Ok (f, true) in
  let* closed := sys_close f in
  Ok ((ok : bool) && closed, content f).
