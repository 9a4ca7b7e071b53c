(** Model of the file level functions of libutils/file_lib.c: File_Copy, File_CopyToDir, ReadFileStreamToBuffer, ListDir,
    GlobFileList, SetUmask/RestoreUmask, SetCloseOnExec, FileCanOpen and IsDirReal.

    How a path is resolved is the subject of SafeModel; here an open of a path is an oracle that yields an inode
    or fails.  What is logged is left out; allocations succeed.  Buffered output reaches the file as it is written
    (nobody else uses the file meanwhile), and if writing or closing failed nothing is known about the file. *)
From Verif Require Import Prelude Str Libc EditModel CmpModel PathModel MapModel SetModel.
Set Implicit Arguments.

Definition inode := nat.
(** the contents of the files *)
Definition contents := inode -> list byte.
Definition write_to (w : contents) (i : inode) (d : list byte) : contents := fun j => if j =? i then d else w j.

(** a stream opened for reading: what was not read yet and its two indicators *)
Record stream := mkStream { rest : list byte; eof : bool; err : bool }.
(** the C library's fread of at most [n] bytes, less only at the end of the file or at a read error; [e]: Some k is
    an error behind k bytes.  The end of the file is only noticed by a read that asks for more than there is. *)
Definition fread (n : nat) (e : option nat) (f : stream) : list byte * stream :=
  match e with
  | Some k => let k := Nat.min k (Nat.pred n) in (firstn k (rest f), mkStream (skipn k (rest f)) (eof f) true)
  | None => (firstn n (rest f), mkStream (skipn n (rest f)) (eof f || (length (rest f) <? n)) (err f))
  end.

(** what the outside does to one copy *)
Record outside := mkOutside {
  open_read : list byte -> option inode;       (* safe_fopen(path, "r") *)
  open_write : list byte -> option inode;      (* safe_fopen_create_perms(path, "w"): truncates *)
  reads : list (option nat);                   (* the outcome of each fread; none fails behind the list *)
  writes : list (nat * bool);                  (* each fwrite: how much it takes at most and whether it sets the error
                                                  indicator; behind the list everything is taken *)
  close_in : bool; close_out : bool;           (* whether fclose succeeds *)
  lost : list byte                             (* what the destination holds when writing it failed *)
}.

(** libutils/file_lib.c:100-175 File_Copy: the first fwrite and the inner loop: how much was written, the error indicator, the outcomes left *)
Fixpoint fwrite_all (d : list byte) (ws : list (nat * bool)) {struct ws} : list byte * bool * list (nat * bool) :=
  match d, ws with
  | [], _ => ([], false, ws)                   (* fwrite of nothing does nothing *)
  | _, [] => (d, false, [])
  | _, (k, e) :: ws =>
      let part := firstn k d in
      if e then (part, true, ws)
      else if length part <? length d then
        let '(more, e, ws) := fwrite_all (skipn k d) ws in (part ++ more, e, ws)
      else (part, false, ws)
  end.

(** libutils/file_lib.c:100-175 File_Copy, BUFSIZE *)
Definition COPY_BUFSIZE : nat := N.to_nat 1024.
(** libutils/file_lib.c:100-175 File_Copy: the outer loop; [done] was written.  What was written then, the streams' indicators and
    whether the last counts were equal *)
Fixpoint copy_loop (fuel : nat) (f : stream) (rs : list (option nat)) (ws : list (nat * bool)) (done : list byte)
  : res (list byte * stream * bool * bool) :=
  match fuel with
  | O => Fuel
  | S fuel =>
      let '(buf, f) := fread COPY_BUFSIZE (hd None rs) f in
      let '(out, e, ws) := fwrite_all buf ws in
      let same := length buf =? length out in
      if negb (eof f) && negb (err f) && negb e && same then copy_loop fuel f (tl rs) ws (done ++ out)
      else Ok (done ++ out, f, e, same)
  end.

(** libutils/file_lib.c:100-175 File_Copy *)
Definition File_Copy (o : outside) (w : contents) (src dst : list byte) : res (bool * contents) :=
  match open_read o src with
  | None => Ok (false, w)
  | Some i =>
      match open_write o dst with
      | None => Ok (false, w)
      | Some j =>
          let w := write_to w j [] in
          let* ' (out, f, e, same) := copy_loop (length (w i) / COPY_BUFSIZE + 1) (mkStream (w i) false false) (reads o) (writes o) [] in
          let ret := if err f then false else if e then false else if negb same then false else true in
          let ret := if close_in o then ret else false in
          let ret := if close_out o then ret else false in
          Ok (ret, write_to w j (if e || negb (close_out o) then lost o else out))
      end
  end.

(** limits.h PATH_MAX *)
Definition PATH_MAX : nat := N.to_nat 4096.
(** libutils/file_lib.c:177-205 File_CopyToDir; snprintf of at most PATH_MAX - 1 characters *)
Definition File_CopyToDir (o : outside) (w : contents) (src dst_dir : list byte) : res (bool * contents) :=
  let* ends := StringEndsWith dst_dir (lit "/") in
  massert ends
  (let* filename := Path_Basename src in
   match filename with
   | None => Ok (false, w)
   | Some k =>
       let text := dst_dir ++ skipn k src in
       if PATH_MAX <=? length text then Ok (false, w)
       else let* ' (ok, w) := File_Copy o w src text in
            if negb ok then Ok (false, w) else Ok (true, w)
   end).

(** libutils/file_lib.c:76-98 ReadFileStreamToBuffer; [buf] is the memory of the buffer, each round reads what one fread returns.
    FILE_ERROR_READ is -1 (libutils/file_lib.h). *)
Fixpoint stream_loop (fuel : nat) (f : stream) (es : list (option nat)) (bytes_read max_bytes : nat) (buf : cells byte)
  : res (Z * cells byte * stream) :=
  match fuel with
  | O => Fuel
  | S fuel =>
      if bytes_read <? max_bytes then
        let '(d, f) := fread (max_bytes - bytes_read) (hd None es) f in
        let* buf := acopy buf bytes_read (map Some d) 0 (length d) in
        if err f && negb (eof f) then Ok ((-1)%Z, buf, f)
        else if length d =? 0 then Ok (if err f then (-1)%Z else Z.of_nat bytes_read, buf, f)
        else stream_loop fuel f (tl es) (bytes_read + length d) max_bytes buf
      else Ok (if err f then (-1)%Z else Z.of_nat bytes_read, buf, f)
  end.
Definition ReadFileStreamToBuffer (f : stream) (es : list (option nat)) (max_bytes : nat) (buf : cells byte) : res (Z * cells byte * stream) :=
  stream_loop (max_bytes + 1) f es 0 max_bytes buf.

(** libutils/file_lib.c:471-494 ListDir: [entries] are the names DirRead yields (its order), None if DirOpen fails *)
Fixpoint list_loop (dir : list byte) (extension : option (list byte)) (entries : list (list byte)) (contents : list (cells byte)) : res (list (cells byte)) :=
  match entries with
  | [] => Ok contents
  | name :: entries =>
      let* take := match extension with None => Ok true | Some e => StringEndsWithCase name e true end in
      if take then
        let* p := Path_JoinAlloc dir name in
        match p with
        | None => UB
        | Some p => list_loop dir extension entries (contents ++ [p])
        end
      else list_loop dir extension entries contents
  end.
Definition ListDir (entries : option (list (list byte))) (dir : list byte) (extension : option (list byte)) : res (option (list (cells byte))) :=
  match entries with
  | None => Ok None
  | Some names => let* l := list_loop dir extension names [] in Ok (Some l)
  end.

Section Glob.
  (** glob(3): the paths, None if it fails (also if nothing matches) *)
  Variable glob : list byte -> option (list (list byte)).
  Variable shash : list byte -> N.
  Notation sset := (set_t (list byte)).

  (** libutils/file_lib.c:1533-1572 GlobFileList: the inner loop *)
  Fixpoint add_all (set : sset) (paths : list (list byte)) : res sset :=
    match paths with
    | [] => Ok set
    | p :: paths => let* ' (set, _) := SetAdd bytes_eqb shash set p in add_all set paths
    end.
  (** libutils/file_lib.c:1533-1572 GlobFileList: one round of the outer loop *)
  Definition glob_round (set : sset) (expanded : list byte) : res sset :=
    match glob expanded with
    | Some paths => add_all set paths
    | None => Ok set
    end.
  (** libutils/file_lib.c:1533-1572 GlobFileList: r_candidates *)
  Definition r_candidates : list (list byte) :=
    [lit "*"; lit "*/*"; lit "*/*/*"; lit "*/*/*/*"; lit "*/*/*/*/*"; lit "*/*/*/*/*/*"].
  Fixpoint glob_loop (set : sset) (pattern : list byte) (candidates : list (list byte)) : res sset :=
    match candidates with
    | [] => Ok set
    | c :: candidates =>
        let* expanded := SearchAndReplace (Some pattern) (Some (lit "**")) (Some c) in
        let* set := glob_round set expanded in
        glob_loop set pattern candidates
    end.
  (** libutils/file_lib.c:1533-1572 GlobFileList *)
  Definition GlobFileList (pattern : list byte) : res sset :=
    match strstr pattern (lit "**") with
    | Some _ => glob_loop (SetNew (list byte)) pattern r_candidates
    | None => glob_round (SetNew (list byte)) pattern
    end.
End Glob.

(** the umask and the descriptor flags of a process *)
Record process := mkProcess { mask : N; fdflags : Z -> option N }.
(** umask(2) takes the permission bits and returns the former mask *)
Definition umask (p : process) (m : N) : N * process := (mask p, mkProcess (N.land m 511) (fdflags p)).
(** libutils/file_lib.c:496-501 SetUmask *)
Definition SetUmask (p : process) (new_mask : N) : N * process := umask p new_mask.
(** libutils/file_lib.c:502-506 RestoreUmask *)
Definition RestoreUmask (p : process) (old_mask : N) : process := snd (umask p old_mask).

(** fcntl(2) F_GETFD, F_SETFD on a 32 bit int as 0..2^32-1: the only flag Linux knows is FD_CLOEXEC, which it takes from bit 0
    and which is all it returns; -1 (all bits) for a bad descriptor *)
Definition FD_CLOEXEC : N := 1.
Definition getfd (p : process) (fd : Z) : N := match fdflags p fd with Some b => b | None => 4294967295 end.
Definition setfd (p : process) (fd : Z) (flags : N) : bool * process :=
  match fdflags p fd with
  | Some _ => (true, mkProcess (mask p) (fun x => if (x =? fd)%Z then Some (N.land flags FD_CLOEXEC) else fdflags p x))
  | None => (false, p)
  end.
(** libutils/file_lib.c:1212-1224 SetCloseOnExec *)
Definition SetCloseOnExec (p : process) (fd : Z) (enable : bool) : bool * process :=
  let flags := getfd p fd in
  let flags := if enable then N.lor flags FD_CLOEXEC else N.land flags (4294967295 - FD_CLOEXEC) in
  setfd p fd flags.
