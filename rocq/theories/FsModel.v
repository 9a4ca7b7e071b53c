(** A file system, and the system calls libutils/file_lib.c makes on it, with other
    processes at work.

    This file models the kernel, not code of the repository: POSIX path resolution
    (path_resolution(7)), openat(2), fstatat(2), fstat(2), ftruncate(2), close(2),
    readlinkat(2), fchownat(2), fchmodat(2), fchmod(2).  Between any two system calls of the
    process other processes may do anything to the file system, and any call may fail
    for a reason outside the model (permissions, memory, ...): both are chosen by the
    environment.  The process's own changes and observations are recorded in a log. *)
From Verif Require Import Prelude Str Libc.
Set Implicit Arguments.

Definition name := list byte.
Definition SLASH : byte := "/"%char.
Definition DOT : name := ["."%char].

Inductive kind := Dir (entries : list (name * nat)) | Reg (contents : list byte) | Lnk (target : list byte) | Fifo | Sock.
Record inode := mkInode { ikind : kind; iuid : Z; igid : Z; iperms : Z }.
Record fs := mkFs { inodes : nat -> option inode; rootdir : nat; cwd : nat; nextino : nat }.

Inductive errno := ENOENT | ENOTDIR | ELOOP | EEXIST | EACCES | EINVAL | ENOLINK | EISDIR | ENOSPC | EIO | EPERM | Eother (n : nat).

Fixpoint assoc (es : list (name * nat)) (n : name) : option nat :=
  match es with [] => None | (m, i) :: es => if bytes_eqb m n then Some i else assoc es n end.
(** the object called [n] in directory [d] *)
Definition lookup (f : fs) (d : nat) (n : name) : errno + nat :=
  match inodes f d with
  | Some (mkInode (Dir es) _ _ _) =>
      if bytes_eqb n DOT then inr d else match assoc es n with Some i => inr i | None => inl ENOENT end
  | Some _ => inl ENOTDIR
  | None => inl ENOENT
  end.

(** the pieces of a path between slashes; a trailing slash stands for a final [.] *)
Fixpoint split_slash (p : list byte) : list name :=
  match p with
  | [] => [[]]
  | c :: p => if beq c SLASH then [] :: split_slash p
              else match split_slash p with x :: r => (c :: x) :: r | [] => [[c]] end
  end.
Definition nonempty (n : name) : bool := match n with [] => false | _ => true end.
Definition pieces (p : list byte) : list name := filter nonempty (split_slash p).
Definition ends_in_slash (p : list byte) : bool := beq (last p "x"%char) SLASH.
Definition path_names (p : list byte) : list name :=
  match pieces p with [] => [] | l => if ends_in_slash p then l ++ [DOT] else l end.
Definition absolute (p : list byte) : bool := match p with c :: _ => beq c SLASH | [] => false end.

(** path resolution from directory [d]; [links] symbolic links may be followed.  With
    [follow] false a symbolic link that is the last component is not followed. *)
Fixpoint walk (links : nat) (f : fs) (follow : bool) : nat -> list name -> errno + nat :=
  fix go (d : nat) (ns : list name) {struct ns} : errno + nat :=
    match ns with
    | [] => inr d
    | n :: rest =>
        match lookup f d n with
        | inl e => inl e
        | inr i =>
            match inodes f i with
            | Some (mkInode (Lnk t) _ _ _) =>
                if match rest with [] => negb follow | _ => false end then inr i
                else match t with
                     | [] => inl ENOENT
                     | _ => match links with
                            | O => inl ELOOP
                            | S l => walk l f follow (if absolute t then rootdir f else d) (path_names t ++ rest)
                            end
                     end
            | _ => go i rest
            end
        end
    end.
(** Linux follows at most 40 links *)
Definition MAXLINKS : nat := 40.
Definition resolve (f : fs) (follow : bool) (d : nat) (p : list byte) : errno + nat :=
  match p with
  | [] => inl ENOENT
  | _ => walk MAXLINKS f follow (if absolute p then rootdir f else d) (path_names p)
  end.

Record stat := mkStat { st_uid : Z; st_gid : Z; st_size : nat; st_kind : kind }.
Definition size_of (k : kind) : nat := match k with Reg c => length c | Lnk t => length t | _ => 0 end.
Definition stat_of (i : inode) : stat := mkStat (iuid i) (igid i) (size_of (ikind i)) (ikind i).
Definition S_ISLNK (s : stat) : bool := match st_kind s with Lnk _ => true | _ => false end.

Definition set_inode (f : fs) (i : nat) (x : inode) : fs :=
  mkFs (fun j => if j =? i then Some x else inodes f j) (rootdir f) (cwd f) (nextino f).

(** what the process did and saw *)
Inductive event :=
| Saw (dir : nat) (n : list byte) (s : option stat)   (* fstatat without following, None: ENOENT *)
| Opened (dir : nat) (n : list byte) (ino : nat)      (* openat of something that existed *)
| Created (dir : nat) (n : list byte) (ino : nat)
| Checked (ino : nat) (s : stat)                 (* fstat *)
| Target (dir : nat) (n t : list byte)           (* readlinkat *)
| Truncated (ino : nat)
| Chowned (dir : nat) (n : list byte) (ino : nat)
| Chmoded (ino : nat) (owner : Z).

Record flags := mkFlags { O_WR : bool (* O_WRONLY or O_RDWR *); O_CREAT : bool; O_EXCL : bool; O_TRUNC : bool }.
Definition RDONLY : flags := mkFlags false false false false.

(** the process: the file system, the time (number of calls made), its descriptors, its log *)
Record world := mkWorld { wfs : fs; clock : nat; fds : list (nat * nat); nextfd : nat; log : list event }.
(** the descriptors AT_FDCWD *)
Inductive dirfd := AT_FDCWD | Fd (n : nat).

(** the process: effective user and group; the environment: what happens before the n-th call
    and whether that call fails *)
Record environment := mkEnv { others : nat -> fs -> fs; failure : nat -> option errno; euid : Z; egid : Z }.

Section Calls.
  Variable E : environment.
  (** the state in which a call is executed *)
  Definition enter (w : world) : world * option errno :=
    (mkWorld (others E (clock w) (wfs w)) (S (clock w)) (fds w) (nextfd w) (log w), failure E (clock w)).
  Definition with_fs (w : world) (f : fs) : world := mkWorld f (clock w) (fds w) (nextfd w) (log w).
  Definition record (w : world) (e : event) : world := mkWorld (wfs w) (clock w) (fds w) (nextfd w) (log w ++ [e]).
  Fixpoint find_fd (l : list (nat * nat)) (fd : nat) : option nat :=
    match l with [] => None | (k, i) :: l => if k =? fd then Some i else find_fd l fd end.
  (** the inode a descriptor stands for; using a descriptor that is not open is an error the
      code must not make *)
  Definition inode_of (w : world) (d : dirfd) : res nat :=
    match d with AT_FDCWD => Ok (cwd (wfs w)) | Fd n => match find_fd (fds w) n with Some i => Ok i | None => UB end end.
  Definition new_fd (w : world) (i : nat) : world * nat :=
    (mkWorld (wfs w) (clock w) (fds w ++ [(nextfd w, i)]) (S (nextfd w)) (log w), nextfd w).

  (** close(fd); its failure is never looked at *)
  Definition sys_close (w : world) (fd : nat) : res world :=
    match find_fd (fds w) fd with
    | Some _ => Ok (mkWorld (wfs w) (clock w) (filter (fun p => negb (fst p =? fd)) (fds w)) (nextfd w) (log w))
    | None => UB
    end.

  (** fstatat(fd, path, &st, AT_SYMLINK_NOFOLLOW) *)
  Definition sys_fstatat (w : world) (fd : dirfd) (path : list byte) : res (world * (errno + stat)) :=
    let '(w, fail) := enter w in
    let* d := inode_of w fd in
    match fail with
    | Some e => Ok (w, inl e)
    | None =>
        match resolve (wfs w) false d path with
        | inl ENOENT => Ok (record w (Saw d path None), inl ENOENT)
        | inl e => Ok (w, inl e)
        | inr i => match inodes (wfs w) i with
                   | Some x => Ok (record w (Saw d path (Some (stat_of x))), inr (stat_of x))
                   | None => Ok (w, inl EIO)
                   end
        end
    end.

  (** fstat(fd, &st) *)
  Definition sys_fstat (w : world) (fd : nat) : res (world * (errno + stat)) :=
    let '(w, fail) := enter w in
    let* i := inode_of w (Fd fd) in
    match fail with
    | Some e => Ok (w, inl e)
    | None => match inodes (wfs w) i with
              | Some x => Ok (record w (Checked i (stat_of x)), inr (stat_of x))
              | None => Ok (w, inl EIO)
              end
    end.

  Definition is_dir (f : fs) (i : nat) : bool :=
    match inodes f i with Some (mkInode (Dir _) _ _ _) => true | _ => false end.
  Definition truncated (x : inode) : inode :=
    mkInode (match ikind x with Reg _ => Reg [] | k => k end) (iuid x) (igid x) (iperms x).

  (** openat of an existing file *)
  Definition open_existing (w : world) (d : nat) (path : list byte) (fl : flags) (i : nat) : res (world * (errno + nat)) :=
    match inodes (wfs w) i with
    | None => Ok (w, inl EIO)
    | Some x =>
        if O_WR fl && is_dir (wfs w) i then Ok (w, inl EISDIR)
        else
          let w := if O_TRUNC fl then record (with_fs w (set_inode (wfs w) i (truncated x))) (Truncated i) else w in
          let '(w, fd) := new_fd (record w (Opened d path i)) i in Ok (w, inr fd)
    end.
  (** openat that creates a file called [n] in directory [d] *)
  Definition open_new (w : world) (d : nat) (n : name) (mode : Z) : res (world * (errno + nat)) :=
    let f := wfs w in
    match inodes f d, inodes f (nextino f) with
    | Some (mkInode (Dir es) u g p), None =>
        let i := nextino f in
        let f := set_inode f i (mkInode (Reg []) (euid E) (egid E) mode) in
        let f := set_inode f d (mkInode (Dir ((n, i) :: es)) u g p) in
        let w := record (with_fs w (mkFs (inodes f) (rootdir f) (cwd f) (S i))) (Created d n i) in
        let '(w, fd) := new_fd w i in Ok (w, inr fd)
    | _, _ => Ok (w, inl ENOSPC)
    end.
  (** openat(fd, path, flags, mode).  Creation without O_EXCL through a dangling symbolic link
      is not modelled (ENOENT; the code never asks for it) *)
  Definition sys_openat (w : world) (fd : dirfd) (path : list byte) (fl : flags) (mode : Z) : res (world * (errno + nat)) :=
    let '(w, fail) := enter w in
    let* d := inode_of w fd in
    match fail with
    | Some e => Ok (w, inl e)
    | None =>
        if O_CREAT fl then
          match resolve (wfs w) false d path with
          | inr i =>
              if O_EXCL fl then Ok (w, inl EEXIST)
              else match resolve (wfs w) true d path with inl e => Ok (w, inl e) | inr i => open_existing w d path fl i end
          | inl ENOENT =>
              match path_names path with
              | [n] => if ends_in_slash path then Ok (w, inl EISDIR) else open_new w d n mode
              | _ => Ok (w, inl ENOENT)
              end
          | inl e => Ok (w, inl e)
          end
        else match resolve (wfs w) true d path with inl e => Ok (w, inl e) | inr i => open_existing w d path fl i end
    end.

  (** ftruncate(fd, 0) *)
  Definition sys_ftruncate (w : world) (fd : nat) : res (world * option errno) :=
    let '(w, fail) := enter w in
    let* i := inode_of w (Fd fd) in
    match fail with
    | Some e => Ok (w, Some e)
    | None => match inodes (wfs w) i with
              | Some x => Ok (record (with_fs w (set_inode (wfs w) i (truncated x))) (Truncated i), None)
              | None => Ok (w, Some EIO)
              end
    end.

  (** readlinkat(fd, path, buf, bufsiz): the bytes placed in buf *)
  Definition sys_readlinkat (w : world) (fd : dirfd) (path : list byte) (bufsiz : nat) : res (world * (errno + list byte)) :=
    let '(w, fail) := enter w in
    let* d := inode_of w fd in
    match fail with
    | Some e => Ok (w, inl e)
    | None => match resolve (wfs w) false d path with
              | inl e => Ok (w, inl e)
              | inr i => match inodes (wfs w) i with
                         | Some (mkInode (Lnk t) _ _ _) => Ok (record w (Target d path (firstn bufsiz t)), inr (firstn bufsiz t))
                         | _ => Ok (w, inl EINVAL)
                         end
              end
    end.
  Definition chowned (x : inode) (u g : Z) : inode := mkInode (ikind x) u g (iperms x).
  (** fchownat(fd, path, owner, group, AT_SYMLINK_NOFOLLOW) *)
  Definition sys_lchownat (w : world) (fd : dirfd) (path : list byte) (owner group : Z) : res (world * option errno) :=
    let '(w, fail) := enter w in
    let* d := inode_of w fd in
    match fail with
    | Some e => Ok (w, Some e)
    | None => match resolve (wfs w) false d path with
              | inl e => Ok (w, Some e)
              | inr i => match inodes (wfs w) i with
                         | Some x => Ok (record (with_fs w (set_inode (wfs w) i (chowned x owner group))) (Chowned d path i), None)
                         | None => Ok (w, Some EIO)
                         end
              end
    end.
  Definition chmoded (x : inode) (m : Z) : inode := mkInode (ikind x) (iuid x) (igid x) m.
  (** fchmodat(fd, path, mode, 0) called with effective user [as_uid]: follows links; only root
      and the owner may do it *)
  Definition sys_fchmodat (as_uid : Z) (w : world) (fd : dirfd) (path : list byte) (mode : Z) : res (world * option errno) :=
    let '(w, fail) := enter w in
    let* d := inode_of w fd in
    match fail with
    | Some e => Ok (w, Some e)
    | None => match resolve (wfs w) true d path with
              | inl e => Ok (w, Some e)
              | inr i => match inodes (wfs w) i with
                         | Some x =>
                             if (as_uid =? 0)%Z || (as_uid =? iuid x)%Z
                             then Ok (record (with_fs w (set_inode (wfs w) i (chmoded x mode))) (Chmoded i (iuid x)), None)
                             else Ok (w, Some EPERM)
                         | None => Ok (w, Some EIO)
                         end
              end
    end.
  (** fchmod(fd, mode) *)
  Definition sys_fchmod (w : world) (fd : nat) (mode : Z) : res (world * option errno) :=
    let '(w, fail) := enter w in
    let* i := inode_of w (Fd fd) in
    match fail with
    | Some e => Ok (w, Some e)
    | None => match inodes (wfs w) i with
              | Some x => Ok (record (with_fs w (set_inode (wfs w) i (chmoded x mode))) (Chmoded i (iuid x)), None)
              | None => Ok (w, Some EIO)
              end
    end.
End Calls.
