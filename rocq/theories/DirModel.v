(** Model of libutils/unix_dir.c (reading directories) and of DeleteDirectoryTree of
    libutils/file_lib.c, over the file system and processes of FsModel.v.

    opendir(3), readdir(3), unlink(2) and rmdir(2) are modelled here like the other system calls in
    FsModel.v.  Simplifications: one device; reading a directory returns names only; removed objects
    stay in the table of inodes without a name; logging is left out. *)
From Verif Require Import Prelude Str Libc FsModel SafeModel.
Set Implicit Arguments.

Definition DOTDOT : name := ["."; "."]%char.
(** PATH_MAX, linux/limits.h *)
Definition PATH_MAX : nat := N.to_nat 4096.
Definition ENOTEMPTY : errno := Eother 39.
Definition EBUSY : errno := Eother 16.

Definition entries (f : fs) (d : nat) : list (name * nat) :=
  match inodes f d with Some (mkInode (Dir es) _ _ _) => es | _ => [] end.
(** directory [d] without the name [n] *)
Definition without (n : name) (es : list (name * nat)) : list (name * nat) := filter (fun e => negb (bytes_eqb (fst e) n)) es.
Definition remove_entry (f : fs) (d : nat) (n : name) : fs :=
  match inodes f d with
  | Some (mkInode (Dir es) u g p) => set_inode f d (mkInode (Dir (without n es)) u g p)
  | _ => f
  end.

Section Env.
  Variable E : environment.
  (** what readdir returns next from directory [d], after [seen]; None: NULL *)
  Variable next : fs -> nat -> list name -> option name.
  (** unlink and rmdir may be refused (permissions, mount points, ...) *)
  Variable refuse : nat -> option errno.

  (** the directory and name the last component of a path stands for *)
  Definition at_name (f : fs) (d : nat) (path : list byte) : errno + (nat * name) :=
    match path with
    | [] => inl ENOENT
    | _ => match rev (pieces path) with
           | [] => inl EBUSY
           | n :: r => match walk MAXLINKS f true (if absolute path then rootdir f else d) (rev r) with
                       | inl e => inl e
                       | inr d => inr (d, n)
                       end
           end
    end.
  (** opendir(path) *)
  Definition sys_opendir (w : world) (path : list byte) : res (world * (errno + nat)) :=
    let '(w, fail) := enter E w in
    match fail with
    | Some e => Ok (w, inl e)
    | None =>
        match resolve (wfs w) true (cwd (wfs w)) path with
        | inl e => Ok (w, inl e)
        | inr i => if is_dir (wfs w) i then let '(w, fd) := new_fd (record w (Opened (cwd (wfs w)) path i)) i in Ok (w, inr fd)
                   else Ok (w, inl ENOTDIR)
        end
    end.
  (** unlink(path) *)
  Definition sys_unlink (w : world) (path : list byte) : res (world * option errno) :=
    let '(w, fail) := enter E w in
    match fail with
    | Some e => Ok (w, Some e)
    | None =>
        match at_name (wfs w) (cwd (wfs w)) path with
        | inl e => Ok (w, Some e)
        | inr (d, n) =>
            match lookup (wfs w) d n with
            | inl e => Ok (w, Some e)
            | inr i =>
                if is_dir (wfs w) i then Ok (w, Some EISDIR)
                else if ends_in_slash path then Ok (w, Some ENOTDIR)
                else match refuse (clock w) with
                     | Some e => Ok (w, Some e)
                     | None => Ok (with_fs w (remove_entry (wfs w) d n), None)
                     end
            end
        end
    end.
  (** rmdir(path) *)
  Definition sys_rmdir (w : world) (path : list byte) : res (world * option errno) :=
    let '(w, fail) := enter E w in
    match fail with
    | Some e => Ok (w, Some e)
    | None =>
        match at_name (wfs w) (cwd (wfs w)) path with
        | inl e => Ok (w, Some e)
        | inr (d, n) =>
            if bytes_eqb n DOT then Ok (w, Some EINVAL)
            else if bytes_eqb n DOTDOT then Ok (w, Some ENOTEMPTY)
            else match lookup (wfs w) d n with
            | inl e => Ok (w, Some e)
            | inr i =>
                if negb (is_dir (wfs w) i) then Ok (w, Some ENOTDIR)
                else if i =? rootdir (wfs w) then Ok (w, Some EBUSY)
                else match without DOTDOT (entries (wfs w) i) with
                     | _ :: _ => Ok (w, Some ENOTEMPTY)
                     | [] => match refuse (clock w) with
                             | Some e => Ok (w, Some e)
                             | None => Ok (with_fs w (remove_entry (wfs w) d n), None)
                             end
                     end
            end
        end
    end.
  (** fstat(fd, &st): st.st_ino *)
  Definition fstat_ino (w : world) (fd : nat) : res (world * (errno + nat)) :=
    let* ' (w, r) := sys_fstat E w fd in
    match r with
    | inl e => Ok (w, inl e)
    | inr _ => let* i := inode_of w (Fd fd) in Ok (w, inr i)
    end.

  (** libutils/unix_dir.c:41-85 DirOpen; the stream is known by its descriptor *)
  Definition DirOpen (w : world) (dirname : list byte) : res (world * (errno + nat)) :=
    let* ' (w, r) := safe_open E w dirname RDONLY in
    match r with
    | inl e => Ok (w, inl e)
    | inr safe_fd =>
        let* ' (w, r) := sys_opendir w dirname in
        match r with
        | inl e => let* w := sys_close w safe_fd in Ok (w, inl e)
        | inr dirh =>
            let* ' (w, safe_stat) := fstat_ino w safe_fd in
            (* || : the second fstat only if the first did not fail *)
            let* ' (w, dir_stat) := match safe_stat with inl e => Ok (w, inl e) | inr _ => fstat_ino w dirh end in
            let* w := sys_close w safe_fd in
            match safe_stat, dir_stat with
            | inl e, _ | _, inl e => let* w := sys_close w dirh in Ok (w, inl e)
            | inr a, inr b =>
                if negb (a =? b) then let* w := sys_close w dirh in Ok (w, inl EACCES)
                else Ok (w, inr dirh)
            end
        end
    end.
  (** libutils/unix_dir.c:92-116 DirRead *)
  Definition DirRead (w : world) (dirh : nat) (seen : list name) : res (world * option name) :=
    let '(w, fail) := enter E w in
    let* d := inode_of w (Fd dirh) in
    match fail with Some _ => Ok (w, None) | None => Ok (w, next (wfs w) d seen) end.
  (** libutils/unix_dir.c:118-123 DirClose *)
  Definition DirClose (w : world) (dirh : nat) : res world := sys_close w dirh.

  (** snprintf(subpath, PATH_MAX, "%s/%s", path, d_name) *)
  Definition subpath (path d_name : list byte) : list byte := firstn (PATH_MAX - 1) (path ++ SLASH :: d_name).
  (** libutils/file_lib.c:1227-1302 DeleteDirectoryTreeInternal, the loop; [rec]: the recursive call *)
  Fixpoint delete_loop (rec : world -> list byte -> res (world * bool)) (k : nat) (w : world) (path : list byte) (dirh : nat)
      (seen : list name) (failed : bool) : res (world * bool) :=
    match k with
    | O => Fuel
    | S k =>
        let* ' (w, dirp) := DirRead w dirh seen in
        match dirp with
        | None => Ok (w, failed)
        | Some d_name =>
            let continue w failed := delete_loop rec k w path dirh (d_name :: seen) failed in
            if bytes_eqb d_name DOT || bytes_eqb d_name DOTDOT then continue w failed
            else
              let sub := subpath path d_name in
              let* ' (w, lsb) := sys_fstatat E w AT_FDCWD sub in
              match lsb with
              | inl ENOENT => continue w failed
              | inl _ => continue w true
              | inr lsb =>
                  match st_kind lsb with
                  | Dir _ =>
                      let* ' (w, ok) := rec w sub in
                      let failed := if ok then failed else true in
                      let* ' (w, r) := sys_rmdir w sub in
                      continue w (match r with None => failed | Some _ => true end)
                  | _ =>
                      let* ' (w, r) := sys_unlink w sub in
                      continue w (match r with None | Some ENOENT => failed | Some _ => true end)
                  end
              end
        end
    end.
  (** libutils/file_lib.c:1227-1302 DeleteDirectoryTreeInternal; [fuel] bounds the depth and the number of names *)
  Fixpoint DeleteDirectoryTreeInternal (fuel : nat) (w : world) (path : list byte) : res (world * bool) :=
    match fuel with
    | O => Fuel
    | S fuel =>
        let* ' (w, r) := DirOpen w path in
        match r with
        | inl ENOENT => Ok (w, true)
        | inl _ => Ok (w, false)
        | inr dirh =>
            let* ' (w, failed) := delete_loop (DeleteDirectoryTreeInternal fuel) (S fuel) w path dirh [] false in
            let* w := DirClose w dirh in
            Ok (w, negb failed)
        end
    end.
  (** libutils/file_lib.c:1304-1307 DeleteDirectoryTree *)
  Definition DeleteDirectoryTree (fuel : nat) (w : world) (path : list byte) : res (world * bool) :=
    DeleteDirectoryTreeInternal fuel w path.
End Env.
