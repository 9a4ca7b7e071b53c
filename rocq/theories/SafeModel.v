(** Model of the symlink-safe operations of libutils/file_lib.c (on a Unix that is not
    Android), on the file system of FsModel.v.  close(2) and geteuid(2) are not counted as
    points where others may act or calls may fail.  Log calls are left out. *)
From Verif Require Import Prelude Str Libc FsModel.
Set Implicit Arguments.

Definition drop_slashes (s : list byte) : list byte := snd (span (fun c => beq c SLASH) s).

(** libutils/file_lib.c:541-810 safe_open_create_perms: cutting off a component of the rest [s] of
    the path.  The code writes a NUL over the slash; here: the component, next_component
    (None: NULL), and the slashes put back before the last component is opened. *)
Definition next_component (s : list byte) : list byte * option (list byte) * list byte :=
  match s with
  | [] => ([], None, [])
  | c :: t =>
      let '(a, rest) := span (fun c => negb (beq c SLASH)) t in
      match drop_slashes rest with
      | [] => (c :: a, None, rest)
      | r => (c :: a, Some r, [])
      end
  end.

Section SafeOpen.
  Variable E : environment.

  (** file_lib.c: [bool p_uid; ... p_uid = geteuid();] *)
  Definition p_uid : Z := if (euid E =? 0)%Z then 0 else 1.

  (** libutils/file_lib.c:541-810 safe_open_create_perms: fstat of the file opened and the
      comparison with [before]; None: the error return, with the descriptor closed *)
  Definition verify (w : world) (fd : nat) (before : stat) : res (world * (errno + nat)) :=
    let* ' (w, after) := sys_fstat E w fd in
    match after with
    | inl e => let* w := sys_close w fd in Ok (w, inl e)
    | inr after =>
        if negb (st_uid before =? 0)%Z && negb (st_uid before =? p_uid)%Z &&
           (negb (st_uid before =? st_uid after)%Z || negb (st_gid before =? st_gid after)%Z)
        then let* w := sys_close w fd in Ok (w, inl ENOLINK)
        else Ok (w, inr (st_size after))
    end.

  (** libutils/file_lib.c:541-810 safe_open_create_perms: the truncation at the end *)
  Definition finish_open (w : world) (fd : nat) (trunc : bool) (final_size : option nat) : res (world * (errno + nat)) :=
    if trunc then
      match final_size with
      | None => Abort
      | Some O => Ok (w, inr fd)
      | Some _ =>
          let* ' (w, r) := sys_ftruncate E w fd in
          match r with
          | Some e => let* w := sys_close w fd in Ok (w, inl e)
          | None => Ok (w, inr fd)
          end
      end
    else Ok (w, inr fd).

  (** libutils/file_lib.c:541-810 safe_open_create_perms: the last component, [attempts] left *)
  Fixpoint last_component (attempts : nat) (w : world) (currentfd : nat) (component slashes : list byte) (orig : flags) (perms : Z)
    : res (world * (errno + nat)) :=
    let trunc := O_WR orig && O_TRUNC orig in
    let fl := if trunc then mkFlags (O_WR orig) (O_CREAT orig) (O_EXCL orig) false else orig in
    let* ' (w, before) := sys_fstatat E w (Fd currentfd) component in
    match before with
    | inl e =>
        if (match e with ENOENT => true | _ => false end) && O_CREAT fl then
          massert (O_CREAT fl)
          (let fl := mkFlags (O_WR fl) (O_CREAT fl) true (O_TRUNC fl) in
           let* ' (w, r) := sys_openat E w (Fd currentfd) (component ++ slashes) fl perms in
           match r with
           | inl e =>
               if negb (O_EXCL orig) && (match e with EEXIST => true | _ => false end) then
                 match attempts with
                 | S a => last_component a w currentfd component slashes orig perms
                 | O => let* w := sys_close w currentfd in Ok (w, inl EACCES)
                 end
               else let* w := sys_close w currentfd in Ok (w, inl e)
           | inr filefd => let* w := sys_close w currentfd in finish_open w filefd false None
           end)
        else let* w := sys_close w currentfd in Ok (w, inl e)
    | inr before =>
        if O_CREAT fl && O_EXCL fl then let* w := sys_close w currentfd in Ok (w, inl EEXIST)
        else
          let fl := mkFlags (O_WR fl) false (O_EXCL fl) (O_TRUNC fl) in
          let* ' (w, r) := sys_openat E w (Fd currentfd) (component ++ slashes) fl perms in
          match r with
          | inl e =>
              if O_CREAT orig && (match e with ENOENT => true | _ => false end) then
                match attempts with
                | S a => last_component a w currentfd component slashes orig perms
                | O => let* w := sys_close w currentfd in Ok (w, inl EACCES)
                end
              else let* w := sys_close w currentfd in Ok (w, inl e)
          | inr filefd =>
              let* w := sys_close w currentfd in
              let* ' (w, r) := verify w filefd before in
              match r with inl e => Ok (w, inl e) | inr size => finish_open w filefd trunc (Some size) end
          end
    end.

  (** libutils/file_lib.c:541-810 safe_open_create_perms: the loop over the components *)
  Fixpoint components_loop (fuel : nat) (w : world) (currentfd : nat) (path : list byte) (orig : flags) (perms : Z)
    : res (world * (errno + nat)) :=
    match fuel with
    | O => Fuel
    | S fuel =>
        let '(component, next, slashes) := next_component path in
        match next with
        | None => last_component 3 w currentfd component slashes orig perms
        | Some path =>
            let* ' (w, before) := sys_fstatat E w (Fd currentfd) component in
            match before with
            | inl e => let* w := sys_close w currentfd in Ok (w, inl e)
            | inr before =>
                let* ' (w, r) := sys_openat E w (Fd currentfd) component RDONLY 0 in
                let* w := sys_close w currentfd in
                match r with
                | inl e => Ok (w, inl e)
                | inr newfd =>
                    let* ' (w, r) := verify w newfd before in
                    match r with inl e => Ok (w, inl e) | inr _ => components_loop fuel w newfd path orig perms end
                end
            end
        end
    end.

  (** libutils/file_lib.c:541-810 safe_open_create_perms; a NULL path is left out *)
  Definition safe_open_create_perms (w : world) (pathname : list byte) (fl : flags) (perms : Z) : res (world * (errno + nat)) :=
    massert (negb (O_TRUNC fl) || O_WR fl)
    (match pathname with
     | [] => Ok (w, inl ENOENT)
     | _ =>
         let first_dir := if absolute pathname then [SLASH] else DOT in
         let path := if absolute pathname then drop_slashes pathname else pathname in
         let* ' (w, r) := sys_openat E w AT_FDCWD first_dir RDONLY 0 in
         match r with
         | inl e => Ok (w, inl e)
         | inr currentfd =>
             match path with
             | [] => Ok (w, inr currentfd)
             | _ => components_loop (S (length path)) w currentfd path fl perms
             end
         end
     end).

  (** CF_PERMS_DEFAULT, libutils/definitions.h:66: S_IRUSR | S_IWUSR *)
  Definition CF_PERMS_DEFAULT : Z := 384.
  (** libutils/file_lib.c:516-519 safe_open *)
  Definition safe_open (w : world) (pathname : list byte) (fl : flags) : res (world * (errno + nat)) :=
    safe_open_create_perms w pathname fl CF_PERMS_DEFAULT.
  (** libutils/file_lib.c:1203-1208 safe_creat *)
  Definition safe_creat (w : world) (pathname : list byte) (mode : Z) : res (world * (errno + nat)) :=
    safe_open_create_perms w pathname (mkFlags true true false true) mode.

  (** POSIX dirname(3) and basename(3) (libgen.h, libc) *)
  Definition rstrip (s : list byte) : list byte := rev (drop_slashes (rev s)).
  Definition basename (s : list byte) : list byte :=
    match s with
    | [] => DOT
    | _ => match rstrip s with
           | [] => [SLASH]
           | t => rev (fst (span (fun c => negb (beq c SLASH)) (rev t)))
           end
    end.
  Definition dirname (s : list byte) : list byte :=
    match s with
    | [] => DOT
    | _ => match rstrip s with
           | [] => [SLASH]
           | t => match snd (span (fun c => negb (beq c SLASH)) (rev t)) with
                  | [] => DOT
                  | r => match drop_slashes r with [] => [SLASH] | r => rev r end
                  end
           end
    end.

  (** libutils/file_lib.c:44 SYMLINK_MAX_DEPTH *)
  Definition SYMLINK_MAX_DEPTH : nat := 32.

  (** libutils/file_lib.c:945-1046 safe_open_true_parent_dir; [nofollow]: AT_SYMLINK_NOFOLLOW in
      flags; [link]: owner and group of the link traversed, None: traversed_link is false.
      The buffers of the strings are left out (xstrdup, xmalloc, xasprintf); loop_countdown
      starts above 0. *)
  Fixpoint safe_open_true_parent_dir (loop_countdown : nat) (w : world) (path : list byte) (nofollow : bool) (link : option (Z * Z))
    : res (world * (errno + nat)) :=
    let parent_dir := dirname path in
    let leaf := basename path in
    let* ' (w, r) := safe_open w parent_dir RDONLY in
    match r with
    | inl e => Ok (w, inl e)
    | inr dirfd =>
        let* ' (w, r) := sys_fstatat E w (Fd dirfd) leaf in
        match r with
        | inl e => let* w := sys_close w dirfd in Ok (w, inl e)
        | inr statbuf =>
            if match link with
               | Some (u, g) => negb (u =? 0)%Z && negb (u =? euid E)%Z && (negb (u =? st_uid statbuf)%Z || negb (g =? st_gid statbuf)%Z)
               | None => false
               end
            then let* w := sys_close w dirfd in Ok (w, inl ENOLINK)
            else if S_ISLNK statbuf && negb nofollow then
              match loop_countdown with
              | S (S _ as countdown) =>
                  let* ' (w, r) := sys_readlinkat E w (Fd dirfd) leaf (st_size statbuf + 1) in
                  match r with
                  | inl _ => let* w := sys_close w dirfd in Ok (w, inl ENOLINK)
                  | inr link =>
                      if st_size statbuf <? length link then let* w := sys_close w dirfd in Ok (w, inl ENOLINK)
                      else
                        let resolved_link := if absolute link then link else parent_dir ++ [SLASH] ++ link in
                        let* ' (w, r) := safe_open_true_parent_dir countdown w resolved_link nofollow
                                           (Some (st_uid statbuf, st_gid statbuf)) in
                        let* w := sys_close w dirfd in Ok (w, r)
                  end
              | _ => let* w := sys_close w dirfd in Ok (w, inl ELOOP)
              end
            else Ok (w, inr dirfd)
        end
    end.

  (** libutils/file_lib.c:1063-1082 safe_chown_impl; None: success *)
  Definition safe_chown_impl (w : world) (path : list byte) (owner group : Z) (nofollow : bool) : res (world * option errno) :=
    let* ' (w, r) := safe_open_true_parent_dir SYMLINK_MAX_DEPTH w path nofollow None in
    match r with
    | inl e => Ok (w, Some e)
    | inr dirfd =>
        let leaf := basename path in
        let* ' (w, ret) := sys_lchownat E w (Fd dirfd) leaf owner group in
        let* w := sys_close w dirfd in
        Ok (w, ret)
    end.
  (** libutils/file_lib.c:1093-1100 safe_chown *)
  Definition safe_chown (w : world) (path : list byte) (owner group : Z) : res (world * option errno) :=
    safe_chown_impl w path owner group false.
  (** libutils/file_lib.c:1110-1113 safe_lchown *)
  Definition safe_lchown (w : world) (path : list byte) (owner group : Z) : res (world * option errno) :=
    safe_chown_impl w path owner group true.

  (** seteuid(2): root may become anybody, others only themselves *)
  Definition sys_seteuid (w : world) (uid : Z) : world * option errno :=
    let '(w, fail) := enter E w in
    match fail with
    | Some e => (w, Some e)
    | None => if (euid E =? 0)%Z || (euid E =? uid)%Z then (w, None) else (w, Some EPERM)
    end.

  (** libutils/file_lib.c:1122-1195 safe_chmod; setting the effective user back cannot fail here *)
  Definition safe_chmod (w : world) (path : list byte) (mode : Z) : res (world * option errno) :=
    let leaf := basename path in
    let* ' (w, r) := safe_open_true_parent_dir SYMLINK_MAX_DEPTH w path false None in
    match r with
    | inl e => Ok (w, Some e)
    | inr dirfd =>
        let* ' (w, r) := sys_fstatat E w (Fd dirfd) leaf in
        match r with
        | inl e => let* w := sys_close w dirfd in Ok (w, Some e)
        | inr statbuf =>
            match st_kind statbuf with
            | Fifo | Sock =>
                let '(w, r) := sys_seteuid w (st_uid statbuf) in
                match r with
                | Some e => let* w := sys_close w dirfd in Ok (w, Some e)
                | None =>
                    let* ' (w, ret) := sys_fchmodat E (st_uid statbuf) w (Fd dirfd) leaf mode in
                    let* w := sys_close w dirfd in Ok (w, ret)
                end
            | _ =>
                let* ' (w, r) := safe_open w path RDONLY in
                match r with
                | inl e => let* w := sys_close w dirfd in Ok (w, Some e)
                | inr file_fd =>
                    let* ' (w, ret) := sys_fchmod E w file_fd mode in
                    let* w := sys_close w file_fd in
                    let* w := sys_close w dirfd in
                    Ok (w, ret)
                end
            end
        end
    end.

  (** fchdir(2) *)
  Definition sys_fchdir (w : world) (fd : nat) : res (world * option errno) :=
    let '(w, fail) := enter E w in
    let* i := inode_of w (Fd fd) in
    match fail with
    | Some e => Ok (w, Some e)
    | None =>
        if is_dir (wfs w) i
        then Ok (with_fs w (mkFs (inodes (wfs w)) (rootdir (wfs w)) i (nextino (wfs w))), None)
        else Ok (w, Some ENOTDIR)
    end.
  (** libutils/file_lib.c:903-921 safe_chdir *)
  Definition safe_chdir (w : world) (path : list byte) : res (world * option errno) :=
    let* ' (w, r) := safe_open w path RDONLY in
    match r with
    | inl e => Ok (w, Some e)
    | inr fd => let* ' (w, ret) := sys_fchdir w fd in let* w := sys_close w fd in Ok (w, ret)
    end.

  (** libutils/file_lib.c:832-896 safe_fopen_create_perms: the open flags of a mode string; None: the
      ProgrammingError.  O_BINARY and O_TEXT are 0 on Unix, O_RDONLY is 0. *)
  Fixpoint fopen_flags (mode : list byte) (fl : flags) : option flags :=
    match mode with
    | [] => Some fl
    | c :: mode =>
        if beq c "r"%char then fopen_flags mode fl
        else if beq c "w"%char then fopen_flags mode (mkFlags true true (O_EXCL fl) true)
        else if beq c "a"%char then fopen_flags mode (mkFlags true true (O_EXCL fl) (O_TRUNC fl))
        else if beq c "+"%char then fopen_flags mode (mkFlags true (O_CREAT fl) (O_EXCL fl) (O_TRUNC fl))
        else if beq c "b"%char || beq c "t"%char then fopen_flags mode fl
        else if beq c "x"%char then fopen_flags mode (mkFlags (O_WR fl) (O_CREAT fl) true (O_TRUNC fl))
        else None
    end.
End SafeOpen.
