(** Model of libutils/unicode.c, libcompat/unsetenv.c (SVR4), libcompat/mkdtemp.c and libcompat/closefrom.c (with /proc, and without). *)
From Verif Require Import Prelude Str Libc CompatModel InetModel.
Set Implicit Arguments.

(** ** unicode.c *)
(** int16_t is an integer from -32768 to 32767.  [size--] of 0 yields SIZE_MAX, which no array reaches: None. *)
Definition less_one (size : nat) : option nat := match size with O => None | S n => Some n end.
Definition below (c : nat) (size : option nat) : bool := match size with None => true | Some n => c <? n end.
(** libutils/unicode.c:27-36 ConvertFromCharToWChar: the loop; [src[c]] is a signed char *)
Fixpoint to_wide (fuel c : nat) (size : option nat) (dst : cells Z) (src : cells byte) : res (nat * cells Z) :=
  match fuel with
  | O => Fuel
  | S fuel =>
      if below c size then
        let* b := aget src c in
        if beq b NUL then Ok (c, dst)
        else let* dst := aset dst c (scode b) in to_wide fuel (S c) size dst src
      else Ok (c, dst)
  end.
(** libutils/unicode.c:27-36 ConvertFromCharToWChar *)
Definition ConvertFromCharToWChar (dst : cells Z) (src : cells byte) (size : nat) : res (cells Z) :=
  let* ' (c, dst) := to_wide (S (length src)) 0 (less_one size) dst src in
  aset dst c 0%Z.
(** libutils/unicode.c:38-58 ConvertFromWCharToChar: the loop *)
Fixpoint from_wide (fuel c : nat) (size : option nat) (dst : cells byte) (src : cells Z) (clean : bool) : res (nat * cells byte * bool) :=
  match fuel with
  | O => Fuel
  | S fuel =>
      if below c size then
        let* w := aget src c in
        if (w =? 0)%Z then Ok (c, dst, clean)
        else if ((w <? 0) || (256 <=? w))%Z then
               let* dst := aset dst c "_"%char in from_wide fuel (S c) size dst src false
             else let* dst := aset dst c (ascii_of_N (Z.to_N w)) in from_wide fuel (S c) size dst src clean
      else Ok (c, dst, clean)
  end.
(** libutils/unicode.c:38-58 ConvertFromWCharToChar *)
Definition ConvertFromWCharToChar (dst : cells byte) (src : cells Z) (size : nat) : res (bool * cells byte) :=
  let* ' (c, dst, clean) := from_wide (S (length src)) 0 (less_one size) dst src true in
  let* dst := aset dst c NUL in Ok (clean, dst).

(** ** unsetenv.c *)
(** environ: an array of strings, None is NULL *)
Definition env_at (environ : list (option (list byte))) (c : nat) : res (option (list byte)) :=
  match nth_error environ c with Some e => Ok e | None => UB end.
(** libcompat/unsetenv.c:43-66 unsetenv: whether *c is the variable; (( *c)[len] is the terminator if it is as long as the name) *)
Definition is_variable (name e : list byte) : bool :=
  strncmp_eq name e (length name) &&
  match nth_error (e ++ [NUL]) (length name) with Some b => beq b "="%char || beq b NUL | None => false end.
(** libcompat/unsetenv.c:43-66 unsetenv: the first loop *)
Fixpoint find_variable (fuel : nat) (name : list byte) (environ : list (option (list byte))) (c : nat) : res nat :=
  match fuel with
  | O => Fuel
  | S fuel =>
      let* e := env_at environ c in
      match e with
      | None => Ok c
      | Some e => if is_variable name e then Ok c else find_variable fuel name environ (S c)
      end
  end.
(** libcompat/unsetenv.c:43-66 unsetenv: the second loop *)
Fixpoint shift_values (fuel : nat) (environ : list (option (list byte))) (c : nat) : res (list (option (list byte))) :=
  match fuel with
  | O => Fuel
  | S fuel =>
      let* e := env_at environ c in
      match e with
      | None => Ok environ
      | Some _ => let* v := env_at environ (S c) in shift_values fuel (upd environ c v) (S c)
      end
  end.
(** libcompat/unsetenv.c:43-66 unsetenv; false is -1 with EINVAL *)
Definition unsetenv (name : option (list byte)) (environ : list (option (list byte))) : res (bool * list (option (list byte))) :=
  match name with
  | None | Some [] => Ok (false, environ)
  | Some n =>
      match strchr n "="%char with
      | Some _ => Ok (false, environ)
      | None =>
          let* c := find_variable (S (length environ)) n environ 0 in
          let* environ := shift_values (S (length environ)) environ c in
          Ok (true, environ)
      end
  end.

(** ** mkdtemp.c *)
Inductive made := Created | Exists | Failed.
Section Mkdtemp.
  (** what the i-th mkdir of a path answers *)
  Variable mkdir : N -> list byte -> made.
  (** libcompat/mkdtemp.c:28 MAXTRY *)
  Definition MAXTRY : N := 999999.
  (** the text of %06d for a number that is not negative *)
  Definition pad6 (i : N) : list byte := repeat "0"%char (6 - length (udec i)) ++ udec i.
  (** libcompat/mkdtemp.c:30-59 mkdtemp: the loop; [fds]: the open descriptors (mkdir returns 0, and close(0) is called).
      The result is whether template is returned, and otherwise whether errno is EEXIST *)
  Fixpoint mkdtemp_loop (fuel : nat) (i : N) (xxx : nat) (template : cells byte) (fds : list nat) : res (bool * bool * cells byte * list nat) :=
    match fuel with
    | O => Fuel
    | S fuel =>
        if (i <=? MAXTRY)%N then
          let* template := msnprintf template xxx 7 (pad6 i) in
          let* path := mstr template in
          match mkdir i path with
          | Created => Ok (true, false, template, filter (fun x => negb (x =? 0)) fds)
          | Failed => Ok (false, false, template, fds)
          | Exists => mkdtemp_loop fuel (i + 1) xxx template fds
          end
        else Ok (false, true, template, fds)
    end.
  (** libcompat/mkdtemp.c:30-59 mkdtemp *)
  Definition mkdtemp (template : cells byte) (fds : list nat) : res (bool * bool * cells byte * list nat) :=
    let* t := mstr template in
    let* xxx := strrstr t (lit "XXXXXX") in
    match xxx with
    | None => Ok (false, false, template, fds)
    | Some k => if bytes_eqb (skipn k t) (lit "XXXXXX")
                then mkdtemp_loop (S (S (N.to_nat MAXTRY))) 0 k template fds
                else Ok (false, false, template, fds)
    end.
End Mkdtemp.

(** ** closefrom.c *)
Section Closefrom.
  (** sscanf(name, "%i"): of decimal digits without a leading zero their number; of other text, what the C library makes of it *)
  Variable scan_other : list byte -> option Z.
  Definition scan_int (name : list byte) : option Z :=
    match name with
    | [] => None
    | c :: r => if forallb isdigit name && (negb (beq c "0"%char) || match r with [] => true | _ => false end)
                then Some (Z.of_N (undec name)) else scan_other name
    end.
  Definition close (fds : list Z) (n : Z) : list Z := filter (fun x => negb (x =? n)%Z) fds.
  (** libcompat/closefrom.c:37-120 closefrom: the loop over the directory; what is open then, and false for -1 *)
  Fixpoint close_entries (fd iter_fd : Z) (entries : list (list byte)) (fds : list Z) : bool * list Z :=
    match entries with
    | [] => (true, close fds iter_fd)
    | e :: entries =>
        if bytes_eqb e (lit ".") || bytes_eqb e (lit "..") then close_entries fd iter_fd entries fds
        else match scan_int e with
             | None => (false, close fds iter_fd)
             | Some curr_fd =>
                 close_entries fd iter_fd entries (if negb (curr_fd =? iter_fd)%Z && (fd <=? curr_fd)%Z then close fds curr_fd else fds)
             end
    end.
  (** libcompat/closefrom.c:37-120 closefrom: the loop without /proc, of [n] rounds *)
  Fixpoint close_range (n : nat) (curr_fd : Z) (fds : list Z) : list Z :=
    match n with O => fds | S n => close_range n (curr_fd + 1)%Z (close fds curr_fd) end.
  (** libcompat/closefrom.c:37-120 closefrom without F_CLOSEM and pstat.  [proc]: the descriptor opendir opened and the entries
      that are read, None if it fails; [max_fds]: sysconf(_SC_OPEN_MAX) *)
  Definition closefrom (proc : option (Z * list (list byte))) (max_fds fd : Z) (fds : list Z) : bool * list Z :=
    match proc with
    | Some (iter_fd, entries) => close_entries fd iter_fd entries (iter_fd :: fds)
    | None => (true, close_range (Z.to_nat (max_fds - fd)) fd fds)
    end.
End Closefrom.
