(** Model of the file locks of libutils/file_lib.c, on POSIX advisory record locks (fcntl(2)).

    Each process makes its calls one after the other; calls of different processes interleave at
    every system call.  A call is a program that issues system calls and goes on with their answers.
    A process may end (exit, or be killed) at any moment, also in the middle of a call.
    Simplifications: processes touch lock files only through these functions; the
    descriptor is closed also when close(2) reports an error (as on Linux); safe_open (C86-C90) opens
    the file the path names or fails; each path names one file; logging is left out. *)
From Verif Require Import Prelude Str.
Set Implicit Arguments.

Definition pid := nat.
Definition inode := nat.
Definition path := list byte.
Inductive mode := Shared | Exclusive.

(** ** The operating system *)
Inductive syscall :=
| Open (p : path) (write : bool)            (* safe_open(p, O_CREAT|O_RDWR) or O_CREAT|O_RDONLY *)
| SetLk (fd : nat) (m : mode) (wait : bool) (* fcntl F_SETLK, F_SETLKW with F_RDLCK, F_WRLCK, whole file *)
| Unlk (fd : nat)                           (* fcntl F_SETLK with F_UNLCK *)
| GetLk (fd : nat)                          (* fcntl F_GETLK with F_WRLCK *)
| Close (fd : nat).
Inductive errno := EINTR | Other.
(** answers: a number, for [GetLk] 1 if the lock could be placed (F_UNLCK) and 0 if not *)
Definition answer := (nat + errno)%type.

(** open descriptors of each process, and for each file its locks *)
Record os := mkOs { fds : pid -> list (nat * inode); held : inode -> pid -> option mode }.
Definition fd_file (o : os) (p : pid) (fd : nat) : option inode :=
  match find (fun x => fst x =? fd) (fds o p) with Some x => Some (snd x) | None => None end.
Definition set_fds (o : os) (p : pid) (l : list (nat * inode)) : os := mkOs (fun q => if q =? p then l else fds o q) (held o).
Definition set_held (o : os) (i : inode) (p : pid) (m : option mode) : os :=
  mkOs (fds o) (fun j q => if (j =? i) && (q =? p) then m else held o j q).
(** another process has a lock that excludes [m] *)
Definition conflict (o : os) (i : inode) (p : pid) (m : mode) : Prop :=
  exists q, q <> p /\ match held o i q with Some Exclusive => True | Some Shared => m = Exclusive | None => False end.

Section WithFiles.
Variable file_of : path -> inode.
(** POSIX fcntl(2), close(2): a conflicting [SetLk] with [wait] makes no step until the conflict is
    gone or it is interrupted *)
Inductive sys (p : pid) : syscall -> os -> answer -> os -> Prop :=
| sys_open o f w fd : ~ In fd (map fst (fds o p)) -> sys p (Open f w) o (inl fd) (set_fds o p ((fd, file_of f) :: fds o p))
| sys_open_fail o f w : sys p (Open f w) o (inr Other) o
| sys_setlk o fd m w i : fd_file o p fd = Some i -> ~ conflict o i p m -> sys p (SetLk fd m w) o (inl 0) (set_held o i p (Some m))
| sys_setlk_fail o fd m w e : sys p (SetLk fd m w) o (inr e) o
| sys_unlk o fd i : fd_file o p fd = Some i -> sys p (Unlk fd) o (inl 0) (set_held o i p None)
| sys_unlk_fail o fd e : sys p (Unlk fd) o (inr e) o
| sys_getlk o fd i : fd_file o p fd = Some i -> ~ conflict o i p Exclusive -> sys p (GetLk fd) o (inl 1) o
| sys_getlk_conflict o fd i : fd_file o p fd = Some i -> conflict o i p Exclusive -> sys p (GetLk fd) o (inl 0) o
| sys_getlk_fail o fd e : sys p (GetLk fd) o (inr e) o
| sys_close o fd i r : fd_file o p fd = Some i ->
    sys p (Close fd) o r (set_held (set_fds o p (filter (fun x => negb (fst x =? fd)) (fds o p))) i p None)
| sys_close_bad o fd e : fd_file o p fd = None -> sys p (Close fd) o (inr e) o.
End WithFiles.

(** ** Programs.  [Ret r fd]: returns [r] and leaves [fd] in the FileLock (None: -1) *)
Inductive prog :=
| Ret (r : Z) (fd : option nat)
| Sys (s : syscall) (k : answer -> prog)
| Stop.  (* assertion failure, or more interruptions than considered *)

(** libutils/file_lib.c:1594-1627 LockFD, POSIX; [n] bounds the number of EINTR *)
Fixpoint LockFD (n : nat) (fd : nat) (m : mode) (wait : bool) (k : Z -> prog) : prog :=
  match n with
  | O => Stop
  | S n =>
      Sys (SetLk fd m wait) (fun a =>
        match a with
        | inl _ => k 0%Z
        | inr EINTR => if wait then LockFD n fd m wait k else k (-1)%Z
        | inr Other => k (-1)%Z
        end)
  end.
(** libutils/file_lib.c:1629-1646 UnlockFD *)
Definition UnlockFD (fd : nat) (k : Z -> prog) : prog :=
  Sys (Unlk fd) (fun a => match a with inl _ => k 0%Z | inr _ => k (-1)%Z end).
(** libutils/file_lib.c:1648-1654 ExclusiveFileLock; [lock] is the descriptor in the FileLock *)
Definition ExclusiveFileLock (n : nat) (lock : option nat) (wait : bool) : prog :=
  match lock with Some fd => LockFD n fd Exclusive wait (fun r => Ret r lock) | None => Stop end.
(** libutils/file_lib.c:1656-1662 SharedFileLock *)
Definition SharedFileLock (n : nat) (lock : option nat) (wait : bool) : prog :=
  match lock with Some fd => LockFD n fd Shared wait (fun r => Ret r lock) | None => Stop end.
(** libutils/file_lib.c:1664-1682 ExclusiveFileLockCheck; true is 1 *)
Definition ExclusiveFileLockCheck (lock : option nat) : prog :=
  match lock with
  | Some fd => Sys (GetLk fd) (fun a => match a with inr _ => Ret 0 lock | inl 1 => Ret 1 lock | inl _ => Ret 0 lock end)
  | None => Stop
  end.
(** libutils/file_lib.c:1684-1708 ExclusiveFileUnlock *)
Definition ExclusiveFileUnlock (lock : option nat) (close_fd : bool) : prog :=
  match lock with
  | Some fd =>
      if close_fd then Sys (Close fd) (fun a => match a with inr _ => Ret (-1) None | inl _ => Ret 0 None end)
      else UnlockFD fd (fun r => Ret r lock)
  | None => Stop
  end.
(** libutils/file_lib.c:1710-1717 SharedFileUnlock *)
Definition SharedFileUnlock (lock : option nat) (close_fd : bool) : prog :=
  match lock with Some _ => ExclusiveFileUnlock lock close_fd | None => Stop end.
(** libutils/file_lib.c:1808-1827 ExclusiveFileLockPath *)
Definition ExclusiveFileLockPath (n : nat) (lock : option nat) (fpath : path) (wait : bool) : prog :=
  match lock with
  | Some _ => Stop
  | None => Sys (Open fpath true) (fun a =>
      match a with
      | inr _ => Ret (-2) None
      | inl fd => LockFD n fd Exclusive wait (fun ret => Ret ret (if (ret =? 0)%Z then Some fd else None))
      end)
  end.
(** libutils/file_lib.c:1829-1848 SharedFileLockPath *)
Definition SharedFileLockPath (n : nat) (lock : option nat) (fpath : path) (wait : bool) : prog :=
  match lock with
  | Some _ => Stop
  | None => Sys (Open fpath false) (fun a =>
      match a with
      | inr _ => Ret (-2) None
      | inl fd => LockFD n fd Shared wait (fun ret => Ret ret (if (ret =? 0)%Z then Some fd else None))
      end)
  end.

(** ** Processes making calls on their FileLocks (numbered) *)
Inductive call :=
| LockPath (m : mode) (l : nat) (f : path) (wait : bool)
| Lock (m : mode) (l : nat) (wait : bool)
| Unlock (m : mode) (l : nat) (close_fd : bool)
| Check (l : nat).
Definition lock_of (c : call) : nat := match c with LockPath _ l _ _ | Lock _ l _ | Unlock _ l _ | Check l => l end.
(** the program of a call *)
Definition body (n : nat) (lock : option nat) (c : call) : prog :=
  match c with
  | LockPath Exclusive _ f w => ExclusiveFileLockPath n lock f w
  | LockPath Shared _ f w => SharedFileLockPath n lock f w
  | Lock Exclusive _ w => ExclusiveFileLock n lock w
  | Lock Shared _ w => SharedFileLock n lock w
  | Unlock Exclusive _ cl => ExclusiveFileUnlock lock cl
  | Unlock Shared _ cl => SharedFileUnlock lock cl
  | Check _ => ExclusiveFileLockCheck lock
  end.
(** [history]: the completed calls of the processes that have not ended, newest first *)
Record state := mkState { sys_state : os; mem : pid -> nat -> option nat; running : pid -> option (call * prog); history : list (pid * call * Z) }.
Definition start : state := mkState (mkOs (fun _ => []) (fun _ _ => None)) (fun _ _ => None) (fun _ => None) [].
Definition set_running (s : state) (p : pid) (r : option (call * prog)) : pid -> option (call * prog) := fun q => if q =? p then r else running s q.
(** POSIX _exit(2): the descriptors of the process are closed and its record locks removed; its number
    may be given to a new process, which has made no calls *)
Definition ended (s : state) (p : pid) : state :=
  mkState (mkOs (fun q => if q =? p then [] else fds (sys_state s) q) (fun i q => if q =? p then None else held (sys_state s) i q))
    (fun q l => if q =? p then None else mem s q l) (set_running s p None) (filter (fun x => negb (fst (fst x) =? p)) (history s)).
Section WithFiles2.
Variable file_of : path -> inode.
Inductive step : state -> state -> Prop :=
| step_call s p c n : running s p = None ->
    step s (mkState (sys_state s) (mem s) (set_running s p (Some (c, body n (mem s p (lock_of c)) c))) (history s))
| step_sys s p c sc k a o : running s p = Some (c, Sys sc k) -> sys file_of p sc (sys_state s) a o ->
    step s (mkState o (mem s) (set_running s p (Some (c, k a))) (history s))
| step_return s p c r fd : running s p = Some (c, Ret r fd) ->
    step s (mkState (sys_state s) (fun q l => if (q =? p) && (l =? lock_of c) then fd else mem s q l) (set_running s p None) ((p, c, r) :: history s))
| step_exit s p : step s (ended s p).
Inductive reachable : state -> Prop :=
| reach_start : reachable start
| reach_step s s' : reachable s -> step s s' -> reachable s'.
End WithFiles2.
