(** Model of libcompat/generic_at.c with libcompat/openat.c, fstatat.c, fchmodat.c, fchownat.c and readlinkat.c: any number of
    threads of a process that call these functions, step by step.

    A descriptor refers to an object; [open], [fchdir] and the system call that does the work can fail.  What is logged is left out, and
    errno; that locking never fails (UnexpectedError) is taken for granted. *)
From Verif Require Import Prelude.
Set Implicit Arguments.

Definition obj := nat.
(** the descriptors of the process and what they refer to *)
Definition table := list (nat * obj).
Definition refers (t : table) (fd : nat) (x : obj) : Prop := In (fd, x) t.
Definition fds (t : table) : list nat := map fst t.
Definition without (t : table) (fd : nat) : table := filter (fun e => negb (fst e =? fd)) t.

(** the dirfd of a call; whether it is openat, or one of the others (whose cleanup does nothing) *)
Inductive dirfd := CWD | FD (n : nat).
Inductive kind := KOpen | KOther.

(** libcompat/generic_at.c:67-140 generic_at_function: where a thread is *)
Inductive pc :=
| Idle                                                       (* outside of these functions *)
| Start (d : dirfd) (k : kind)                               (* pthread_mutex_lock *)
| Locked (d : dirfd) (k : kind)
| Saved (n : nat) (k : kind) (cwd : nat)                     (* cwd = open(".", O_RDONLY) succeeded *)
| OpenFailed (d : dirfd) (k : kind)                          (* ... failed, or fchdir(dirfd) failed and cwd is closed *)
| ChdirFailed (n : nat) (k : kind) (cwd : nat)
| Inside (n : nat) (k : kind) (cwd : nat)                    (* fchdir(dirfd) succeeded *)
| Called (d : dirfd) (k : kind) (cwd : option nat) (r : option nat)   (* result = func(data): None is -1; for openat the descriptor *)
| Back (d : dirfd) (k : kind) (cwd : nat) (r : option nat) (ok : bool)   (* fchdir(cwd) *)
| Closed (d : dirfd) (k : kind) (r : option nat) (ok : bool)    (* close(cwd) *)
| Unlocked (d : dirfd) (k : kind) (r : option nat) (ok : bool).

(** whether the thread has the lock *)
Definition critical (p : pc) : bool :=
  match p with Idle | Start _ _ | Unlocked _ _ _ _ => false | _ => true end.
(** the descriptors that belong to a call in progress: its cwd and the one openat will return *)
Definition result (k : kind) (r : option nat) : list nat := match k, r with KOpen, Some fd => [fd] | _, _ => [] end.
Definition held (p : pc) : list nat :=
  match p with
  | Idle | Start _ _ | Locked _ _ | OpenFailed _ _ => []
  | Saved _ _ c | ChdirFailed _ _ c | Inside _ _ c => [c]
  | Called _ k c r => match c with Some c => [c] | None => [] end ++ result k r
  | Back _ k c r _ => c :: result k r
  | Closed _ k r _ | Unlocked _ k r _ => result k r
  end.
(** the descriptor a call in progress was given *)
Definition given (p : pc) : list nat :=
  match p with
  | Start (FD n) _ | Locked (FD n) _ | Saved n _ _ | Inside n _ _ => [n]
  | _ => []
  end.

Record state := mkState { cwd : obj; files : table; lock : option nat; threads : list pc }.

(** what is observed: thread t begins a call; its system call is made in directory [dir]; fchdir to the former directory
    failed; the call returns (None: -1).  The program itself opens or closes a descriptor. *)
Inductive label :=
| Tau | Begins (t : nat) (d : dirfd) (k : kind) | Runs (t : nat) (d : dirfd) (dir : obj) (r : option nat) | Lost (t : nat)
| Returns (t : nat) (d : dirfd) (k : kind) (r : option nat) | Opens (fd : nat) | Closes (fd : nat).

(** the system call a function makes: open gives a new descriptor or fails, the others change no descriptor *)
Definition syscall (k : kind) (t : table) (r : option nat) (t' : table) : Prop :=
  match k, r with
  | KOpen, Some fd => ~ In fd (fds t) /\ exists x, t' = (fd, x) :: t
  | _, _ => t' = t
  end.

Inductive step : state -> label -> state -> Prop :=
| s_begin w f l a d k b : step (mkState w f l (a ++ Idle :: b)) (Begins (length a) d k) (mkState w f l (a ++ Start d k :: b))
| s_lock w f a d k b : step (mkState w f None (a ++ Start d k :: b)) Tau (mkState w f (Some (length a)) (a ++ Locked d k :: b))
(* dirfd == AT_FDCWD *)
| s_call_cwd w f l a k b r f' : syscall k f r f' ->
    step (mkState w f l (a ++ Locked CWD k :: b)) (Runs (length a) CWD w r) (mkState w f' l (a ++ Called CWD k None r :: b))
| s_unlock_cwd w f l a k r b :
    step (mkState w f l (a ++ Called CWD k None r :: b)) Tau (mkState w f None (a ++ Unlocked CWD k r true :: b))
(* dirfd != AT_FDCWD *)
| s_open w f l a n k b fd : ~ In fd (fds f) ->
    step (mkState w f l (a ++ Locked (FD n) k :: b)) Tau (mkState w ((fd, w) :: f) l (a ++ Saved n k fd :: b))
| s_open_fails w f l a n k b :
    step (mkState w f l (a ++ Locked (FD n) k :: b)) Tau (mkState w f l (a ++ OpenFailed (FD n) k :: b))
| s_chdir w f l a n k fd b x : refers f n x ->
    step (mkState w f l (a ++ Saved n k fd :: b)) Tau (mkState x f l (a ++ Inside n k fd :: b))
| s_chdir_fails w f l a n k fd b :
    step (mkState w f l (a ++ Saved n k fd :: b)) Tau (mkState w f l (a ++ ChdirFailed n k fd :: b))
| s_close_failed w f l a n k fd b :
    step (mkState w f l (a ++ ChdirFailed n k fd :: b)) Tau (mkState w (without f fd) l (a ++ OpenFailed (FD n) k :: b))
| s_give_up w f l a d k b :
    step (mkState w f l (a ++ OpenFailed d k :: b)) (Returns (length a) d k None) (mkState w f None (a ++ Idle :: b))
| s_call w f l a n k fd b r f' : syscall k f r f' ->
    step (mkState w f l (a ++ Inside n k fd :: b)) (Runs (length a) (FD n) w r) (mkState w f' l (a ++ Called (FD n) k (Some fd) r :: b))
| s_back w f l a d k fd r b x : refers f fd x ->
    step (mkState w f l (a ++ Called d k (Some fd) r :: b)) Tau (mkState x f l (a ++ Back d k fd r true :: b))
| s_back_fails w f l a d k fd r b :
    step (mkState w f l (a ++ Called d k (Some fd) r :: b)) (Lost (length a)) (mkState w f l (a ++ Back d k fd r false :: b))
| s_close w f l a d k fd r ok b :
    step (mkState w f l (a ++ Back d k fd r ok :: b)) Tau (mkState w (without f fd) l (a ++ Closed d k r ok :: b))
| s_unlock w f l a d k r ok b :
    step (mkState w f l (a ++ Closed d k r ok :: b)) Tau (mkState w f None (a ++ Unlocked d k r ok :: b))
| s_return w f l a d k r b :
    step (mkState w f l (a ++ Unlocked d k r true :: b)) (Returns (length a) d k r) (mkState w f l (a ++ Idle :: b))
(* cleanup(data): libcompat/openat.c:51-58 cleanup closes the descriptor *)
| s_cleanup w f l a d k r b :
    step (mkState w f l (a ++ Unlocked d k r false :: b)) (Returns (length a) d k None)
      (mkState w (match k, r with KOpen, Some fd => without f fd | _, _ => f end) l (a ++ Idle :: b))
(* the program opens a file, or closes a descriptor that is its own and that it does not use in a call meanwhile *)
| s_opens w f l ths fd x : ~ In fd (fds f) -> step (mkState w f l ths) (Opens fd) (mkState w ((fd, x) :: f) l ths)
| s_closes w f l ths fd : In fd (fds f) -> ~ In fd (concat (map held ths)) -> ~ In fd (concat (map given ths)) ->
    step (mkState w f l ths) (Closes fd) (mkState w (without f fd) l ths).

Inductive runs (s0 : state) : list label -> state -> Prop :=
| r_nil : runs s0 [] s0
| r_step ls s l s' : runs s0 ls s -> step s l s' -> runs s0 (ls ++ [l]) s'.

(** a process of [n] threads in directory [home] with descriptors [f] *)
Definition initial (home : obj) (f : table) (n : nat) : state := mkState home f None (repeat Idle n).
