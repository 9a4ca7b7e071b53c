(** Model of libutils/alloc.c and, for what a failing allocation does, of libutils/cleanup.c run by one
    thread (CleanupModel.v has it with threads and with its list in memory).

    The C library's allocator is an oracle: each request for memory is granted or not.  Memory it
    gives is at an address never used before, also from realloc.  The registered functions are
    programs of a small language: they allocate, register functions, call DoCleanupAndExit, or do
    something else.  A thread that locks a mutex it has already locked (PTHREAD_MUTEX_INITIALIZER)
    waits for ever.  malloc in vasprintf is that of libcompat/snprintf.c. *)
From Verif Require Import Prelude Str Libc CompatModel PrintfModel.
Set Implicit Arguments.

Inductive action := Work (n : nat) | Allocate (size : nat) | RegisterOther (f : nat) | Quit (status : Z).
(** what other processes and the user see: bytes on stderr, what the functions do *)
Inductive event := Stderr (t : list byte) | Started (f : nat) | Worked (n : nat).
Record world := mkWorld {
  oracle : list bool;                 (* the next requests are granted or not; all further are *)
  heap : nat -> option (cells byte);  (* the blocks handed out and not freed *)
  next : nat;                         (* the next address never used *)
  functions : list nat;               (* cleanup_functions *)
  locked : bool;                      (* cleanup_functions_mutex *)
  trace : list event }.
Inductive outcome (A : Type) :=
| Cont (a : A) (w : world) | Exited (status : Z) (w : world) | Hangs (w : world)
| Wrong (* undefined behaviour *) | Deep (* more nested calls than considered *).
Arguments Exited {A}. Arguments Hangs {A}. Arguments Wrong {A}. Arguments Deep {A}.
Definition M A := world -> outcome A.
Definition ret {A} (a : A) : M A := fun w => Cont a w.
Definition bindM {A B} (x : M A) (f : A -> M B) : M B :=
  fun w => match x w with Cont a w => f a w | Exited s w => Exited s w | Hangs w => Hangs w | Wrong => Wrong | Deep => Deep end.
Notation "x >>= f" := (bindM x f) (at level 50, left associativity).
Definition emit (e : event) : M unit := fun w => Cont tt (mkWorld (oracle w) (heap w) (next w) (functions w) (locked w) (trace w ++ [e])).
(** the allocator's answer to the next request *)
Definition granted : M bool := fun w =>
  let '(b, o) := match oracle w with [] => (true, []) | b :: o => (b, o) end in
  Cont b (mkWorld o (heap w) (next w) (functions w) (locked w) (trace w)).
(** a new block with the content [c] *)
Definition put_block (c : cells byte) : M nat := fun w =>
  Cont (next w) (mkWorld (oracle w) (fun q => if q =? next w then Some c else heap w q) (S (next w)) (functions w) (locked w) (trace w)).
Definition drop_block (a : nat) : M unit := fun w =>
  Cont tt (mkWorld (oracle w) (fun q => if q =? a then None else heap w q) (next w) (functions w) (locked w) (trace w)).
(** what a function of the C library that makes one request leaves in the block it returns *)
Definition from_libc (f : bool -> res (option (cells byte))) : M (option nat) :=
  granted >>= fun b => match f b with
                       | Ok (Some c) => put_block c >>= fun a => ret (Some a)
                       | Ok None => ret None
                       | _ => fun _ => Wrong
                       end.
(* malloc(3), calloc(3) *)
Definition malloc (size : nat) : M (option nat) := from_libc (fun b => Ok (if b then Some (repeat None size) else None)).
Definition calloc (nmemb size : nat) : M (option nat) :=
  from_libc (fun b => Ok (if b && (N.of_nat (nmemb * size) <=? SIZE_MAX)%N then Some (repeat (Some NUL) (nmemb * size)) else None)).
(* realloc(3) of glibc: of size 0 it frees the block *)
Definition realloc (ptr : option nat) (size : nat) : M (option nat) :=
  match ptr with
  | None => malloc size
  | Some a => fun w =>
      match heap w a with
      | None => Wrong
      | Some old =>
          (granted >>= fun b =>
             if b then drop_block a >>= fun _ => put_block (arealloc old size) >>= fun q => ret (Some q)
             else if size =? 0 then drop_block a >>= fun _ => ret None else ret None) w
      end
  end.

Section Nested.
(** DoCleanupAndExit, as called from inside *)
Variable leave : forall A, Z -> M A.
Variable body : nat -> list action.
(** libutils/alloc.c:30-39 CheckResult *)
Definition CheckResult (ptr : option nat) (fn : list byte) (check_result : bool) : M (option nat) :=
  match ptr, check_result with
  | None, true => emit (Stderr fn) >>= fun _ => emit (Stderr (lit "CRITICAL: Unable to allocate memory" ++ ["010"%char])) >>= fun _ => leave _ 255%Z
  | _, _ => ret ptr
  end.
(** libutils/alloc.c:41-44 xmalloc *)
Definition xmalloc (size : nat) : M (option nat) := malloc size >>= fun p => CheckResult p (lit "xmalloc") (negb (size =? 0)).
(** libutils/alloc.c:46-49 xcalloc *)
Definition xcalloc (nmemb size : nat) : M (option nat) :=
  calloc nmemb size >>= fun p => CheckResult p (lit "xcalloc") (negb (nmemb =? 0) && negb (size =? 0)).
(** libutils/alloc.c:51-54 xrealloc *)
Definition xrealloc (ptr : option nat) (size : nat) : M (option nat) :=
  realloc ptr size >>= fun p => CheckResult p (lit "xrealloc") (negb (size =? 0)).
(** libutils/alloc.c:56-59 xstrdup *)
Definition xstrdup (str : cells byte) : M (option nat) := from_libc (fun b => strdup b str) >>= fun p => CheckResult p (lit "xstrdup") true.
(** libutils/alloc.c:61-64 xstrndup *)
Definition xstrndup (str : cells byte) (n : nat) : M (option nat) :=
  from_libc (fun b => strndup b str n) >>= fun p => CheckResult p (lit "xstrndup") true.
(** libutils/alloc.c:66-69 xmemdup *)
Definition xmemdup (data : cells byte) (size : nat) : M (option nat) :=
  from_libc (fun b => memdup b data size) >>= fun p => CheckResult p (lit "xmemdup") (negb (size =? 0)).
(** vasprintf(3), by the model of libcompat/snprintf.c: what is in *strp ([Some None]: NULL, [None]:
    what was there before) and the result *)
Definition vasprintf (fmt : list byte) (ap : list arg) : M (option (option nat) * Z) :=
  granted >>= fun b =>
    match rpl_vasprintf (fun n => if b then Some (repeat None n) else None) fmt ap with
    | Ok (Some (Some c), r) => put_block c >>= fun a => ret (Some (Some a), r)
    | Ok (Some None, r) => ret (Some None, r)
    | Ok (None, r) => ret (None, r)
    | _ => fun _ => Wrong
    end.
(** libutils/alloc.c:82-88 xvasprintf, xasprintf (71-80); the string in *strp and the result *)
Definition xvasprintf (fmt : list byte) (ap : list arg) : M (option nat * Z) :=
  vasprintf fmt ap >>= fun x =>
    let '(strp, res) := x in
    match (if (res =? -1)%Z then Some None else strp) with
    | Some p => CheckResult p (lit "xvasprintf") true >>= fun _ => match strp with Some p => ret (p, res) | None => fun _ => Wrong end
    | None => fun _ => Wrong   (* *strp read although nothing was stored *)
    end.

Definition lock : M unit := fun w => if locked w then Hangs w else Cont tt (mkWorld (oracle w) (heap w) (next w) (functions w) true (trace w)).
Definition unlock : M unit := fun w => Cont tt (mkWorld (oracle w) (heap w) (next w) (functions w) false (trace w)).
Definition set_functions (l : list nat) : M unit := fun w => Cont tt (mkWorld (oracle w) (heap w) (next w) l (locked w) (trace w)).
(** libutils/cleanup.c:63-74 RegisterCleanupFunction; CleanupList has 16 bytes *)
Definition RegisterCleanupFunction (f : nat) : M unit :=
  lock >>= fun _ => xmalloc 16 >>= fun _ => (fun w => set_functions (f :: functions w) w) >>= fun _ => unlock.
(** a registered function *)
Fixpoint perform (l : list action) : M unit :=
  match l with
  | [] => ret tt
  | Work n :: l => emit (Worked n) >>= fun _ => perform l
  | Allocate size :: l => xmalloc size >>= fun _ => perform l
  | RegisterOther f :: l => RegisterCleanupFunction f >>= fun _ => perform l
  | Quit status :: _ => leave _ status
  end.
(** libutils/cleanup.c:39-55 CallCleanupFunctions *)
Fixpoint run_functions (l : list nat) : M unit :=
  match l with
  | [] => ret tt
  | f :: l => emit (Started f) >>= fun _ => perform (body f) >>= fun _ => run_functions l
  end.
Definition CallCleanupFunctions : M unit :=
  lock >>= fun _ => (fun w => run_functions (functions w) w) >>= fun _ => set_functions [] >>= fun _ => unlock.
End Nested.
(** libutils/cleanup.c:57-61 DoCleanupAndExit; [n]: how deep calls of it may nest *)
Fixpoint DoCleanupAndExit (n : nat) (body : nat -> list action) (A : Type) (status : Z) : M A :=
  match n with
  | O => fun _ => Deep
  | S n => CallCleanupFunctions (DoCleanupAndExit n body) body >>= fun _ => fun w => Exited status w
  end.
