(** Model of libutils/mutex.c: ThreadLock, ThreadUnlock and ThreadWait on one mutex and one condition variable, called by any
    threads in any order.  What the three functions make of the results of pthread_mutex_lock, pthread_mutex_unlock,
    pthread_cond_wait and pthread_cond_timedwait is modelled line by line; these themselves are as POSIX describes them: any
    of them may fail with an error, condition waits may end without a reason, and the clock CLOCK_REALTIME may be set.
    The messages (on stderr, or through Log after a timeout) and the cleanup functions that DoCleanupAndExit runs are left out
    (see C88 and C99 for the latter). *)
From Verif Require Import Prelude.
Set Implicit Arguments.
Local Open Scope Z_scope.

(** libutils/mutex.h:30 *)
Definition THREAD_BLOCK_INDEFINITELY : Z := -1.
Definition ETIMEDOUT : Z := 110.

(** what a wrapper does once pthread has answered *)
Inductive action := Return (r : Z) | Exit (code : Z).
(** libutils/mutex.c:31-49 __ThreadLock, behind pthread_mutex_lock *)
Definition after_lock (result : Z) : action := if negb (result =? 0) then Exit 101 else Return 0.
(** libutils/mutex.c:51-68 __ThreadUnlock, behind pthread_mutex_unlock *)
Definition after_unlock (result : Z) : action := if negb (result =? 0) then Exit 101 else Return 0.
(** libutils/mutex.c:70-112 __ThreadWait: until when it waits (tv_nsec is left as the clock gives it, so whole seconds are enough) *)
Definition wait_until (now timeout : Z) : option Z :=
  if timeout =? THREAD_BLOCK_INDEFINITELY then None else Some (now + timeout).
(** libutils/mutex.c:70-112 __ThreadWait, behind the wait *)
Definition after_wait (result : Z) : action :=
  if negb (result =? 0) then (if result =? ETIMEDOUT then Return result else Exit 101) else Return result.

Inductive call := Lock | Unlock | Wait (timeout : Z).
Definition after (c : call) (result : Z) : action :=
  match c with Lock => after_lock result | Unlock => after_unlock result | Wait _ => after_wait result end.

(** where a thread is: outside of the three functions, in the pthread function, asleep on the condition, or woken with a result and
    waiting for the mutex *)
Inductive phase := Out | Called (c : call) | Asleep (timeout : Z) (deadline : option Z) | Woken (timeout result : Z).
(** what can be observed, with the time of a clock that nobody sets *)
Inductive event := Began (t : nat) (c : call) (at_ : Z) | Returned (t : nat) (c : call) (r at_ : Z) | ClockSet.
Inductive ending := Exited (code : Z) | Undefined.
Record st := mkSt { owner : option nat; phases : nat -> phase; real : Z; mono : Z; over : option ending; hist : list event }.

Definition put (f : nat -> phase) (t : nat) (p : phase) : nat -> phase := fun u => if (u =? t)%nat then p else f u.
(** the end of a call whose pthread function has left the mutex to [o] and answered [result] *)
Definition finish (s : st) (t : nat) (c : call) (o : option nat) (result : Z) : st :=
  match after c result with
  | Return r => mkSt o (put (phases s) t Out) (real s) (mono s) None (Returned t c r (mono s) :: hist s)
  | Exit code => mkSt o (phases s) (real s) (mono s) (Some (Exited code)) (hist s)
  end.

Section Steps.
  (** whether the mutex is of the type PTHREAD_MUTEX_ERRORCHECK *)
  Variable errorcheck : bool.
  Inductive step (s : st) : st -> Prop :=
  | S_begin t c : over s = None -> phases s t = Out ->
      step s (mkSt (owner s) (put (phases s) t (Called c)) (real s) (mono s) None (Began t c (mono s) :: hist s))
  (* pthread_mutex_lock *)
  | S_lock t : over s = None -> phases s t = Called Lock -> owner s = None -> step s (finish s t Lock (Some t) 0)
  | S_lock_error t e : over s = None -> phases s t = Called Lock -> e <> 0 -> step s (finish s t Lock (owner s) e)
  (* pthread_mutex_unlock *)
  | S_unlock t : over s = None -> phases s t = Called Unlock -> owner s = Some t -> step s (finish s t Unlock None 0)
  | S_unlock_error t e : over s = None -> phases s t = Called Unlock -> e <> 0 -> step s (finish s t Unlock (owner s) e)
  (* pthread_cond_wait and pthread_cond_timedwait; they give an error other than ETIMEDOUT without having released the mutex *)
  | S_sleep t timeout : over s = None -> phases s t = Called (Wait timeout) -> owner s = Some t ->
      step s (mkSt None (put (phases s) t (Asleep timeout (wait_until (real s) timeout))) (real s) (mono s) None (hist s))
  | S_wait_error t timeout e : over s = None -> phases s t = Called (Wait timeout) -> e <> 0 -> e <> ETIMEDOUT ->
      step s (finish s t (Wait timeout) (owner s) e)
  | S_wake t timeout d : over s = None -> phases s t = Asleep timeout d ->
      step s (mkSt (owner s) (put (phases s) t (Woken timeout 0)) (real s) (mono s) None (hist s))
  | S_timeout t timeout d : over s = None -> phases s t = Asleep timeout (Some d) -> d <= real s ->
      step s (mkSt (owner s) (put (phases s) t (Woken timeout ETIMEDOUT)) (real s) (mono s) None (hist s))
  | S_relock t timeout r : over s = None -> phases s t = Woken timeout r -> owner s = None -> step s (finish s t (Wait timeout) (Some t) r)
  (* a mutex of another type need not notice that a thread unlocks or waits with what it does not hold: anything may happen *)
  | S_undefined t c : over s = None -> errorcheck = false -> phases s t = Called c -> c <> Lock -> owner s <> Some t ->
      step s (mkSt (owner s) (phases s) (real s) (mono s) (Some Undefined) (hist s))
  (* time *)
  | S_tick n : over s = None -> 0 < n -> step s (mkSt (owner s) (phases s) (real s + n) (mono s + n) None (hist s))
  | S_set z : over s = None -> step s (mkSt (owner s) (phases s) z (mono s) None (ClockSet :: hist s)).

  Definition init (now : Z) : st := mkSt None (fun _ => Out) now 0 None [].
  Inductive reach (now : Z) : st -> Prop :=
  | R_init : reach now (init now)
  | R_step s s' : reach now s -> step s s' -> reach now s'.
End Steps.
