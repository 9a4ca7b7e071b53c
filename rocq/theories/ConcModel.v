(** Threads, one mutex and condition variables: an interleaving semantics for the
    threaded_*.c modules.  A function body is a flow graph over program counters;
    every CAct is one C statement on the shared structure, and other threads may run
    between any two of them.  The lock, unlock, signal, broadcast and wait operations
    follow POSIX: spurious wake-ups are possible, a timed wait may time out at any
    moment, a waiter reacquires the mutex before it goes on, and any waiting thread
    may get the mutex next.  No proofs here. *)
From Verif Require Import Prelude.
Set Implicit Arguments.

Section Conc.
(** S: shared structure; L: program counters with locals; C: condition variables;
    Op: calls; R: results *)
Variables S L C Op R : Type.
Variable ceqb : C -> C -> bool.

Inductive cmd :=
| CLock (l : L)                                 (* mutex.c:29-38 ThreadLock / __ThreadLock *)
| CUnlock (l : L)                               (* mutex.c ThreadUnlock *)
| CAct (f : S -> res S) (k : S -> L)            (* one statement; k sees the state before it *)
| CSignal (c : C) (l : L)                       (* pthread_cond_signal *)
| CBroadcast (c : C) (l : L)                    (* pthread_cond_broadcast *)
| CWait (c : C) (timed : bool) (lok lto : L)    (* ThreadWait: lok if it returns 0, lto on timeout *)
| CRet (r : R).

Variable code : L -> cmd.
Variable entry : Op -> L.

(** a thread: between calls; running; asleep on a condition variable; or woken (or timed
    out) and waiting to get the mutex back *)
Inductive tstat :=
| Idle
| Run (op : Op) (l : L)
| Sleep (op : Op) (c : C) (timed : bool) (lok lto : L)
| Waking (op : Op) (c : C) (timedout : bool) (l : L).

Record mstate := mkM { sh : S; lk : option nat; th : list tstat }.
Inductive event := ECall (t : nat) (op : Op) | ERet (t : nat) (r : R).

Definition wake (c : C) (x : tstat) : tstat :=
  match x with
  | Sleep op c' tm lo lt => if ceqb c c' then Waking op c' false lo else x
  | _ => x
  end.
Definition sleeps_on (c : C) (x : tstat) : bool :=
  match x with Sleep _ c' _ _ _ => ceqb c c' | _ => false end.

Inductive step : mstate -> list event -> mstate -> Prop :=
| S_call s t op : nth_error (th s) t = Some Idle ->
    step s [ECall t op] (mkM (sh s) (lk s) (upd (th s) t (Run op (entry op))))
| S_ret s t op l r : nth_error (th s) t = Some (Run op l) -> code l = CRet r ->
    step s [ERet t r] (mkM (sh s) (lk s) (upd (th s) t Idle))
| S_lock s t op l l' : nth_error (th s) t = Some (Run op l) -> code l = CLock l' -> lk s = None ->
    step s [] (mkM (sh s) (Some t) (upd (th s) t (Run op l')))
| S_unlock s t op l l' : nth_error (th s) t = Some (Run op l) -> code l = CUnlock l' ->
    step s [] (mkM (sh s) None (upd (th s) t (Run op l')))
| S_act s t op l f k s' : nth_error (th s) t = Some (Run op l) -> code l = CAct f k -> f (sh s) = Ok s' ->
    step s [] (mkM s' (lk s) (upd (th s) t (Run op (k (sh s)))))
| S_signal_one s t op l c l' t2 x : nth_error (th s) t = Some (Run op l) -> code l = CSignal c l' ->
    nth_error (th s) t2 = Some x -> sleeps_on c x = true ->
    step s [] (mkM (sh s) (lk s) (upd (upd (th s) t (Run op l')) t2 (wake c x)))
| S_signal_none s t op l c l' : nth_error (th s) t = Some (Run op l) -> code l = CSignal c l' ->
    existsb (sleeps_on c) (th s) = false ->
    step s [] (mkM (sh s) (lk s) (upd (th s) t (Run op l')))
| S_broadcast s t op l c l' : nth_error (th s) t = Some (Run op l) -> code l = CBroadcast c l' ->
    step s [] (mkM (sh s) (lk s) (map (wake c) (upd (th s) t (Run op l'))))
| S_wait s t op l c tm lo lt : nth_error (th s) t = Some (Run op l) -> code l = CWait c tm lo lt ->
    step s [] (mkM (sh s) None (upd (th s) t (Sleep op c tm lo lt)))
| S_spurious s t op c tm lo lt : nth_error (th s) t = Some (Sleep op c tm lo lt) ->
    step s [] (mkM (sh s) (lk s) (upd (th s) t (Waking op c false lo)))
| S_timeout s t op c lo lt : nth_error (th s) t = Some (Sleep op c true lo lt) ->
    step s [] (mkM (sh s) (lk s) (upd (th s) t (Waking op c true lt)))
| S_relock s t op c b l : nth_error (th s) t = Some (Waking op c b l) -> lk s = None ->
    step s [] (mkM (sh s) (Some t) (upd (th s) t (Run op l))).

(** executions, with their observable history of calls and returns *)
Inductive steps : mstate -> list event -> mstate -> Prop :=
| steps_refl s : steps s [] s
| steps_app s h s1 e s2 : steps s h s1 -> step s1 e s2 -> steps s (h ++ e) s2.

(** n threads, none of them in a call *)
Definition minit (s : S) (n : nat) : mstate := mkM s None (repeat Idle n).

(** a thread is inside its critical section: its next statement reads or writes the
    shared structure, signals, waits or unlocks *)
Definition in_cs (x : tstat) : bool :=
  match x with
  | Run _ l => match code l with CUnlock _ | CAct _ _ | CSignal _ _ | CBroadcast _ _ | CWait _ _ _ _ => true | _ => false end
  | _ => false
  end.
(** the next statement of a running thread is undefined behaviour *)
Definition goes_wrong (s : S) (x : tstat) : Prop :=
  match x with
  | Run _ l => match code l with CAct f _ => forall s', f s <> Ok s' | _ => False end
  | _ => False
  end.
End Conc.
Arguments CLock {S L C R}. Arguments CUnlock {S L C R}. Arguments CAct {S L C R}. Arguments CSignal {S L C R}.
Arguments CBroadcast {S L C R}. Arguments CWait {S L C R}. Arguments CRet {S L C R}.
Arguments Idle {L C Op}. Arguments Run {L C Op}. Arguments Sleep {L C Op}. Arguments Waking {L C Op}.
Arguments ECall {Op R}. Arguments ERet {Op R}.

(** ** The specification machine: an atomic object.  Every call takes effect in one
    step between its call and its return. *)
Section Atomic.
Variables A Op R : Type.
Variable spec : A -> Op -> A -> R -> Prop.
Inductive astat := AIdle | APend (op : Op) | ADone (r : R).
Record amach := mkA { ab : A; ath : list astat }.
Inductive astep : amach -> list (event Op R) -> amach -> Prop :=
| A_call s t op : nth_error (ath s) t = Some AIdle ->
    astep s [ECall t op] (mkA (ab s) (upd (ath s) t (APend op)))
| A_effect s t op a' r : nth_error (ath s) t = Some (APend op) -> spec (ab s) op a' r ->
    astep s [] (mkA a' (upd (ath s) t (ADone r)))
| A_ret s t r : nth_error (ath s) t = Some (ADone r) ->
    astep s [ERet t r] (mkA (ab s) (upd (ath s) t AIdle)).
Inductive asteps : amach -> list (event Op R) -> amach -> Prop :=
| asteps_refl s : asteps s [] s
| asteps_app s h s1 e s2 : asteps s h s1 -> astep s1 e s2 -> asteps s (h ++ e) s2.
Definition ainit (a : A) (n : nat) : amach := mkA a (repeat AIdle n).
End Atomic.
Arguments AIdle {Op R}. Arguments APend {Op R}. Arguments ADone {Op R}.
