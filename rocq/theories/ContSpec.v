(** Specification vocabulary for ring buffer, stack and queue (C13-C15): histories
    of API calls and what plain lists answer.  [run_*] only sequences the calls. *)
From Verif Require Import Prelude ContModel.
Set Implicit Arguments.

Section Spec.
Variable A : Type.
Notation ptr := (option A).

(** the last n elements *)
Definition lastn (n : nat) (l : list ptr) : list ptr := skipn (length l - n) l.
Definition nonnull (l : list ptr) : list ptr :=
  filter (fun p => match p with Some _ => true | None => false end) l.

(** *** ring buffer *)
Inductive bop := BAppend (x : ptr) | BClear | BLength | BIsFull | BHead
  | BIterate (calls : nat)   (* a fresh iterator and that many RingBufferIteratorNext calls *).
Inductive bout := BUnit | BNat (n : nat) | BBool (b : bool) | BPtr (p : ptr) | BList (l : list ptr).
Definition run_bop (b : ring A) (o : bop) : res (ring A * bout) :=
  match o with
  | BAppend x => let* b := RingBufferAppend b x in Ok (b, BUnit)
  | BClear => let* b := RingBufferClear b in Ok (b, BUnit)
  | BLength => Ok (b, BNat (RingBufferLength b))
  | BIsFull => Ok (b, BBool (RingBufferIsFull b))
  | BHead => let* p := RingBufferHead b in Ok (b, BPtr p)
  | BIterate n => let* l := ring_iterate b n 0 in Ok (b, BList l)
  end.
Fixpoint run_bops (b : ring A) (ops : list bop) : res (ring A * list bout) :=
  match ops with
  | [] => Ok (b, [])
  | o :: ops => let* ' (b, r) := run_bop b o in
                let* ' (b, rs) := run_bops b ops in Ok (b, r :: rs)
  end.
(** specification: the state is the list of all items appended since the last clear *)
Definition spec_bop (cap : nat) (l : list ptr) (o : bop) : list ptr * bout :=
  match o with
  | BAppend x => (l ++ [x], BUnit)
  | BClear => ([], BUnit)
  | BLength => (l, BNat (Nat.min cap (length l)))
  | BIsFull => (l, BBool (cap <=? length l))
  | BHead => (l, BPtr (last l None))
  | BIterate n => (l, BList (firstn n (lastn cap l ++ repeat None n)))
  end.
Fixpoint spec_bops (cap : nat) (l : list ptr) (ops : list bop) : list ptr * list bout :=
  match ops with
  | [] => (l, [])
  | o :: ops => let (l, r) := spec_bop cap l o in
                let (l, rs) := spec_bops cap l ops in (l, r :: rs)
  end.
Fixpoint appended (ops : list bop) : list ptr :=
  match ops with [] => [] | BAppend x :: os => x :: appended os | _ :: os => appended os end.

(** *** stack *)
Inductive sop := SPush (x : ptr) | SPushReport (x : ptr) | SPop | STop | SCount | SEmpty | SCopy
  (* SCopy: go on with the copy *).
Inductive sout := SUnit | SNat (n : nat) | SBool (b : bool) | SPtr (p : ptr).
Definition run_sop (s : stack A) (o : sop) : res (stack A * sout) :=
  match o with
  | SPush x => let* s := StackPush s x in Ok (s, SUnit)
  | SPushReport x => let* ' (s, n) := StackPushReportCount s x in Ok (s, SNat n)
  | SPop => let* ' (s, p) := StackPop s in Ok (s, SPtr p)
  | STop => let* p := StackTop s in Ok (s, SPtr p)
  | SCount => Ok (s, SNat (StackCount s))
  | SEmpty => Ok (s, SBool (StackIsEmpty s))
  | SCopy => let* s := StackCopy s in Ok (s, SUnit)
  end.
Fixpoint run_sops (s : stack A) (ops : list sop) : res (stack A * list sout) :=
  match ops with
  | [] => Ok (s, [])
  | o :: ops => let* ' (s, r) := run_sop s o in
                let* ' (s, rs) := run_sops s ops in Ok (s, r :: rs)
  end.
(** specification: a list whose head is the top *)
Definition spec_sop (l : list ptr) (o : sop) : list ptr * sout :=
  match o with
  | SPush x => (x :: l, SUnit)
  | SPushReport x => (x :: l, SNat (S (length l)))
  | SPop => match l with [] => ([], SPtr None) | x :: l => (l, SPtr x) end
  | STop => (l, SPtr (hd None l))
  | SCount => (l, SNat (length l))
  | SEmpty => (l, SBool (match l with [] => true | _ => false end))
  | SCopy => (l, SUnit)
  end.
Fixpoint spec_sops (l : list ptr) (ops : list sop) : list ptr * list sout :=
  match ops with
  | [] => (l, [])
  | o :: ops => let (l, r) := spec_sop l o in
                let (l, rs) := spec_sops l ops in (l, r :: rs)
  end.

(** *** queue *)
Inductive qop := QEnqueue (x : ptr) | QDequeue | QPeek | QCount | QEmpty.
Inductive qout := QUnit | QNat (n : nat) | QBool (b : bool) | QPtr (p : ptr).
Definition run_qop (q : queue A) (o : qop) : res (queue A * qout) :=
  match o with
  | QEnqueue x => let* q := QueueEnqueue q x in Ok (q, QUnit)
  | QDequeue => let* ' (q, p) := QueueDequeue q in Ok (q, QPtr p)
  | QPeek => let* p := QueueHead q in Ok (q, QPtr p)
  | QCount => Ok (q, QNat (QueueCount q))
  | QEmpty => Ok (q, QBool (QueueIsEmpty q))
  end.
Fixpoint run_qops (q : queue A) (ops : list qop) : res (queue A * list qout) :=
  match ops with
  | [] => Ok (q, [])
  | o :: ops => let* ' (q, r) := run_qop q o in
                let* ' (q, rs) := run_qops q ops in Ok (q, r :: rs)
  end.
(** specification: a list whose head is the oldest item; dequeuing or peeking an
    empty queue is undefined behaviour *)
Definition spec_qop (l : list ptr) (o : qop) : res (list ptr * qout) :=
  match o with
  | QEnqueue x => Ok (l ++ [x], QUnit)
  | QDequeue => match l with [] => UB | x :: l => Ok (l, QPtr x) end
  | QPeek => match l with [] => UB | x :: _ => Ok (l, QPtr x) end
  | QCount => Ok (l, QNat (length l))
  | QEmpty => Ok (l, QBool (match l with [] => true | _ => false end))
  end.
Fixpoint spec_qops (l : list ptr) (ops : list qop) : res (list ptr * list qout) :=
  match ops with
  | [] => Ok (l, [])
  | o :: ops => let* ' (l, r) := spec_qop l o in
                let* ' (l, rs) := spec_qops l ops in Ok (l, r :: rs)
  end.
End Spec.
Arguments BClear {A}. Arguments BLength {A}. Arguments BIsFull {A}. Arguments BHead {A}. Arguments BIterate {A}.
Arguments SPop {A}. Arguments STop {A}. Arguments SCount {A}. Arguments SEmpty {A}. Arguments SCopy {A}.
Arguments QDequeue {A}. Arguments QPeek {A}. Arguments QCount {A}. Arguments QEmpty {A}.
Arguments BUnit {A}. Arguments BNat {A}. Arguments BBool {A}. Arguments SUnit {A}. Arguments SNat {A}. Arguments SBool {A}.
Arguments QUnit {A}. Arguments QNat {A}. Arguments QBool {A}.
