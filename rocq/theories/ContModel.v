(** Models of libutils/ring_buffer.c, libutils/stack.c (with stack_base.c) and
    libutils/queue.c.  No proofs here. *)
From Verif Require Import Prelude.
Set Implicit Arguments.

Section Ring.
Variable A : Type.
Notation ptr := (option A).
(** struct RingBuffer_ (ring_buffer.c:29-38); [rbdtor]: destroy is non-NULL; [rblog] is
    the ghost list of items passed to destroy.  The copy callback is the identity. *)
Record ring := mkRing { rbdata : cells ptr; rbcap : nat; rbend : nat; rblen : nat;
                        rbdtor : bool; rblog : list ptr }.

(** ring_buffer.c:46-61 RingBufferNew (the cells are xcalloc()ed, i.e. NULL) *)
Definition RingBufferNew (capacity : nat) (d : bool) : res ring :=
  massert (0 <? capacity)
    (Ok (mkRing (repeat (Some None) capacity) (Nat.max capacity 1) 0 0 d [])).

(** ring_buffer.c:63-77 RingBufferAppend *)
Definition RingBufferAppend (b : ring) (item : ptr) : res ring :=
  let* old := aget (rbdata b) (rbend b) in
  let log := match old with
             | Some _ => if rbdtor b then rblog b ++ [old] else rblog b
             | None => rblog b end in
  let* d := aset (rbdata b) (rbend b) item in
  let e := (rbend b + 1) mod rbcap b in
  let n := if rblen b <? rbcap b then S (rblen b) else rblen b in
  Ok (mkRing d (rbcap b) e n (rbdtor b) log).

(** loop of ring_buffer.c:79-95 RingBufferClear *)
Fixpoint ring_clear_loop (d : cells ptr) (i n : nat) (log : list ptr) : res (cells ptr * list ptr) :=
  match n with
  | O => Ok (d, log)
  | S n' =>
    let* x := aget d i in
    match x with
    | Some _ => let* d := aset d i None in ring_clear_loop d (S i) n' (log ++ [x])
    | None => ring_clear_loop d (S i) n' log
    end
  end.
(** ring_buffer.c:79-95 RingBufferClear *)
Definition RingBufferClear (b : ring) : res ring :=
  let* ' (d, log) := (if rbdtor b then ring_clear_loop (rbdata b) 0 (rbcap b) (rblog b)
                      else Ok (rbdata b, rblog b)) in
  Ok (mkRing d (rbcap b) 0 0 (rbdtor b) log).

(** ring_buffer.c:134-142 RingBufferDestroy: the final destroy log *)
Definition RingBufferDestroy (b : ring) : res (list ptr) :=
  let* b := RingBufferClear b in Ok (rblog b).

(** ring_buffer.c:97-100 RingBufferLength *)
Definition RingBufferLength (b : ring) : nat := rblen b.
(** ring_buffer.c:102-105 RingBufferIsFull *)
Definition RingBufferIsFull (b : ring) : bool := rblen b =? rbcap b.
(** ring_buffer.c:107-122 RingBufferHead *)
Definition RingBufferHead (b : ring) : res ptr :=
  if RingBufferLength b =? 0 then Ok None
  else if rbend b =? 0 then aget (rbdata b) (rbcap b - 1)
  else aget (rbdata b) (rbend b - 1).

(** ring_buffer.c:152-169 RingBufferIteratorNext; the iterator is num_read.  The C subtraction
    len - num_read is 0 (mod 2^64) iff the two are equal. *)
Definition RingBufferIteratorNext (b : ring) (num_read : nat) : res (ptr * nat) :=
  if rblen b =? num_read then Ok (None, num_read)
  else
    let offset := if RingBufferIsFull b then (rbend b + num_read) mod rbcap b else num_read in
    let* x := aget (rbdata b) offset in
    Ok (x, S num_read).

(** [n] successive calls of RingBufferIteratorNext: the values returned *)
Fixpoint ring_iterate (b : ring) (n num_read : nat) : res (list ptr) :=
  match n with
  | O => Ok []
  | S n' => let* ' (x, k) := RingBufferIteratorNext b num_read in
            let* l := ring_iterate b n' k in Ok (x :: l)
  end.
End Ring.

Section Stack.
Variable A : Type.
Notation ptr := (option A).
(** struct Stack_ (stack_base.c:47-52); [stlog] ghost list of ItemDestroy arguments.
    Simplification: the xcalloc()ed cells are treated as indeterminate (stricter). *)
Record stack := mkStack { stdata : cells ptr; stsize : nat; stcap : nat; stdtor : bool }.

(** stack_base.c:54-67 StackInit and stack.c:30-37 StackNew *)
Definition StackNew (initial_capacity : nat) (d : bool) : stack :=
  let c := if initial_capacity =? 0 then 16 else initial_capacity in
  mkStack (repeat None c) 0 c d.

(** loop of stack_base.c:76-92 DestroyRange *)
Fixpoint stack_destroy_loop (d : cells ptr) (i n : nat) : res (list ptr) :=
  match n with
  | O => Ok []
  | S n' => let* x := aget d i in
            let* r := stack_destroy_loop d (S i) n' in Ok (x :: r)
  end.
(** stack_base.c:76-92 DestroyRange: the items passed to ItemDestroy *)
Definition StackDestroyRange (s : stack) (start end_ : nat) : res (list ptr) :=
  if (stcap s <? start) || (stcap s <? end_) then Ok []
  else if stdtor s then stack_destroy_loop (stdata s) start (end_ - start) else Ok [].
(** stack.c:39-47 StackDestroy: the items passed to ItemDestroy *)
Definition StackDestroy (s : stack) : res (list ptr) := StackDestroyRange s 0 (stsize s).

(** stack.c:58-75 StackPop *)
Definition StackPop (s : stack) : res (stack * ptr) :=
  if 0 <? stsize s then
    let n := stsize s - 1 in
    let* x := aget (stdata s) n in
    let* d := aset (stdata s) n None in
    Ok (mkStack d n (stcap s) (stdtor s), x)
  else Ok (s, None).
(** stack.c:77-89 StackTop *)
Definition StackTop (s : stack) : res ptr :=
  if 0 <? stsize s then aget (stdata s) (stsize s - 1) else Ok None.
(** stack.c:96-106 ExpandIfNecessary *)
Definition StackExpand (s : stack) : res stack :=
  massert (stsize s <=? stcap s)
    (if stsize s =? stcap s
     then Ok (mkStack (arealloc (stdata s) (stcap s * 2)) (stsize s) (stcap s * 2) (stdtor s))
     else Ok s).
(** stack.c:108-114 StackPush *)
Definition StackPush (s : stack) (x : ptr) : res stack :=
  let* s := StackExpand s in
  let* d := aset (stdata s) (stsize s) x in
  Ok (mkStack d (S (stsize s)) (stcap s) (stdtor s)).
(** stack.c:116-125 StackPushReportCount *)
Definition StackPushReportCount (s : stack) (x : ptr) : res (stack * nat) :=
  let* s := StackExpand s in
  let* d := aset (stdata s) (stsize s) x in
  let s := mkStack d (S (stsize s)) (stcap s) (stdtor s) in
  Ok (s, stsize s).
(** stack.c:127-134 StackCount *)
Definition StackCount (s : stack) : nat := stsize s.
(** stack.c:145-152 StackIsEmpty *)
Definition StackIsEmpty (s : stack) : bool := stsize s =? 0.
(** stack.c:154-163 StackCopy *)
Definition StackCopy (s : stack) : res stack :=
  let* d := acopy (repeat None (stcap s)) 0 (stdata s) 0 (stsize s) in
  Ok (mkStack d (stsize s) (stcap s) (stdtor s)).
End Stack.

Section Queue.
Variable A : Type.
Notation ptr := (option A).
(** QueueNode (queue.c:29-33); a node address is a nat, NULL is 0.  A freed or
    never allocated address is not in the heap. *)
Record qnode := mkQN { qnd : ptr; qnext : nat; qprev : nat }.
Definition qheap := nat -> option qnode.
Definition qupd (h : qheap) (a : nat) (n : option qnode) : qheap :=
  fun b => if b =? a then n else h b.
Definition qget (h : qheap) (a : nat) : res qnode :=
  match h a with Some n => Ok n | None => UB end.
(** struct Queue_ (queue.c:35-40) and the next address malloc returns *)
Record queue := mkQ { qh : qheap; qcount : nat; qdtor : bool; qhead : nat; qtail : nat; qfresh : nat }.

(** queue.c:42-49 QueueNew *)
Definition QueueNew (d : bool) : queue := mkQ (fun _ => None) 0 d 0 0 1.

(** queue.c:82-101 QueueEnqueue (with queue.c:71-80 QueueNodeNew) *)
Definition QueueEnqueue (q : queue) (x : ptr) : res queue :=
  let a := qfresh q in
  let h := qupd (qh q) a (Some (mkQN x 0 0)) in
  if negb (qtail q =? 0) then
    let* t := qget h (qtail q) in
    let h := qupd h (qtail q) (Some (mkQN (qnd t) a (qprev t))) in
    let* n := qget h a in
    let h := qupd h a (Some (mkQN (qnd n) (qnext n) (qtail q))) in
    Ok (mkQ h (S (qcount q)) (qdtor q) (qhead q) a (S a))
  else Ok (mkQ h (S (qcount q)) (qdtor q) a a (S a)).

(** queue.c:103-125 QueueDequeue; node_count is size_t, an underflow would need an empty queue,
    which is already undefined behaviour *)
Definition QueueDequeue (q : queue) : res (queue * ptr) :=
  let a := qhead q in
  let* n := qget (qh q) a in
  let hd := qnext n in
  let* ' (h, tl) :=
    (if negb (hd =? 0) then
       let* m := qget (qh q) hd in
       Ok (qupd (qh q) hd (Some (mkQN (qnd m) (qnext m) 0)), qtail q)
     else Ok (qh q, 0)) in
  Ok (mkQ (qupd h a None) (qcount q - 1) (qdtor q) hd tl (qfresh q), qnd n).
(** queue.c:127-131 QueueHead *)
Definition QueueHead (q : queue) : res ptr :=
  let* n := qget (qh q) (qhead q) in Ok (qnd n).
(** queue.c:133-137 QueueCount *)
Definition QueueCount (q : queue) : nat := qcount q.
(** queue.c:139-143 QueueIsEmpty *)
Definition QueueIsEmpty (q : queue) : bool := qcount q =? 0.
(** loop of queue.c:51-69 QueueDestroy *)
Fixpoint queue_destroy_loop (fuel : nat) (h : qheap) (d : bool) (cur : nat) : res (list ptr) :=
  match fuel with
  | O => Fuel
  | S f =>
    if cur =? 0 then Ok []
    else
      let* n := qget h cur in
      let* l := queue_destroy_loop f (qupd h cur None) d (qnext n) in
      Ok (if d then qnd n :: l else l)
  end.
(** queue.c:51-69 QueueDestroy: the items passed to destroy *)
Definition QueueDestroy (q : queue) : res (list ptr) :=
  queue_destroy_loop (S (qcount q)) (qh q) (qdtor q) (qhead q).
End Queue.
