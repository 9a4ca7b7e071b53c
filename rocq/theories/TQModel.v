(** Model of libutils/threaded_queue.c, threaded_deque.c and threaded_stack.c: the data
    structures as sequential functions built from single statements, and the API
    functions as flow graphs for ConcModel.v.  No proofs here. *)
From Verif Require Import Prelude ContModel ConcModel.
Set Implicit Arguments.

Section TQ.
Variable A : Type.
Notation ptr := (option A).

(** struct ThreadedQueue_ (threaded_queue.c:43-53) without the lock and condition
    variables; struct ThreadedDeque_ (threaded_deque.c:43-53) has the same fields, named
    left and right instead of head and tail.  [tlog]: ghost list of ItemDestroy arguments *)
Record tq := mkTQ { tdata : cells ptr; thead : nat; ttail : nat; tsize : nat; tcap : nat;
                    tdtor : bool; tlog : list ptr }.

(** threaded_queue.c:58-132 ThreadedQueueNew and threaded_deque.c:58-132 ThreadedDequeNew *)
Definition TQNew (initial_capacity : nat) (d : bool) : tq :=
  let c := if initial_capacity =? 0 then 16 else initial_capacity in
  mkTQ (repeat None c) 0 0 0 c d [].

(** ** threaded_queue.c *)

(** threaded_queue.c:547-576 ExpandIfNecessary; memmove(data + old_capacity, data, tail) *)
Definition q_expand (q : tq) : res tq :=
  massert (tsize q <=? tcap q) (
  let* q := (if tsize q =? tcap q then
               if ttail q <=? thead q then
                 let c := tcap q * 2 in
                 let d := arealloc (tdata q) c in
                 let* d := amove d (tcap q) 0 (ttail q) in
                 Ok (mkTQ d (thead q) (ttail q + tcap q) (tsize q) c (tdtor q) (tlog q))
               else
                 let c := tcap q * 2 in
                 Ok (mkTQ (arealloc (tdata q) c) (thead q) (ttail q) (tsize q) c (tdtor q) (tlog q))
             else Ok q) in
  Ok (mkTQ (tdata q) (thead q) (ttail q mod tcap q) (tsize q) (tcap q) (tdtor q) (tlog q))).
(** [queue->data[queue->tail++] = item;] *)
Definition q_store (q : tq) (x : ptr) : res tq :=
  let* d := aset (tdata q) (ttail q) x in
  Ok (mkTQ d (thead q) (S (ttail q)) (tsize q) (tcap q) (tdtor q) (tlog q)).
(** [queue->size++;] *)
Definition q_inc (q : tq) : tq :=
  mkTQ (tdata q) (thead q) (ttail q) (S (tsize q)) (tcap q) (tdtor q) (tlog q).
(** threaded_queue.c:282-297 ThreadedQueuePush *)
Definition TQPush (q : tq) (x : ptr) : res (tq * nat) :=
  let* q := q_expand q in
  let* q := q_store q x in
  let q := q_inc q in
  Ok (q, tsize q).
(** threaded_queue.c:299-319 ThreadedQueuePushN *)
Fixpoint q_pushn_loop (q : tq) (xs : list ptr) : res tq :=
  match xs with
  | [] => Ok q
  | x :: xs => let* q := q_expand q in
               let* q := q_store q x in
               q_pushn_loop (q_inc q) xs
  end.
Definition TQPushN (q : tq) (xs : list ptr) : res (tq * nat) :=
  let* q := q_pushn_loop q xs in Ok (q, tsize q).

(** [x = data[pos]; data[pos] = NULL;] at the local position pos *)
Definition q_take (q : tq) (pos : nat) : res (tq * ptr) :=
  let* x := aget (tdata q) pos in
  let* d := aset (tdata q) pos None in
  Ok (mkTQ d (thead q) (ttail q) (tsize q) (tcap q) (tdtor q) (tlog q), x).
(** [queue->head = head; queue->size -= n;] *)
Definition q_sethead (q : tq) (h : nat) : tq :=
  mkTQ (tdata q) h (ttail q) (tsize q) (tcap q) (tdtor q) (tlog q).
Definition q_sub (q : tq) (n : nat) : tq :=
  mkTQ (tdata q) (thead q) (ttail q) (tsize q - n) (tcap q) (tdtor q) (tlog q).
(** threaded_queue.c:173-221 ThreadedQueuePop without the waiting (timeout 0, or a non-empty
    queue); threaded_deque.c:171-221 ThreadedDequePopLeft is the same.  None: returns false and
    sets *item to NULL *)
Definition TQPop (q : tq) : res (tq * option ptr) :=
  if 0 <? tsize q then
    let h := thead q in
    let* ' (q, x) := q_take q h in
    let q := q_sethead q (S h mod tcap q) in
    let q := q_sub q 1 in
    Ok (q, Some x)
  else Ok (q, None).
(** loop of threaded_queue.c:223-280 ThreadedQueuePopN *)
Fixpoint q_popn_loop (q : tq) (h n : nat) : res (tq * nat * list ptr) :=
  match n with
  | O => Ok (q, h, [])
  | S n' => let* ' (q, x) := q_take q h in
            let* ' (q, h, l) := q_popn_loop q (S h mod tcap q) n' in
            Ok (q, h, x :: l)
  end.
(** threaded_queue.c:223-280 ThreadedQueuePopN and threaded_deque.c:275-332 ThreadedDequePopLeftN without
    the waiting *)
Definition TQPopN (q : tq) (num : nat) : res (tq * list ptr) :=
  let n := if num <? tsize q then num else tsize q in
  if 0 <? n then
    let* ' (q, h, l) := q_popn_loop q (thead q) n in
    Ok (q_sub (q_sethead q h) n, l)
  else Ok (q, []).

(** [ItemDestroy(data[i])] if ItemDestroy is set, and [size--] *)
Definition q_destroy_at (q : tq) (i : nat) : res tq :=
  let* log := (if tdtor q then let* x := aget (tdata q) i in Ok (tlog q ++ [x]) else Ok (tlog q)) in
  if tsize q =? 0 then Abort (* size_t wraps; the asserts that follow fail *)
  else Ok (mkTQ (tdata q) (thead q) (ttail q) (tsize q - 1) (tcap q) (tdtor q) log).
(** loop of threaded_queue.c:508-540 DestroyRange *)
Fixpoint q_destroy_loop (fuel : nat) (q : tq) (i e : nat) : res tq :=
  match fuel with
  | O => Fuel
  | S f =>
    if i =? e then Ok q
    else let i := i mod tcap q in
         let* q := q_destroy_at q i in
         q_destroy_loop f q (S i) e
  end.
(** threaded_queue.c:508-540 DestroyRange *)
Definition q_destroy_range (q : tq) (start e : nat) : res tq :=
  if (tcap q <? start) || (tcap q <? e) then Ok q
  else if 0 <? tsize q then
    let* q := q_destroy_at q start in
    q_destroy_loop (S (tcap q)) q (S start) e
  else Ok q.
(** [queue->head = 0; queue->tail = queue->head;] *)
Definition q_reset (q : tq) : tq :=
  mkTQ (tdata q) 0 0 (tsize q) (tcap q) (tdtor q) (tlog q).
(** threaded_queue.c:462-474 ThreadedQueueClear *)
Definition TQClear (q : tq) : res tq :=
  let* q := q_destroy_range q (thead q) (ttail q) in
  massert (tsize q =? 0) (Ok (q_reset q)).
(** threaded_queue.c:476-496 ThreadedQueueClearAndPush *)
Definition TQClearAndPush (q : tq) (x : ptr) : res (tq * nat) :=
  let* q := q_destroy_range q (thead q) (ttail q) in
  let q := q_reset q in
  let* q := q_expand q in
  let* q := q_store q x in
  let q := q_inc q in
  massert (tsize q =? 1) (Ok (q, tsize q)).
(** threaded_queue.c:134-144 ThreadedQueueDestroy: the final log *)
Definition TQDestroy (q : tq) : res (list ptr) :=
  let* q := q_destroy_range q (thead q) (ttail q) in Ok (tlog q).
(** threaded_queue.c:391-460 ThreadedQueueCopy and threaded_deque.c:501-570 ThreadedDequeCopy (ghost log
    of the copy starts empty) *)
Definition TQCopy (q : tq) : res tq :=
  let* d := acopy (repeat None (tcap q)) 0 (tdata q) 0 (tcap q) in
  Ok (mkTQ d (thead q) (ttail q) (tsize q) (tcap q) (tdtor q) []).

(** ** threaded_deque.c *)

(** threaded_deque.c:611-642 ExpandIfNecessary *)
Definition d_expand (q : tq) : res tq :=
  massert (tsize q <=? tcap q) (
  if tsize q =? tcap q then
    if ttail q <=? thead q then
      let c := tcap q * 2 in
      let d := arealloc (tdata q) c in
      let* d := amove d (tcap q) 0 (ttail q) in
      Ok (mkTQ d (thead q) (ttail q + tcap q) (tsize q) c (tdtor q) (tlog q))
    else
      let c := tcap q * 2 in
      Ok (mkTQ (arealloc (tdata q) c) (thead q) (ttail q) (tsize q) c (tdtor q) (tlog q))
  else Ok q).
(** [right == 0 ? capacity - 1 : right - 1] *)
Definition prev_pos (q : tq) (p : nat) : nat := if p =? 0 then tcap q - 1 else p - 1.
(** [deque->left = prev; deque->data[deque->left] = item;] *)
Definition d_store_left (q : tq) (x : ptr) : res tq :=
  let h := prev_pos q (thead q) in
  let* d := aset (tdata q) h x in
  Ok (mkTQ d h (ttail q) (tsize q) (tcap q) (tdtor q) (tlog q)).
(** [deque->data[deque->right++] = item; deque->right %= deque->capacity;] *)
Definition d_store_right (q : tq) (x : ptr) : res tq :=
  let* d := aset (tdata q) (ttail q) x in
  Ok (mkTQ d (thead q) (S (ttail q) mod tcap q) (tsize q) (tcap q) (tdtor q) (tlog q)).
(** threaded_deque.c:393-410 ThreadedDequePushLeft *)
Definition TDPushLeft (q : tq) (x : ptr) : res (tq * nat) :=
  let* q := d_expand q in let* q := d_store_left q x in let q := q_inc q in Ok (q, tsize q).
(** threaded_deque.c:412-430 ThreadedDequePushRight *)
Definition TDPushRight (q : tq) (x : ptr) : res (tq * nat) :=
  let* q := d_expand q in let* q := d_store_right q x in let q := q_inc q in Ok (q, tsize q).
(** [deque->right = right;] *)
Definition d_setright (q : tq) (r : nat) : tq :=
  mkTQ (tdata q) (thead q) r (tsize q) (tcap q) (tdtor q) (tlog q).
(** threaded_deque.c:223-273 ThreadedDequePopRight without the waiting *)
Definition TDPopRight (q : tq) : res (tq * option ptr) :=
  if 0 <? tsize q then
    let r := prev_pos q (ttail q) in
    let* ' (q, x) := q_take q r in
    Ok (q_sub (d_setright q r) 1, Some x)
  else Ok (q, None).
(** loop of threaded_deque.c:334-391 ThreadedDequePopRightN *)
Fixpoint d_popn_loop (q : tq) (r n : nat) : res (tq * nat * list ptr) :=
  match n with
  | O => Ok (q, r, [])
  | S n' => let r := prev_pos q r in
            let* ' (q, x) := q_take q r in
            let* ' (q, r, l) := d_popn_loop q r n' in
            Ok (q, r, x :: l)
  end.
(** threaded_deque.c:334-391 ThreadedDequePopRightN without the waiting *)
Definition TDPopRightN (q : tq) (num : nat) : res (tq * list ptr) :=
  let n := if num <? tsize q then num else tsize q in
  if 0 <? n then
    let* ' (q, r, l) := d_popn_loop q (ttail q) n in
    Ok (q_sub (d_setright q r) n, l)
  else Ok (q, []).
(** loop of threaded_deque.c:583-604 DestroyRange: the items destroyed *)
Fixpoint d_destroy_loop (fuel : nat) (q : tq) (start e : nat) : res (list ptr) :=
  match fuel with
  | O => Fuel
  | S f =>
    let* x := aget (tdata q) start in
    let start := S start mod tcap q in
    if start =? e then Ok [x]
    else let* l := d_destroy_loop f q start e in Ok (x :: l)
  end.
(** threaded_deque.c:583-604 DestroyRange and threaded_deque.c:134-142 ThreadedDequeDestroy: the items destroyed *)
Definition TDDestroy (q : tq) : res (list ptr) :=
  if (tcap q <? thead q) || (tcap q <? ttail q) then Ok []
  else if tdtor q && (0 <? tsize q) then d_destroy_loop (S (tcap q)) q (thead q) (ttail q)
  else Ok [].

(** ** The API functions as flow graphs (ConcModel.v) *)

(** the timeout argument: 0, a number of seconds, THREAD_BLOCK_INDEFINITELY (mutex.h:30) *)
Inductive tmo := TNone | TTimed | TForever.
Definition is_timed (t : tmo) : bool := match t with TTimed => true | _ => false end.
(** cond_non_empty and cond_empty *)
Inductive cnd := NonEmpty | Empty.
Definition cnd_eqb (a b : cnd) : bool := match a, b with NonEmpty, NonEmpty | Empty, Empty => true | _, _ => false end.

(** calls *)
Inductive top := OPush (x : ptr) | OPushN (xs : list ptr) | OPop (t : tmo) | OPopN (n : nat) (t : tmo)
  | OClear | OClearPush (x : ptr) | OCount | OCapacity | OIsEmpty | OWaitEmpty (t : tmo)
  (* deque *)
  | OPushLeft (x : ptr) | OPushRight (x : ptr) | OPopRight (t : tmo) | OPopRightN (n : nat) (t : tmo)
  (* both *) | OCopy.
(** results; TRPop None: returns false.  TRCap: the capacity (an implementation detail).
    TRCopy: a new container, observed by popping all its items from the left *)
Inductive tret := TRCount (n : nat) | TRPop (r : option ptr) | TRItems (l : list ptr) | TRBool (b : bool) | TRUnit | TRCap | TRCopy (l : list ptr).

(** what a popping function takes: from the left one or up to n; from the right one or up to n *)
Inductive side := SLeft | SRight.
Inductive popk := One | Many (n : nat).

Inductive tpc :=
(* Push, PushLeft, PushRight, ClearAndPush, PushN *)
| PcLock (l : tpc)
| PcExpand (k : option side) (x : ptr) (more : list ptr)
| PcStore (k : option side) (x : ptr) (more : list ptr)
| PcInc (k : option side) (more : list ptr)
| PcCount
| PcSignal (n : nat)
| PcUnlock (r : tret)
| PcRet (r : tret)
(* Pop, PopN, PopRight, PopRightN *)
| PcCheckWait (s : side) (k : popk) (t : tmo)      (* if (size == 0 && timeout != 0) *)
| PcWait (s : side) (k : popk) (t : tmo)           (* res = ThreadWait(cond_non_empty, ...) *)
| PcRecheck (s : side) (k : popk) (t : tmo)        (* while (size == 0) *)
| PcTake (s : side) (k : popk)                     (* if (size > 0) / size = MIN(num, size) *)
| PcTakeLoop (s : side) (k : popk) (n : nat) (pos : nat) (todo : nat) (got : list ptr)
| PcSetPos (s : side) (k : popk) (n : nat) (pos : nat) (got : list ptr)
| PcSub (k : popk) (n : nat) (got : list ptr)
| PcCheckEmpty (r : tret)
| PcBroadcast (r : tret)
(* Clear, ClearAndPush *)
| PcDestroy (x : option ptr)
| PcReset (x : option ptr)
(* Count, Capacity, IsEmpty *)
| PcReadCount | PcReadCap | PcReadEmpty
(* WaitEmpty *)
| PcWECheck (t : tmo) | PcWEWait (t : tmo) | PcWERecheck (t : tmo)
(* Copy *)
| PcCopy.

(** the value returned by a popping function that took the items [got] *)
Definition pop_result (k : popk) (got : list ptr) : tret :=
  match k with
  | One => TRPop (match got with [] => None | x :: _ => Some x end)
  | Many _ => TRItems got
  end.
Definition timeout_result (k : popk) : tret := match k with One => TRPop None | Many _ => TRItems [] end.

(** the statements.  [side] None is the queue, Some the deque.  Comments give the C. *)
Definition tcode (l : tpc) : cmd tq tpc cnd tret :=
  match l with
  | PcLock l => CLock l
  | PcExpand k x more =>
      CAct (match k with None => q_expand | Some _ => d_expand end) (fun _ => PcStore k x more)
  | PcStore k x more =>
      CAct (fun q => match k with None => q_store q x | Some SLeft => d_store_left q x | Some SRight => d_store_right q x end)
           (fun _ => PcInc k more)
  | PcInc k more =>
      CAct (fun q => Ok (q_inc q)) (fun _ => match more with [] => PcCount | x :: more => PcExpand k x more end)
  | PcCount => CAct (fun q => Ok q) (fun q => PcSignal (tsize q))       (* size_t const size = queue->size *)
  | PcSignal n => CSignal NonEmpty (PcUnlock (TRCount n))
  | PcUnlock r => CUnlock (PcRet r)
  | PcRet r => CRet r
  | PcCheckWait s k t =>
      CAct (fun q => Ok q) (fun q => if (tsize q =? 0) && (match t with TNone => false | _ => true end)
                                     then PcWait s k t else PcTake s k)
  | PcWait s k t => CWait NonEmpty (is_timed t) (PcRecheck s k t) (PcUnlock (timeout_result k))
  | PcRecheck s k t => CAct (fun q => Ok q) (fun q => if tsize q =? 0 then PcWait s k t else PcTake s k)
  | PcTake s k =>
      CAct (fun q => Ok q)
           (fun q => let n := match k with One => if 0 <? tsize q then 1 else 0
                                         | Many num => if num <? tsize q then num else tsize q end in
                     if 0 <? n then PcTakeLoop s k n (match s with SLeft => thead q | SRight => ttail q end) n []
                     else PcCheckEmpty (pop_result k []))
  | PcTakeLoop s k n pos todo got =>
      match todo with
      | O => CAct (fun q => Ok q) (fun _ => PcSetPos s k n pos got)
      | S todo =>
        CAct (fun q => let pos := match s with SLeft => pos | SRight => prev_pos q pos end in
                       let* ' (q, _) := q_take q pos in Ok q)
             (fun q => let p := match s with SLeft => pos | SRight => prev_pos q pos end in
                       let x := match aget (tdata q) p with Ok x => x | _ => None end in
                       PcTakeLoop s k n (match s with SLeft => S p mod tcap q | SRight => p end) todo (got ++ [x]))
      end
  | PcSetPos s k n pos got =>
      CAct (fun q => Ok (match s with SLeft => q_sethead q pos | SRight => d_setright q pos end)) (fun _ => PcSub k n got)
  | PcSub k n got => CAct (fun q => Ok (q_sub q n)) (fun _ => PcCheckEmpty (pop_result k got))
  | PcCheckEmpty r => CAct (fun q => Ok q) (fun q => if tsize q =? 0 then PcBroadcast r else PcUnlock r)
  | PcBroadcast r => CBroadcast Empty (PcUnlock r)
  | PcDestroy x =>
      CAct (fun q => let* q := q_destroy_range q (thead q) (ttail q) in
                     massert (tsize q =? 0) (Ok q)) (fun _ => PcReset x)
  | PcReset x =>
      CAct (fun q => Ok (q_reset q))
           (fun _ => match x with None => PcBroadcast TRUnit | Some x => PcExpand None x [] end)
  | PcReadCount => CAct (fun q => Ok q) (fun q => PcUnlock (TRCount (tsize q)))
  | PcReadCap => CAct (fun q => Ok q) (fun q => PcUnlock TRCap)
  | PcReadEmpty => CAct (fun q => Ok q) (fun q => PcUnlock (TRBool (tsize q =? 0)))
  | PcWECheck t =>
      CAct (fun q => Ok q) (fun q => if tsize q =? 0 then PcUnlock (TRBool true)
                                     else match t with TNone => PcUnlock (TRBool false) | _ => PcWEWait t end)
  | PcWEWait t => CWait Empty (is_timed t) (PcWERecheck t) (PcUnlock (TRBool false))
  | PcWERecheck t => CAct (fun q => Ok q) (fun q => if tsize q =? 0 then PcUnlock (TRBool true) else PcWEWait t)
  (* the copy is taken under the lock; creating its own mutex and conditions afterwards is
     assumed to succeed (otherwise NULL is returned) *)
  | PcCopy => CAct (fun q => let* _ := TQCopy q in Ok q)
                   (fun q => PcUnlock (TRCopy (match TQCopy q with
                                               | Ok c => match TQPopN c (tsize c) with Ok (_, l) => l | _ => [] end
                                               | _ => [] end)))
  end.

(** entry points: threaded_queue.c and threaded_deque.c *)
Definition tentry (op : top) : tpc :=
  PcLock (match op with
  | OPush x => PcExpand None x []                              (* ThreadedQueuePush *)
  | OPushN [] => PcCount                                       (* ThreadedQueuePushN *)
  | OPushN (x :: xs) => PcExpand None x xs
  | OPop t => PcCheckWait SLeft One t                          (* ThreadedQueuePop, ThreadedDequePopLeft *)
  | OPopN n t => PcCheckWait SLeft (Many n) t                  (* ThreadedQueuePopN, ThreadedDequePopLeftN *)
  | OClear => PcDestroy None                                   (* ThreadedQueueClear *)
  | OClearPush x => PcDestroy (Some x)                         (* ThreadedQueueClearAndPush *)
  | OCount => PcReadCount                                      (* ThreadedQueueCount, ThreadedDequeCount *)
  | OCapacity => PcReadCap                                     (* ThreadedQueueCapacity, ThreadedDequeCapacity *)
  | OIsEmpty => PcReadEmpty                                    (* ThreadedQueueIsEmpty, ThreadedDequeIsEmpty *)
  | OWaitEmpty t => PcWECheck t                                (* ThreadedQueueWaitEmpty, ThreadedDequeWaitEmpty *)
  | OPushLeft x => PcExpand (Some SLeft) x []                  (* ThreadedDequePushLeft *)
  | OPushRight x => PcExpand (Some SRight) x []                (* ThreadedDequePushRight *)
  | OPopRight t => PcCheckWait SRight One t                    (* ThreadedDequePopRight *)
  | OPopRightN n t => PcCheckWait SRight (Many n) t            (* ThreadedDequePopRightN *)
  | OCopy => PcCopy                                            (* ThreadedQueueCopy, ThreadedDequeCopy *)
  end).

(** which calls exist on a queue and on a deque *)
Definition queue_op (op : top) : bool :=
  match op with OPushLeft _ | OPushRight _ | OPopRight _ | OPopRightN _ _ => false | _ => true end.
Definition deque_op (op : top) : bool :=
  match op with OPush _ | OPushN _ | OClear | OClearPush _ => false | _ => true end.
End TQ.
Arguments OPop {A}. Arguments OPopN {A}. Arguments OClear {A}. Arguments OCount {A}. Arguments OCapacity {A}. Arguments OIsEmpty {A}. Arguments OCopy {A}. Arguments PcCopy {A}.
Arguments OWaitEmpty {A}. Arguments OPopRight {A}. Arguments OPopRightN {A}.
Arguments TRCount {A}. Arguments TRBool {A}. Arguments TRUnit {A}. Arguments TRCap {A}.
Arguments PcCheckWait {A}. Arguments PcWait {A}. Arguments PcRecheck {A}. Arguments PcTake {A}. Arguments PcCount {A}. Arguments PcSignal {A}.
Arguments PcReadCount {A}. Arguments PcReadCap {A}. Arguments PcReadEmpty {A}. Arguments PcWECheck {A}. Arguments PcWEWait {A}. Arguments PcWERecheck {A}.

(** threaded_stack.c: every function takes the lock around the stack.c function *)
Section TS.
Variable A : Type.
Notation ptr := (option A).
Inductive sop_ := TSPush (x : ptr) | TSPushReport (x : ptr) | TSPop | TSCount | TSIsEmpty | TSCopy.
Inductive sret := SRUnit | SRNat (n : nat) | SRPtr (p : ptr) | SRBool (b : bool) | SRCopy (l : list ptr).
Inductive spc := ScLock (l : spc) | ScExpand (r : bool) (x : ptr) | ScStore (r : bool) (x : ptr) | ScSize (r : bool)
  | ScPopCheck | ScPopRead (n : nat) | ScPopClear (n : nat) (x : ptr) | ScPopSize (n : nat) (x : ptr)
  | ScReadCount | ScReadEmpty | ScCopy | ScUnlock (r : sret) | ScRet (r : sret).
(** what n pops from a stack give: the observation of the copy *)
Fixpoint pop_all (n : nat) (s : stack A) : list ptr :=
  match n with
  | 0 => []
  | S n => match StackPop s with Ok (s, x) => x :: pop_all n s | _ => [] end
  end.
(** stack.c:108-114 StackPush, StackPushReportCount and StackPop statement by statement *)
Definition scode (l : spc) : cmd (stack A) spc unit sret :=
  match l with
  | ScLock l => CLock l
  | ScExpand r x => CAct (@StackExpand A) (fun _ => ScStore r x)
  | ScStore r x =>
      CAct (fun s => let* d := aset (stdata s) (stsize s) x in
                     Ok (mkStack d (S (stsize s)) (stcap s) (stdtor s))) (fun _ => ScSize r)
  | ScSize r => CAct (fun s => Ok s) (fun s => ScUnlock (if r then SRNat (stsize s) else SRUnit))
  | ScPopCheck => CAct (fun s => Ok s) (fun s => if 0 <? stsize s then ScPopRead (stsize s - 1) else ScUnlock (SRPtr None))
  | ScPopRead n => CAct (fun s => let* _ := aget (stdata s) n in Ok s)
                        (fun s => ScPopClear n (match aget (stdata s) n with Ok x => x | _ => None end))
  | ScPopClear n x => CAct (fun s => let* d := aset (stdata s) n None in Ok (mkStack d (stsize s) (stcap s) (stdtor s)))
                           (fun _ => ScPopSize n x)
  | ScPopSize n x => CAct (fun s => Ok (mkStack (stdata s) n (stcap s) (stdtor s))) (fun _ => ScUnlock (SRPtr x))
  | ScReadCount => CAct (fun s => Ok s) (fun s => ScUnlock (SRNat (stsize s)))
  | ScReadEmpty => CAct (fun s => Ok s) (fun s => ScUnlock (SRBool (stsize s =? 0)))
  | ScCopy => CAct (fun s => let* _ := StackCopy s in Ok s)
                   (fun s => ScUnlock (SRCopy (match StackCopy s with Ok c => pop_all (StackCount c) c | _ => [] end)))
  | ScUnlock r => CUnlock (ScRet r)
  | ScRet r => CRet r
  end.
(** threaded_stack.c:120-127 ThreadedStackPush, ThreadedStackPushReportCount, ThreadedStackPop,
    ThreadedStackCount, ThreadedStackIsEmpty; threaded_stack.c:173-211 ThreadedStackCopy (the copy is
    observed by popping it; that its mutex can be created is assumed) *)
Definition sentry (op : sop_) : spc :=
  ScLock (match op with
  | TSPush x => ScExpand false x | TSPushReport x => ScExpand true x
  | TSPop => ScPopCheck | TSCount => ScReadCount | TSIsEmpty => ScReadEmpty | TSCopy => ScCopy end).
End TS.
Arguments TSPop {A}. Arguments TSCount {A}. Arguments TSIsEmpty {A}. Arguments TSCopy {A}. Arguments ScCopy {A}. Arguments SRUnit {A}. Arguments SRNat {A}. Arguments SRBool {A}.
Arguments ScPopCheck {A}. Arguments ScReadCount {A}. Arguments ScReadEmpty {A}. Arguments ScSize {A}. Arguments ScPopRead {A}.
