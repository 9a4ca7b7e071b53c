(** Specification vocabulary for the threaded containers (C16-C19). *)
From Verif Require Import Prelude ContModel ConcModel TQModel.
Set Implicit Arguments.

Section Spec.
Variable A : Type.
Notation ptr := (option A).
(** abstract state: the items, oldest (leftmost) first, and the items destroyed so far *)
Definition abst := (list ptr * list ptr)%type.
Definition is_nil (l : list ptr) : bool := match l with [] => true | _ => false end.

(** what a call does when it need not wait *)
Definition tq_spec (s : abst) (op : top A) : abst * tret A :=
  let (l, d) := s in
  match op with
  | OPush x => ((l ++ [x], d), TRCount (S (length l)))
  | OPushN xs => ((l ++ xs, d), TRCount (length l + length xs))
  | OPop _ => match l with [] => ((l, d), TRPop None) | x :: l' => ((l', d), TRPop (Some x)) end
  | OPopN n _ => ((skipn n l, d), TRItems (firstn n l))
  | OClear => (([], d ++ l), TRUnit)
  | OClearPush x => (([x], d ++ l), TRCount 1)
  | OCount => ((l, d), TRCount (length l))
  | OCapacity => ((l, d), TRCap)
  | OIsEmpty => ((l, d), TRBool (is_nil l))
  | OWaitEmpty _ => ((l, d), TRBool (is_nil l))
  | OPushLeft x => ((x :: l, d), TRCount (S (length l)))
  | OPushRight x => ((l ++ [x], d), TRCount (S (length l)))
  | OPopRight _ => match rev l with [] => ((l, d), TRPop None) | x :: r => ((rev r, d), TRPop (Some x)) end
  | OPopRightN n _ => ((rev (skipn n (rev l)), d), TRItems (firstn n (rev l)))
  | OCopy => ((l, d), TRCopy l)                  (* the copy holds the same items *)
  end.

(** atomic effect of a call that may have to wait: with an indefinite or timed wait the
    popping calls act only on a non-empty container and WaitEmpty only on an empty one;
    a timed wait may instead give up, changing nothing *)
Definition waits (op : top A) : option (tmo * bool (* waits for: empty *) * tret A) :=
  match op with
  | OPop t | OPopRight t => Some (t, false, TRPop None)
  | OPopN _ t | OPopRightN _ t => Some (t, false, TRItems [])
  | OWaitEmpty t => Some (t, true, TRBool false)
  | _ => None
  end.
Definition tspec (s : abst) (op : top A) (s' : abst) (r : tret A) : Prop :=
  match waits op with
  | None => tq_spec s op = (s', r)
  | Some (t, e, give_up) =>
      ((t = TNone \/ is_nil (fst s) = e) /\ tq_spec s op = (s', r)) \/
      (t = TTimed /\ s' = s /\ r = give_up)
  end.

(** sequential histories: [t] arguments are ignored (nobody else could make a waiting
    call return, so it would hang or time out); TCopy: go on with the copy *)
Inductive seqop := SOp (op : top A) | SCopyQ.
Definition run_seq (q : tq A) (o : seqop) : res (tq A * tret A) :=
  match o with
  | SCopyQ => let* q' := TQCopy q in Ok (mkTQ (tdata q') (thead q') (ttail q') (tsize q') (tcap q') (tdtor q') (tlog q), TRUnit)
      (* the ghost log is carried over so that one history has one log *)
  | SOp op =>
    match op with
    | OPush x => let* ' (q, n) := TQPush q x in Ok (q, TRCount n)
    | OPushN xs => let* ' (q, n) := TQPushN q xs in Ok (q, TRCount n)
    | OPop _ => let* ' (q, r) := TQPop q in Ok (q, TRPop r)
    | OPopN n _ => let* ' (q, l) := TQPopN q n in Ok (q, TRItems l)
    | OClear => let* q := TQClear q in Ok (q, TRUnit)
    | OClearPush x => let* ' (q, n) := TQClearAndPush q x in Ok (q, TRCount n)
    | OCount => Ok (q, TRCount (tsize q))
    | OCapacity => Ok (q, TRCap)
    | OIsEmpty => Ok (q, TRBool (tsize q =? 0))
    | OWaitEmpty _ => Ok (q, TRBool (tsize q =? 0))
    | OPushLeft x => let* ' (q, n) := TDPushLeft q x in Ok (q, TRCount n)
    | OPushRight x => let* ' (q, n) := TDPushRight q x in Ok (q, TRCount n)
    | OPopRight _ => let* ' (q, r) := TDPopRight q in Ok (q, TRPop r)
    | OPopRightN n _ => let* ' (q, l) := TDPopRightN q n in Ok (q, TRItems l)
    | OCopy => let* c := TQCopy q in let* ' (_, l) := TQPopN c (tsize c) in Ok (q, TRCopy l)
    end
  end.
Definition spec_seq (s : abst) (o : seqop) : abst * tret A :=
  match o with SCopyQ => (s, TRUnit) | SOp op => tq_spec s op end.
Fixpoint run_seqs (q : tq A) (ops : list seqop) : res (tq A * list (tret A)) :=
  match ops with
  | [] => Ok (q, [])
  | o :: ops => let* ' (q, r) := run_seq q o in
                let* ' (q, rs) := run_seqs q ops in Ok (q, r :: rs)
  end.
Fixpoint spec_seqs (s : abst) (ops : list seqop) : abst * list (tret A) :=
  match ops with
  | [] => (s, [])
  | o :: ops => let (s, r) := spec_seq s o in
                let (s, rs) := spec_seqs s ops in (s, r :: rs)
  end.
Definition on_queue (o : seqop) : bool := match o with SOp op => queue_op op | SCopyQ => true end.
Definition on_deque (o : seqop) : bool := match o with SOp op => deque_op op | SCopyQ => true end.
End Spec.
Arguments SCopyQ {A}.

(** a stack: newest item first *)
Definition tstack_spec A (l : list (option A)) (op : sop_ A) (l' : list (option A)) (r : sret A) : Prop :=
  match op with
  | TSPush x => l' = x :: l /\ r = SRUnit
  | TSPushReport x => l' = x :: l /\ r = SRNat (S (length l))
  | TSPop => match l with [] => l' = [] /\ r = SRPtr None | x :: t => l' = t /\ r = SRPtr x end
  | TSCount => l' = l /\ r = SRNat (length l)
  | TSIsEmpty => l' = l /\ r = SRBool (is_nil l)
  | TSCopy => l' = l /\ r = SRCopy l      (* the copy, popped until it is empty *)
  end.

(** the items a call puts in, and the items its result takes out *)
Definition puts A (op : top A) : list (option A) :=
  match op with
  | OPush x | OPushLeft x | OPushRight x | OClearPush x => [x]
  | OPushN xs => xs
  | _ => []
  end.
Definition takes A (r : tret A) : list (option A) :=
  match r with TRPop (Some x) => [x] | TRItems l => l | _ => [] end.
(** all items passed in by the calls of a history, and all returned by it *)
Definition hist_puts A Op (f : Op -> top A) (h : list (event Op (tret A))) : list (option A) :=
  flat_map (fun e => match e with ECall _ o => puts (f o) | ERet _ _ => [] end) h.
Definition hist_takes A Op (h : list (event Op (tret A))) : list (option A) :=
  flat_map (fun e => match e with ECall _ _ => [] | ERet _ r => takes r end) h.
