(** Specification of the Seq API: a history of calls is interpreted on plain
    lists.  [spec_step] does not mention the model; [api_step] is the same
    history played on the model of the C functions. *)
From Verif Require Import Prelude SeqModel.
Set Implicit Arguments.

Section Spec.
Variable A : Type.
Notation ptr := (option A).       (* NULL = None *)
Variable cmp : ptr -> ptr -> Z.   (* comparator given to SeqAppendOnce *)

Inductive op : Type :=
| OAppend (x : ptr) | OAppendOnce (x : ptr)
| OAppendSeq (xs : list ptr)      (* append another Seq that holds xs *)
| OSet (i : nat) (x : ptr)
| ORemove (i : nat) | ORemoveRange (i j : nat)
| OSoftRemove (i : nat) | OSoftRemoveRange (i j : nat)
| OClear | OReverse | OSplit (i : nat) | OGetRange (i j : nat)
| ORemoveNulls | OAt (i : nat) | OLength.

Inductive out : Type :=
| VUnit | VPtr (p : ptr) | VNat (n : nat) | VItems (l : option (list ptr)).

(** items i..j (inclusive) and the list without them *)
Definition slice (l : list ptr) (i j : nat) : list ptr := firstn (S j - i) (skipn i l).
Definition without (l : list ptr) (i j : nat) : list ptr := firstn i l ++ skipn (S j) l.

Record effect := mkEff {
  after : list ptr;       (* the list afterwards *)
  ret : out;              (* what the call returns *)
  destroyed : list ptr;   (* items handed to ItemDestroy, in order *)
  released : list ptr     (* items that leave the sequence undestroyed *)
}.

(** [None]: the call violates its documented precondition *)
Definition spec_step (l : list ptr) (o : op) : option effect :=
  match o with
  | OAppend x => Some (mkEff (l ++ [x]) VUnit [] [])
  | OAppendOnce x =>
      match find (fun y => (cmp x y =? 0)%Z) l with
      | Some (Some _) => Some (mkEff l VUnit [x] [])
      | _ => Some (mkEff (l ++ [x]) VUnit [] [])
      end
  | OAppendSeq xs => Some (mkEff (l ++ xs) VUnit [] [])
  | OSet i x => if i <? length l
                then Some (mkEff (firstn i l ++ [x] ++ skipn (S i) l) VUnit (slice l i i) [])
                else None
  | ORemove i => if i <? length l
                 then Some (mkEff (without l i i) VUnit (slice l i i) []) else None
  | ORemoveRange i j => if (i <=? j) && (j <? length l)
                        then Some (mkEff (without l i j) VUnit (slice l i j) []) else None
  | OSoftRemove i => if i <? length l
                     then Some (mkEff (without l i i) VUnit [] (slice l i i)) else None
  | OSoftRemoveRange i j => if (i <=? j) && (j <? length l)
                            then Some (mkEff (without l i j) VUnit [] (slice l i j)) else None
  | OClear => Some (mkEff [] VUnit l [])
  | OReverse => Some (mkEff (rev l) VUnit [] [])
  | OSplit i => if i <=? length l
                then Some (mkEff (firstn i l) (VItems (Some (skipn i l))) [] (skipn i l))
                else None
  | OGetRange i j => Some (mkEff l (VItems (if (i <=? j) && (j <? length l)
                                            then Some (slice l i j) else None)) [] [])
  | ORemoveNulls => Some (mkEff (filter (fun p => match p with Some _ => true | None => false end) l)
                                VUnit []
                                (filter (fun p => match p with Some _ => false | None => true end) l))
  | OAt i => if i <? length l then Some (mkEff l (VPtr (nth i l None)) [] []) else None
  | OLength => Some (mkEff l (VNat (length l)) [] [])
  end.

(** items whose ownership enters the sequence with a call *)
Definition given (o : op) : list ptr :=
  match o with
  | OAppend x | OAppendOnce x | OSet _ x => [x]
  | OAppendSeq xs => xs
  | _ => []
  end.

Fixpoint spec_run (l : list ptr) (ops : list op)
  : option (list ptr * list out * list ptr * list ptr) :=
  match ops with
  | [] => Some (l, [], [], [])
  | o :: os =>
      match spec_step l o with
      | None => None
      | Some e =>
          match spec_run (after e) os with
          | None => None
          | Some (l', outs, d, r) =>
              Some (l', ret e :: outs, destroyed e ++ d, released e ++ r)
          end
      end
  end.

(** reading a whole sequence through SeqLength and SeqAt *)
Fixpoint items_loop (s : seq A) (i n : nat) : res (list ptr) :=
  match n with
  | O => Ok []
  | S n' => let* x := SeqAt s i in let* r := items_loop s (S i) n' in Ok (x :: r)
  end.
Definition items (s : seq A) : res (list ptr) := items_loop s 0 (SeqLength s).

Definition api_step (s : seq A) (o : op) : res (seq A * out) :=
  let quiet r := let* s := r in Ok (s, VUnit) in
  match o with
  | OAppend x => quiet (SeqAppend s x)
  | OAppendOnce x => quiet (SeqAppendOnce cmp s x)
  | OAppendSeq xs => quiet (let* t := append_list (SeqNew A 0 false) xs in SeqAppendSeq s t)
  | OSet i x => quiet (SeqSet s i x)
  | ORemove i => quiet (SeqRemove s i)
  | ORemoveRange i j => quiet (SeqRemoveRange s i j)
  | OSoftRemove i => quiet (SeqSoftRemove s i)
  | OSoftRemoveRange i j => quiet (SeqSoftRemoveRange s i j)
  | OClear => quiet (SeqClear s)
  | OReverse => quiet (SeqReverse s)
  | OSplit i => let* ' (s, t) := SeqSplit s i in
                let* l := items t in Ok (s, VItems (Some l))
  | OGetRange i j =>
      let* r := SeqGetRange s i j in
      match r with
      | None => Ok (s, VItems None)
      | Some t => let* l := items t in Ok (s, VItems (Some l))
      end
  | ORemoveNulls => quiet (SeqRemoveNulls s)
  | OAt i => let* x := SeqAt s i in Ok (s, VPtr x)
  | OLength => Ok (s, VNat (SeqLength s))
  end.

Fixpoint api_run (s : seq A) (ops : list op) : res (seq A * list out) :=
  match ops with
  | [] => Ok (s, [])
  | o :: os => let* ' (s, v) := api_step s o in
               let* ' (s, vs) := api_run s os in Ok (s, v :: vs)
  end.
End Spec.

(** a comparator that is a total preorder on the items satisfying [P] *)
Record total_preorder {X : Type} (P : X -> Prop) (cmp : X -> X -> Z) : Prop := {
  tp_sym : forall a b, P a -> P b -> (Z.sgn (cmp b a) = - Z.sgn (cmp a b))%Z;
  tp_trans : forall a b c, P a -> P b -> P c ->
             (cmp a b <= 0)%Z -> (cmp b c <= 0)%Z -> (cmp a c <= 0)%Z
}.
Arguments tp_sym {X P cmp} _ {a b} _ _.
Arguments tp_trans {X P cmp} _ {a b c} _ _ _ _ _.
Arguments ORemove {A} i. Arguments ORemoveRange {A} i j. Arguments OSoftRemove {A} i.
Arguments OSoftRemoveRange {A} i j. Arguments OClear {A}. Arguments OReverse {A}.
Arguments OSplit {A} i. Arguments OGetRange {A} i j. Arguments ORemoveNulls {A}.
Arguments OAt {A} i. Arguments OLength {A}.
Arguments VUnit {A}. Arguments VNat {A} n.
