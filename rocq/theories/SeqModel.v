(** Model of libutils/sequence.c.  No proofs here. *)
From Verif Require Import Prelude.
Set Implicit Arguments.

Section Seq.
(** [A] is the set of non-NULL item pointers; an item is [ptr], NULL = [None]. *)
Variable A : Type.
Notation ptr := (option A).

(** struct Seq_ (libutils/sequence.h:49-55).  [slog] is a ghost field: the
    arguments of the ItemDestroy calls made so far through this Seq, oldest
    first; [sdtor] says whether ItemDestroy is non-NULL.
    Simplification: the cells xcalloc()ed by SeqNew are treated as
    indeterminate rather than NULL, i.e. the model is stricter than the code. *)
Record seq := mkSeq {
  sdata : cells ptr;
  slen  : nat;
  scap  : nat;
  sdtor : bool;
  slog  : list ptr
}.

(** sequence.c:31-46 SeqNew *)
Definition SeqNew (initialCapacity : nat) (d : bool) : seq :=
  let c := if initialCapacity <=? 0 then 1 else initialCapacity in
  mkSeq (repeat None c) 0 c d [].

(** sequence.h:57-62 SeqAt *)
Definition SeqAt (s : seq) (i : nat) : res ptr :=
  massert (i <? slen s) (aget (sdata s) i).

(** sequence.c:360-364 SeqLength *)
Definition SeqLength (s : seq) : nat := slen s.

(** the loop of sequence.c:48-58 DestroyRange, for [n] consecutive indices *)
Fixpoint destroy_loop (d : cells ptr) (i n : nat) : res (list ptr) :=
  match n with
  | O => Ok []
  | S n' => let* x := aget d i in
            let* r := destroy_loop d (S i) n' in Ok (x :: r)
  end.

(** sequence.c:48-58 DestroyRange (start..end inclusive) *)
Definition DestroyRange (s : seq) (start end_ : nat) : res seq :=
  if sdtor s then
    let* l := destroy_loop (sdata s) start (S end_ - start) in
    Ok (mkSeq (sdata s) (slen s) (scap s) (sdtor s) (slog s ++ l))
  else Ok s.

(** sequence.c:60-70 SeqDestroy: the value is the final destroy log. *)
Definition SeqDestroy (s : seq) : res (list ptr) :=
  let* s' := (if 0 <? slen s then DestroyRange s 0 (slen s - 1) else Ok s) in
  Ok (slog s').

(** sequence.c:81-91 ExpandIfNeccessary (EXPAND_FACTOR = 2, sequence.c:29) *)
Definition ExpandIfNeccessary (s : seq) : res seq :=
  massert (slen s <=? scap s)
   (if slen s =? scap s
    then Ok (mkSeq (arealloc (sdata s) (scap s * 2)) (slen s) (scap s * 2)
                   (sdtor s) (slog s))
    else Ok s).

(** sequence.c:99-108 SeqSet *)
Definition SeqSet (s : seq) (index : nat) (item : ptr) : res seq :=
  massert (index <? slen s)
   (let* l := (if sdtor s then let* x := aget (sdata s) index in Ok [x] else Ok []) in
    let* d := aset (sdata s) index item in
    Ok (mkSeq d (slen s) (scap s) (sdtor s) (slog s ++ l))).

(** sequence.c:110-117 SeqAppend *)
Definition SeqAppend (s : seq) (item : ptr) : res seq :=
  let* s := ExpandIfNeccessary s in
  let* d := aset (sdata s) (slen s) item in
  Ok (mkSeq d (S (slen s)) (scap s) (sdtor s) (slog s)).

Section Cmp.
(** SeqItemComparator with its user_data fixed (sequence.h:33) *)
Variable cmp : ptr -> ptr -> Z.

(** sequence.c:167-179 SeqLookup, loop from index [i], [n] iterations *)
Fixpoint lookup_loop (d : cells ptr) (key : ptr) (i n : nat) : res ptr :=
  match n with
  | O => Ok None
  | S n' => let* x := aget d i in
            if (cmp key x =? 0)%Z then Ok x else lookup_loop d key (S i) n'
  end.
Definition SeqLookup (s : seq) (key : ptr) : res ptr :=
  lookup_loop (sdata s) key 0 (slen s).

(** sequence.c:195-207 SeqIndexOf; [None] stands for -1 *)
Fixpoint indexof_loop (d : cells ptr) (key : ptr) (i n : nat) : res (option nat) :=
  match n with
  | O => Ok None
  | S n' => let* x := aget d i in
            if (cmp key x =? 0)%Z then Ok (Some i) else indexof_loop d key (S i) n'
  end.
Definition SeqIndexOf (s : seq) (key : ptr) : res (option nat) :=
  indexof_loop (sdata s) key 0 (slen s).

(** the bisection loop of sequence.c:209-241 SeqBinaryIndexOf *)
Fixpoint bisect (fuel : nat) (d : cells ptr) (key : ptr) (low high : nat)
  : res (option nat) :=
  match fuel with
  | O => Fuel
  | S f =>
    if low <? high then
      let middle := low + (high - low) / 2 in
      let* x := aget d middle in
      let r := cmp key x in
      if (r =? 0)%Z then Ok (Some middle)
      else if (0 <? r)%Z then bisect f d key (middle + 1) high
      else bisect f d key low middle
    else Ok None
  end.

(** sequence.c:209-241 SeqBinaryIndexOf; [None] stands for -1 *)
Definition SeqBinaryIndexOf (s : seq) (key : ptr) : res (option nat) :=
  if slen s =? 0 then Ok None
  else bisect (S (slen s)) (sdata s) key 0 (slen s).

(** sequence.c:181-193 SeqBinaryLookup *)
Definition SeqBinaryLookup (s : seq) (key : ptr) : res ptr :=
  let* i := SeqBinaryIndexOf s key in
  match i with None => Ok None | Some i => aget (sdata s) i end.

(** sequence.c:119-134 SeqAppendOnce *)
Definition SeqAppendOnce (s : seq) (item : ptr) : res seq :=
  let* r := SeqLookup s item in
  match r with
  | None => SeqAppend s item
  | Some _ =>
      Ok (if sdtor s
          then mkSeq (sdata s) (slen s) (scap s) (sdtor s) (slog s ++ [item])
          else s)
  end.

(** sequence.c:243-249 Swap, on two cells of one array *)
Definition Swap (d : cells ptr) (l r : nat) : res (cells ptr) :=
  let* t := aget d l in
  let* x := aget d r in
  let* d := aset d l x in
  aset d r t.

(** in sequence.c:252-283 QuickSortRecursive: [while (Compare( *l, pivot) < 0) ++l;] *)
Fixpoint scan_l (fuel : nat) (d : cells ptr) (pivot : ptr) (l : nat) : res nat :=
  match fuel with
  | O => Fuel
  | S f => let* x := aget d l in
           if (cmp x pivot <? 0)%Z then scan_l f d pivot (S l) else Ok l
  end.

(** in sequence.c:252-283 QuickSortRecursive: [while (Compare( *r, pivot) > 0) --r;]
    A pointer moved before the first cell of the array is UB. *)
Fixpoint scan_r (fuel : nat) (d : cells ptr) (pivot : ptr) (r : nat) : res nat :=
  match fuel with
  | O => Fuel
  | S f => let* x := aget d r in
           if (0 <? cmp x pivot)%Z
           then match r with O => UB | S r' => scan_r f d pivot r' end
           else Ok r
  end.

(** in sequence.c:252-283 QuickSortRecursive: the partition loop; [l] and [r] are indices into the
    whole array; the value is the array and the final l and r. *)
Fixpoint partition (fuel : nat) (d : cells ptr) (pivot : ptr) (l r : nat)
  : res (cells ptr * nat * nat) :=
  match fuel with
  | O => Fuel
  | S f =>
    if l <=? r then
      let* l := scan_l (S (length d)) d pivot l in
      let* r := scan_r (S (length d)) d pivot r in
      if l <=? r then
        let* d := Swap d l r in
        match r with
        | O => UB
        | S r' => partition f d pivot (S l) r'
        end
      else partition f d pivot l r
    else Ok (d, l, r)
  end.

(** sequence.c:252-283 QuickSortRecursive(data + base, n): the argument
    [data] of the C function is the pointer [data + base] here. *)
Fixpoint QuickSortRecursive (fuel : nat) (d : cells ptr) (base n : nat)
  : res (cells ptr) :=
  match fuel with
  | O => Fuel
  | S f =>
    if n <? 2 then Ok d
    else
      let* pivot := aget d (base + n / 2) in
      let* ' (d, l, r) := partition (S n) d pivot base (base + n - 1) in
      let* d := QuickSortRecursive f d base (r - base + 1) in
      QuickSortRecursive f d l (base + n - l)
  end.

(** sequence.c:285-289 SeqSort.  The conversion of the size_t length to the
    int parameter [n] is not value-preserving above INT_MAX: modelled as UB. *)
Definition SeqSort (s : seq) : res seq :=
  if (Z.of_nat (slen s) <=? 2147483647)%Z then
    let* d := QuickSortRecursive (S (slen s)) (sdata s) 0 (slen s) in
    Ok (mkSeq d (slen s) (scap s) (sdtor s) (slog s))
  else UB.
End Cmp.

(** the loop of sequence.c:136-142 SeqAppendSeq, [items] distinct from [s] *)
Fixpoint appendseq_loop (s items : seq) (i n : nat) : res seq :=
  match n with
  | O => Ok s
  | S n' => let* x := SeqAt items i in
            let* s := SeqAppend s x in
            appendseq_loop s items (S i) n'
  end.
Definition SeqAppendSeq (s items : seq) : res seq :=
  appendseq_loop s items 0 (slen items).

(** sequence.c:136-142 SeqAppendSeq called with seq == items: the loop bound
    is re-evaluated on the growing sequence. *)
Fixpoint SeqAppendSelf_loop (fuel : nat) (s : seq) (i : nat) : res seq :=
  match fuel with
  | O => Fuel
  | S f => if i <? slen s
           then let* x := SeqAt s i in
                let* s := SeqAppend s x in
                SeqAppendSelf_loop f s (S i)
           else Ok s
  end.
Definition SeqAppendSelf (fuel : nat) (s : seq) : res seq :=
  SeqAppendSelf_loop fuel s 0.

(** sequence.c:304-318 SeqSoftRemoveRange *)
Definition SeqSoftRemoveRange (s : seq) (start end_ : nat) : res seq :=
  massert (end_ <? slen s) (massert (start <=? end_)
   (let rest_len := slen s - end_ - 1 in
    let* d := (if 0 <? rest_len then amove (sdata s) start (end_ + 1) rest_len
               else Ok (sdata s)) in
    Ok (mkSeq d (slen s - (end_ - start + 1)) (scap s) (sdtor s) (slog s)))).

(** sequence.c:144-160 SeqRemoveRange *)
Definition SeqRemoveRange (s : seq) (start end_ : nat) : res seq :=
  massert (end_ <? slen s) (massert (start <=? end_)
   (let* s := DestroyRange s start end_ in
    let rest_len := slen s - end_ - 1 in
    let* d := (if 0 <? rest_len then amove (sdata s) start (end_ + 1) rest_len
               else Ok (sdata s)) in
    Ok (mkSeq d (slen s - (end_ - start + 1)) (scap s) (sdtor s) (slog s)))).

(** sequence.c:162-165 SeqRemove *)
Definition SeqRemove (s : seq) (i : nat) : res seq := SeqRemoveRange s i i.
(** sequence.c:328-331 SeqSoftRemove *)
Definition SeqSoftRemove (s : seq) (i : nat) : res seq := SeqSoftRemoveRange s i i.

(** sequence.c:320-326 SeqClear *)
Definition SeqClear (s : seq) : res seq :=
  if 0 <? SeqLength s then SeqRemoveRange s 0 (SeqLength s - 1) else Ok s.

(** sequence.c:333-340 SeqReverse, [n] iterations from index [i] *)
Fixpoint reverse_loop (d : cells ptr) (len i n : nat) : res (cells ptr) :=
  match n with
  | O => Ok d
  | S n' => let* d := Swap d i (len - 1 - i) in reverse_loop d len (S i) n'
  end.
Definition SeqReverse (s : seq) : res seq :=
  let* d := reverse_loop (sdata s) (slen s) 0 (slen s / 2) in
  Ok (mkSeq d (slen s) (scap s) (sdtor s) (slog s)).

(** sequence.c:389-407 SeqGetRange, the copying loop *)
Fixpoint getrange_loop (sub s : seq) (i n : nat) : res seq :=
  match n with
  | O => Ok sub
  | S n' => let* x := SeqAt s i in
            let* sub := SeqAppend sub x in
            getrange_loop sub s (S i) n'
  end.
(** [None] stands for a NULL result *)
Definition SeqGetRange (s : seq) (start end_ : nat) : res (option seq) :=
  if (end_ <? start) || (slen s <=? start) || (slen s <=? end_) then Ok None
  else
    let sub := SeqNew (end_ - start + 1) (sdtor s) in
    let* r := getrange_loop sub s start (S end_ - start) in Ok (Some r).

(** sequence.c:342-358 SeqSplit: remaining sequence and the new one *)
Definition SeqSplit (s : seq) (index : nat) : res (seq * seq) :=
  let length := SeqLength s in
  massert (index <=? length)
   (if length <=? index then Ok (s, SeqNew 1 (sdtor s))
    else
      let* ret := SeqGetRange s index (length - 1) in
      match ret with
      | None => Abort
      | Some ret =>
          let* s := SeqSoftRemoveRange s index (length - 1) in Ok (s, ret)
      end).

(** sequence.c:366-387 SeqShuffle.  The values returned by the successive
    rand() calls of the loop are the oracle [rnd]; srand()/rand() state
    handling is not modelled. *)
Fixpoint shuffle_loop (d : cells ptr) (rnd : nat -> nat) (i : nat) : res (cells ptr) :=
  match i with
  | O => Ok d
  | S i' => let j := rnd i mod (i + 1) in
            let* d := Swap d i j in shuffle_loop d rnd i'
  end.
Definition SeqShuffle (s : seq) (rnd : nat -> nat) : res seq :=
  if SeqLength s =? 0 then Ok s
  else
    let* d := shuffle_loop (sdata s) rnd (SeqLength s - 1) in
    Ok (mkSeq d (slen s) (scap s) (sdtor s) (slog s)).

(** sequence.c:415-436 SeqRemoveNulls, [n] iterations (int indices: lengths
    above INT_MAX are outside this model) *)
Fixpoint removenulls_loop (d : cells ptr) (from to n : nat) : res (cells ptr * nat) :=
  match n with
  | O => Ok (d, to)
  | S n' =>
    let* x := aget d from in
    match x with
    | None => removenulls_loop d (S from) to n'
    | Some _ => let* d := aset d to x in removenulls_loop d (S from) (S to) n'
    end
  end.
Definition SeqRemoveNulls (s : seq) : res seq :=
  let* ' (d, to) := removenulls_loop (sdata s) 0 0 (slen s) in
  Ok (mkSeq d to (scap s) (sdtor s) (slog s)).

(** sequence.c:291-302 SeqSoftSort *)
Definition SeqSoftSort (cmp : ptr -> ptr -> Z) (s : seq) : res seq :=
  let length := SeqLength s in
  if length =? 0 then Ok (SeqNew 0 false)
  else
    let* r := SeqGetRange s 0 (length - 1) in
    match r with
    | None => UB        (* SeqSort(NULL, ...) *)
    | Some r => SeqSort cmp r
    end.

(** sequence.c:438-450 SeqFromArgv: [argv] holds [argc] pointers *)
Fixpoint append_list (s : seq) (l : list ptr) : res seq :=
  match l with
  | [] => Ok s
  | x :: t => let* s := SeqAppend s x in append_list s t
  end.
Definition SeqFromArgv (argv : list ptr) : res seq :=
  massert (0 <? length argv)
   (match argv with
    | None :: _ => Abort
    | _ => append_list (SeqNew (length argv) false) argv
    end).
End Seq.
