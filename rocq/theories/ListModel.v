(** Model of libutils/list.c: reference-counted lists with copy on write.

    Memory is one heap each for list nodes, payload objects, reference counts and List
    structures.  Addresses are not reused; an access to freed memory is UB.  A payload
    object is a value of type V: copy() allocates a new object with the same value,
    destroy() and free() release it, compare() compares the values.  A node's payload
    field is indeterminate until it is assigned.  A light iterator is a value of type
    [liter_]; the mutable iterator, of which a list has at most one, is kept in the List
    structure together with its fields.  int counters are unbounded. *)
From Verif Require Import Prelude DllModel RefModel.
Set Implicit Arguments.

(** * Heaps *)
Section H.
  Variable T : Type.
  Record heap := mkHeap { hmem : nat -> option T; hfresh : nat }.
  Definition hempty : heap := mkHeap (fun _ => None) 0.
  Definition hput (h : heap) (p : nat) (x : option T) : heap :=
    mkHeap (fun q => if q =? p then x else hmem h q) (hfresh h).
  Definition hload (h : heap) (p : nat) : res T := match hmem h p with Some x => Ok x | None => UB end.
  Definition hstore (h : heap) (p : nat) (x : T) : res heap := let* _ := hload h p in Ok (hput h p (Some x)).
  Definition halloc (h : heap) (x : T) : nat * heap :=
    (hfresh h, mkHeap (fun q => if q =? hfresh h then Some x else hmem h q) (S (hfresh h))).
  Definition hfree (h : heap) (p : nat) : res heap := let* _ := hload h p in Ok (hput h p None).
End H.
Arguments hempty {T}.

Section L.
Variable V : Type.
(** the compare function given to ListNew *)
Variable cmpf : V -> V -> Z.

(** a payload field: indeterminate, NULL, or the address of a payload object *)
Definition cell := option (option nat).
Definition rdcell (c : cell) : res (option nat) := match c with Some p => Ok p | None => UB end.

(** libutils/list.c:41-63 struct List; the functions are given or NULL; the mutable
    iterator (list.c:35-39) is its current node and its valid flag *)
Record lst := mkL {
  node_count : Z; lstate : N; llist : option nat; lfirst : option nat; llast : option nat;
  has_cmp : bool; has_copy : bool; has_destroy : bool; lref : nat;
  liter : option (option nat * bool) }.

Record world := mkW { wn : dheap cell; wp : heap V; wr : heap (RefCount nat); wl : heap lst }.
Definition wempty : world := mkW dempty hempty hempty hempty.
Definition with_n (w : world) n := mkW n (wp w) (wr w) (wl w).
Definition with_p (w : world) p := mkW (wn w) p (wr w) (wl w).
Definition with_r (w : world) r := mkW (wn w) (wp w) r (wl w).
Definition with_l (w : world) l := mkW (wn w) (wp w) (wr w) l.
Definition lget (w : world) (l : nat) : res lst := hload (wl w) l.
Definition lput (w : world) (l : nat) (x : lst) : res world := let* h := hstore (wl w) l x in Ok (with_l w h).

(** node->payload = c *)
Definition set_payload (h : dheap cell) (p : nat) (c : cell) : res (dheap cell) :=
  let* n := dload h p in Ok (dput h p (Some (mkD c (dnext n) (dprev n)))).

Definition set_links (L : lst) (l f la : option nat) : lst :=
  mkL (node_count L) (lstate L) l f la (has_cmp L) (has_copy L) (has_destroy L) (lref L) (liter L).
Definition set_count (L : lst) (c : Z) : lst :=
  mkL c (lstate L) (llist L) (lfirst L) (llast L) (has_cmp L) (has_copy L) (has_destroy L) (lref L) (liter L).
Definition set_ref (L : lst) (r : nat) : lst :=
  mkL (node_count L) (lstate L) (llist L) (lfirst L) (llast L) (has_cmp L) (has_copy L) (has_destroy L) r (liter L).
Definition set_iter (L : lst) (i : option (option nat * bool)) : lst :=
  mkL (node_count L) (lstate L) (llist L) (lfirst L) (llast L) (has_cmp L) (has_copy L) (has_destroy L) (lref L) i.

(** the user's callbacks *)
Definition call_copy (w : world) (p : nat) : res (world * nat) :=
  let* v := hload (wp w) p in let '(q, h) := halloc (wp w) v in Ok (with_p w h, q).
Definition free_payload (w : world) (p : nat) : res world := let* h := hfree (wp w) p in Ok (with_p w h).
Definition call_compare (w : world) (p q : nat) : res Z :=
  let* a := hload (wp w) p in let* b := hload (wp w) q in Ok (cmpf a b).

(** libutils/list.c:78-142 ListDetach: the loop; [copy] tells whether list->copy is given *)
Fixpoint copy_loop (fuel : nat) (copy : bool) (w : world) (p newl q first last : option nat)
  : res (world * option nat * option nat * option nat) :=
  match fuel with
  | O => Fuel
  | S g =>
      match p with
      | None => Ok (w, newl, first, last)
      | Some a =>
          let* n := dload (wn w) a in
          let '(b, h) := dalloc (wn w) (mkD None None (match newl with Some _ => q | None => None end)) in
          let* h := (match newl with
                     | Some _ => let* q := deref q in set_next h q (Some b)
                     | None => Ok h
                     end) in
          let w := with_n w h in
          let* pl := rdcell (dval n) in
          let* w := (match pl with
                     | None => Ok w
                     | Some p =>
                         if copy then
                           let* ' (w, p') := call_copy w p in
                           let* h := set_payload (wn w) b (Some (Some p')) in Ok (with_n w h)
                         else let* h := set_payload (wn w) b (Some (Some p)) in Ok (with_n w h)
                     end) in
          let* n := dload (wn w) a in
          match newl with
          | Some _ => copy_loop g copy w (dnext n) newl (Some b) first (Some b)
          | None => copy_loop g copy w (dnext n) (Some b) (Some b) (Some b) (Some b)
          end
      end
  end.
(** libutils/list.c:78-142 ListDetach *)
Definition ListDetach (w : world) (l : nat) : res world :=
  let* L := lget w l in
  let* rc := hload (wr w) (lref L) in
  if RefCountIsShared rc then
    let* ' (w, newl, first, last) := copy_loop (S (dfresh (wn w))) (has_copy L) w (llist L) None None None None in
    let L := set_links L newl first last in
    let* rc := RefCountDetach Nat.eqb rc l in
    let* hr := hstore (wr w) (lref L) rc in
    let* rc' := RefCountAttach RefCountNew l in
    let '(r, hr) := halloc hr rc' in
    lput (with_r w hr) l (set_ref L r)
  else Ok w.

(** libutils/list.c:144-160 ListNew *)
Definition ListNew (w : world) (cmp copy destroy : bool) : res (world * nat) :=
  let '(r, hr) := halloc (wr w) RefCountNew in
  let '(l, hl) := halloc (wl w) (mkL 0 0 None None None cmp copy destroy r None) in
  let* rc := RefCountAttach RefCountNew l in
  let* hr := hstore hr r rc in
  Ok (with_l (with_r w hr) hl, l).

(** libutils/list.c:162-195 ListDestroy: the loop over the nodes *)
Fixpoint destroy_loop (fuel : nat) (destroy : bool) (w : world) (node : option nat) : res world :=
  match fuel with
  | O => Fuel
  | S g =>
      match node with
      | None => Ok w
      | Some a =>
          let* n := dload (wn w) a in
          let* w := (if destroy then
                       let* p := rdcell (dval n) in
                       match p with Some p => free_payload w p | None => Ok w end
                     else Ok w) in
          let* n := dload (wn w) a in
          let* h := dfree (wn w) a in
          destroy_loop g destroy (with_n w h) (dnext n)
      end
  end.
(** libutils/list.c:162-195 ListDestroy *)
Definition ListDestroy (w : world) (l : nat) : res world :=
  let* L := lget w l in
  let* rc := hload (wr w) (lref L) in
  let* w :=
    (if RefCountIsShared rc then
       let* rc := RefCountDetach Nat.eqb rc l in
       let* hr := hstore (wr w) (lref L) rc in Ok (with_r w hr)
     else
       let* w := destroy_loop (S (dfresh (wn w))) (has_destroy L) w (lfirst L) in
       let* _ := RefCountDestroy rc in
       let* hr := hfree (wr w) (lref L) in Ok (with_r w hr)) in
  let* hl := hfree (wl w) l in Ok (with_l w hl).

(** libutils/list.c:197-228 ListCopy; None: -1 *)
Definition ListCopy (w : world) (origin : nat) : res (world * option nat) :=
  let* L := lget w origin in
  if negb (has_copy L) then Ok (w, None)
  else
    let '(d, hl) := halloc (wl w) (set_iter L None) in
    let* rc := hload (wr w) (lref L) in
    let* rc := RefCountAttach rc d in
    let* hr := hstore (wr w) (lref L) rc in
    Ok (with_r (with_l w hl) hr, Some d).

(** libutils/list.c:230-257 ListPrepend *)
Definition ListPrepend (w : world) (l : nat) (payload : option nat) : res world :=
  let* w := ListDetach w l in
  let* L := lget w l in
  match llist L with
  | Some a =>
      let '(b, h) := dalloc (wn w) (mkD (Some payload) (Some a) None) in
      let* h := set_prev h a (Some b) in
      lput (with_n w h) l (set_count (set_links L (Some b) (Some b) (llast L)) (node_count L + 1))
  | None =>
      let '(b, h) := dalloc (wn w) (mkD (Some payload) None None) in
      lput (with_n w h) l (set_count (set_links L (Some b) (Some b) (Some b)) (node_count L + 1))
  end.

(** libutils/list.c:259-286 ListAppend *)
Definition ListAppend (w : world) (l : nat) (payload : option nat) : res world :=
  let* w := ListDetach w l in
  let* L := lget w l in
  match llast L with
  | Some a =>
      let '(b, h) := dalloc (wn w) (mkD (Some payload) None (Some a)) in
      let* h := set_next h a (Some b) in
      lput (with_n w h) l (set_count (set_links L (llist L) (lfirst L) (Some b)) (node_count L + 1))
  | None =>
      let '(b, h) := dalloc (wn w) (mkD (Some payload) None None) in
      lput (with_n w h) l (set_count (set_links L (Some b) (Some b) (Some b)) (node_count L + 1))
  end.

(** list->compare(p, q) == 0, or p == q without a compare function *)
Definition matches (w : world) (cmp : bool) (p q : option nat) : res bool :=
  if cmp then
    match p, q with
    | Some p, Some q => let* r := call_compare w p q in Ok (r =? 0)%Z
    | _, _ => UB
    end
  else Ok (match p, q with Some p, Some q => p =? q | None, None => true | _, _ => false end).

(** libutils/list.c:294-326 ListFindNode, and the second search in libutils/list.c:334-457 ListRemove,
    which does not skip nodes without payload: the node found *)
Fixpoint find_node (fuel : nat) (skip : bool) (w : world) (cmp : bool) (node : option nat) (payload : nat)
  : res (option nat) :=
  match fuel with
  | O => Fuel
  | S g =>
      match node with
      | None => Ok None
      | Some a =>
          let* n := dload (wn w) a in
          let* p := rdcell (dval n) in
          if skip && (match p with None => true | Some _ => false end)
          then find_node g skip w cmp (dnext n) payload
          else
            let* m := matches w cmp p (Some payload) in
            if m : bool then Ok (Some a) else find_node g skip w cmp (dnext n) payload
      end
  end.

(** unlinking a node: list.c:334-457 ListRemove and list.c:741-817 ListMutableIteratorRemove *)
Definition unlink_node (w : world) (l : nat) (a : nat) : res world :=
  let* L := lget w l in
  let* n := dload (wn w) a in
  match dnext n, dprev n with
  | Some c, Some b =>
      let* h := set_prev (wn w) c (Some b) in
      let* h := set_next h b (Some c) in Ok (with_n w h)
  | Some c, None =>
      let* h := set_prev (wn w) c None in
      lput (with_n w h) l (set_links L (Some c) (Some c) (llast L))
  | None, Some b =>
      let* h := set_next (wn w) b None in
      lput (with_n w h) l (set_links L (llist L) (lfirst L) (Some b))
  | None, None => lput w l (set_links L None None None)
  end.
(** releasing its payload and the node, and list.c:327-332 ListUpdateListState *)
Definition drop_node (w : world) (l : nat) (a : nat) : res world :=
  let* n := dload (wn w) a in
  let* p := rdcell (dval n) in
  let* w := (match p with Some p => free_payload w p | None => Ok w end) in
  let* h := dfree (wn w) a in
  let w := with_n w h in
  let* L := lget w l in
  lput w l (mkL (node_count L - 1) ((lstate L + 1) mod 2 ^ 32) (llist L) (lfirst L) (llast L)
                (has_cmp L) (has_copy L) (has_destroy L) (lref L) (liter L)).

(** list.c:334-457 ListRemove: the mutable iterator is moved off the node that will go *)
Definition move_iter (w : world) (l : nat) (L : lst) (node : nat) : res world :=
  match liter L with
  | Some (Some c, valid) =>
      if c =? node then
        let* n := dload (wn w) c in
        match dnext n, dprev n with
        | Some x, _ => lput w l (set_iter L (Some (Some x, valid)))
        | None, Some x => lput w l (set_iter L (Some (Some x, valid)))
        | None, None => lput w l (set_iter L (Some (Some c, false)))
        end
      else Ok w
  | _ => Ok w
  end.

(** libutils/list.c:334-457 ListRemove: 0 or -1 *)
Definition ListRemove (w : world) (l : nat) (payload : nat) : res (world * Z) :=
  let* L := lget w l in
  let* found := find_node (S (dfresh (wn w))) true w (has_cmp L) (llist L) payload in
  match found with
  | None => Ok (w, (-1)%Z)
  | Some _ =>
      let* w := ListDetach w l in
      let* L := lget w l in
      let* found := find_node (S (dfresh (wn w))) false w (has_cmp L) (llist L) payload in
      match found with
      | None => Abort
      | Some node =>
          let* w := move_iter w l L node in
          let* w := unlink_node w l node in
          let* w := drop_node w l node in
          Ok (w, 0%Z)
      end
  end.

(** libutils/list.c:460-463 ListCount *)
Definition ListCount (w : world) (l : nat) : res Z := let* L := lget w l in Ok (node_count L).

(** * Light iterators *)
(** list.c:64-68 struct ListIterator *)
Record liter_ := mkI { icur : option nat; iorigin : nat; istate : N }.
(** libutils/list.c:468-486 ListIteratorGet *)
Definition ListIteratorGet (w : world) (l : nat) : res (option liter_) :=
  let* L := lget w l in
  Ok (match lfirst L with None => None | Some _ => Some (mkI (llist L) l (lstate L)) end).
(** list.c:70-71 IsIteratorValid: true when the iterator is invalid *)
Definition stale (w : world) (i : liter_) : res bool :=
  let* L := lget w (iorigin i) in Ok (negb (istate i =? lstate L)%N).
(** libutils/list.c:530-551 ListIteratorNext, list.c:553-574 ListIteratorPrevious *)
Definition ListIteratorNext (w : world) (i : liter_) : res (liter_ * Z) :=
  let* s := stale w i in
  if s : bool then Ok (i, (-1)%Z)
  else match icur i with
       | None => Ok (i, (-1)%Z)
       | Some a => let* n := dload (wn w) a in
                   match dnext n with
                   | Some b => Ok (mkI (Some b) (iorigin i) (istate i), 0%Z)
                   | None => Ok (i, (-1)%Z)
                   end
       end.
(** libutils/list.c:576-588 ListIteratorData: NULL for a stale iterator *)
Definition ListIteratorData (w : world) (i : liter_) : res (option nat) :=
  let* s := stale w i in
  if s : bool then Ok None
  else let* a := deref (icur i) in let* n := dload (wn w) a in rdcell (dval n).
(** libutils/list.c:590-606 ListIteratorHasNext *)
Definition ListIteratorHasNext (w : world) (i : liter_) : res bool :=
  let* s := stale w i in
  if s : bool then Ok false
  else let* a := deref (icur i) in let* n := dload (wn w) a in
       Ok (match dnext n with Some _ => true | None => false end).

(** * The mutable iterator of a list *)
(** libutils/list.c:629-652 ListMutableIteratorGet: true if there is one now *)
Definition ListMutableIteratorGet (w : world) (l : nat) : res (world * bool) :=
  let* L := lget w l in
  match liter L, lfirst L with
  | Some _, _ => Ok (w, false)
  | None, None => Ok (w, false)
  | None, Some a => let* w := lput w l (set_iter L (Some (Some a, true))) in Ok (w, true)
  end.
(** libutils/list.c:654-662 ListMutableIteratorRelease *)
Definition ListMutableIteratorRelease (w : world) (l : nat) : res world :=
  let* L := lget w l in lput w l (set_iter L None).
(** the iterator of list [l], which must exist *)
Definition miter (w : world) (l : nat) : res (lst * option nat * bool) :=
  let* L := lget w l in match liter L with Some (c, v) => Ok (L, c, v) | None => UB end.
(** libutils/list.c:664-676 ListMutableIteratorFirst, list.c:678-690 ListMutableIteratorLast *)
Definition ListMutableIteratorFirst (w : world) (l : nat) : res (world * Z) :=
  let* ' (L, c, v) := miter w l in
  if negb v then Ok (w, (-1)%Z) else let* w := lput w l (set_iter L (Some (lfirst L, v))) in Ok (w, 0%Z).
Definition ListMutableIteratorLast (w : world) (l : nat) : res (world * Z) :=
  let* ' (L, c, v) := miter w l in
  if negb v then Ok (w, (-1)%Z) else let* w := lput w l (set_iter L (Some (llast L, v))) in Ok (w, 0%Z).
(** libutils/list.c:692-708 ListMutableIteratorNext, list.c:710-726 ListMutableIteratorPrevious *)
Definition ListMutableIteratorNext (w : world) (l : nat) : res (world * Z) :=
  let* ' (L, c, v) := miter w l in
  if negb v then Ok (w, (-1)%Z)
  else let* a := deref c in let* n := dload (wn w) a in
       match dnext n with
       | None => Ok (w, (-1)%Z)
       | Some b => let* w := lput w l (set_iter L (Some (Some b, v))) in Ok (w, 0%Z)
       end.
Definition ListMutableIteratorPrevious (w : world) (l : nat) : res (world * Z) :=
  let* ' (L, c, v) := miter w l in
  if negb v then Ok (w, (-1)%Z)
  else let* a := deref c in let* n := dload (wn w) a in
       match dprev n with
       | None => Ok (w, (-1)%Z)
       | Some b => let* w := lput w l (set_iter L (Some (Some b, v))) in Ok (w, 0%Z)
       end.
(** libutils/list.c:728-739 ListMutableIteratorData *)
Definition ListMutableIteratorData (w : world) (l : nat) : res (option nat) :=
  let* ' (L, c, v) := miter w l in
  if negb v then Ok None
  else let* a := deref c in let* n := dload (wn w) a in rdcell (dval n).
(** libutils/list.c:886-889 ListMutableIteratorHasNext, list.c:891-894 ListMutableIteratorHasPrevious:
    no check of the valid flag *)
Definition ListMutableIteratorHasNext (w : world) (l : nat) : res bool :=
  let* ' (L, c, v) := miter w l in
  let* a := deref c in let* n := dload (wn w) a in Ok (match dnext n with Some _ => true | None => false end).
Definition ListMutableIteratorHasPrevious (w : world) (l : nat) : res bool :=
  let* ' (L, c, v) := miter w l in
  let* a := deref c in let* n := dload (wn w) a in Ok (match dprev n with Some _ => true | None => false end).
(** libutils/list.c:741-817 ListMutableIteratorRemove *)
Definition ListMutableIteratorRemove (w : world) (l : nat) : res (world * Z) :=
  let* ' (L, c, v) := miter w l in
  if negb v then Ok (w, (-1)%Z)
  else
    let* w := ListDetach w l in
    let* a := deref c in let* n := dload (wn w) a in
    let go node :=
      (let* w := unlink_node w l a in
       let* w := drop_node w l a in
       let* L := lget w l in
       let* w := lput w l (set_iter L (Some (Some node, v))) in Ok (w, 0%Z)) in
    match dnext n, dprev n with
    | Some x, _ => go x
    | None, Some x => go x
    | None, None => Ok (w, (-1)%Z)
    end.
(** libutils/list.c:819-851 ListMutableIteratorPrepend *)
Definition ListMutableIteratorPrepend (w : world) (l : nat) (payload : option nat) : res (world * Z) :=
  let* ' (L, c, v) := miter w l in
  if negb v then Ok (w, (-1)%Z)
  else
    let '(b, h) := dalloc (wn w) (mkD None None None) in
    let* w := ListDetach (with_n w h) l in
    let* h := set_payload (wn w) b (Some payload) in
    let* a := deref c in let* n := dload h a in
    let* L := lget w l in
    match dprev n with
    | Some x =>
        let* h := set_prev h b (Some x) in
        let* h := set_next h b (Some a) in
        let* h := set_next h x (Some b) in
        let* h := set_prev h a (Some b) in
        let* w := lput (with_n w h) l (set_count L (node_count L + 1)) in Ok (w, 0%Z)
    | None =>
        let* h := set_prev h b None in
        let* h := set_next h b (Some a) in
        let* h := set_prev h a (Some b) in
        let* w := lput (with_n w h) l (set_count (set_links L (Some b) (Some b) (llast L)) (node_count L + 1)) in Ok (w, 0%Z)
    end.
(** libutils/list.c:853-884 ListMutableIteratorAppend *)
Definition ListMutableIteratorAppend (w : world) (l : nat) (payload : option nat) : res (world * Z) :=
  let* ' (L, c, v) := miter w l in
  if negb v then Ok (w, (-1)%Z)
  else
    let '(b, h) := dalloc (wn w) (mkD None None None) in
    let* w := ListDetach (with_n w h) l in
    let* h := set_payload (wn w) b (Some payload) in
    let* a := deref c in let* n := dload h a in
    let* L := lget w l in
    match dnext n with
    | Some x =>
        let* h := set_next h b (Some x) in
        let* h := set_prev h b (Some a) in
        let* h := set_prev h x (Some b) in
        let* h := set_next h a (Some b) in
        let* w := lput (with_n w h) l (set_count L (node_count L + 1)) in Ok (w, 0%Z)
    | None =>
        let* h := set_next h b None in
        let* h := set_prev h b (Some a) in
        let* h := set_next h a (Some b) in
        let* w := lput (with_n w h) l (set_count (set_links L (llist L) (lfirst L) (Some b)) (node_count L + 1)) in Ok (w, 0%Z)
    end.
End L.
Arguments wempty {V}.
