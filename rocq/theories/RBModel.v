(** Model of libutils/rb-tree.c at the level of heap nodes and pointers.
    No proofs here. *)
From Verif Require Import Prelude.
Set Implicit Arguments.

Section RB.
Variables K V : Type.
(** KeyCompare and ValueCompare *)
Variable cmp : K -> K -> Z.
Variable vcmp : V -> V -> Z.

Definition addr := nat.
(** struct RBNode_ (rb-tree.c:32-40); NULL keys and values (sentinels) are [None] *)
Record node := mkN {
  nkey : option K; nval : option V; nred : bool; npar : addr; nleft : addr; nright : addr }.

(** allocated nodes; an access to any other address is UB (this includes
    freed nodes) *)
Definition heap := addr -> option node.
Definition hupd (h : heap) (a : addr) (n : option node) : heap :=
  fun b => if b =? a then n else h b.
Definition getn (h : heap) (a : addr) : res node :=
  match h a with Some n => Ok n | None => UB end.
Definition set_left (h : heap) (a v : addr) : res heap :=
  let* n := getn h a in
  Ok (hupd h a (Some (mkN (nkey n) (nval n) (nred n) (npar n) v (nright n)))).
Definition set_right (h : heap) (a v : addr) : res heap :=
  let* n := getn h a in
  Ok (hupd h a (Some (mkN (nkey n) (nval n) (nred n) (npar n) (nleft n) v))).
Definition set_par (h : heap) (a v : addr) : res heap :=
  let* n := getn h a in
  Ok (hupd h a (Some (mkN (nkey n) (nval n) (nred n) v (nleft n) (nright n)))).
Definition set_red (h : heap) (a : addr) (c : bool) : res heap :=
  let* n := getn h a in
  Ok (hupd h a (Some (mkN (nkey n) (nval n) c (npar n) (nleft n) (nright n)))).
Definition set_kv (h : heap) (a : addr) (k : option K) (v : option V) : res heap :=
  let* n := getn h a in
  Ok (hupd h a (Some (mkN k v (nred n) (npar n) (nleft n) (nright n)))).
Definition left_of (h : heap) (a : addr) : res addr := let* n := getn h a in Ok (nleft n).
Definition right_of (h : heap) (a : addr) : res addr := let* n := getn h a in Ok (nright n).
Definition par_of (h : heap) (a : addr) : res addr := let* n := getn h a in Ok (npar n).
Definition red_of (h : heap) (a : addr) : res bool := let* n := getn h a in Ok (nred n).

(** calls of KeyDestroy and ValueDestroy, in order (ghost) *)
Inductive rev_ := RKey (k : option K) | RVal (v : option V).

(** struct RBTree_ (rb-tree.c:42-56).  tree->nil is address 0 for the whole
    life of the tree; [rnext] is the next address malloc returns; [rlog] is the
    ghost log of destroy calls. *)
Definition nil : addr := 0.
Record rbtree := mkT {
  rheap : heap; rroot : addr; rsize : nat; rnext : addr; rlog : list rev_ }.

(** rb-tree.c:106-117 Reset_ applied to freshly calloc()ed sentinels *)
Definition nil_node : node := mkN None None false nil nil nil.
Definition root_node : node := mkN None None false nil nil nil.

(** rb-tree.c:119-145 RBTreeNew.  KeyCopy and ValueCopy are modelled as the identity:
    the copy has the contents of the original. *)
Definition RBTreeNew : rbtree :=
  mkT (hupd (hupd (fun _ => None) nil (Some nil_node)) 1 (Some root_node)) 1 0 2 [].

(** [if (x == p->left) p->left = y; else p->right = y;], the statement shared by
    rb-tree.c:265-292 RotateLeft_, rb-tree.c:294-321 RotateRight_ and rb-tree.c:560-630 RBTreeRemove *)
Definition relink (h : heap) (p x y : addr) : res heap :=
  let* pl := left_of h p in
  if x =? pl then set_left h p y else set_right h p y.

(** rb-tree.c:265-292 RotateLeft_ (the nil->red asserts included) *)
Definition RotateLeft (h : heap) (x : addr) : res heap :=
  let* nr := red_of h nil in massert (negb nr) (
  let* y := right_of h x in
  let* yl := left_of h y in
  let* h := set_right h x yl in
  let* h := (if negb (yl =? nil) then set_par h yl x else Ok h) in
  let* xp := par_of h x in
  let* h := set_par h y xp in
  let* h := relink h xp x y in
  let* h := set_left h y x in
  set_par h x y).

(** rb-tree.c:294-321 RotateRight_ *)
Definition RotateRight (h : heap) (y : addr) : res heap :=
  let* nr := red_of h nil in massert (negb nr) (
  let* x := left_of h y in
  let* xr := right_of h x in
  let* h := set_left h y xr in
  let* h := (if negb (xr =? nil) then set_par h xr y else Ok h) in
  let* yp := par_of h y in
  let* h := set_par h x yp in
  let* h := relink h yp y x in
  let* h := set_right h x y in
  set_par h y x).

(** rb-tree.c:329-391 PutFix_: the loop *)
Fixpoint PutFix_loop (fuel : nat) (h : heap) (z : addr) : res heap :=
  match fuel with
  | O => Fuel
  | S f =>
    let* zp := par_of h z in
    let* r := red_of h zp in
    if negb r then Ok h
    else
      let* zpp := par_of h zp in
      let* zppl := left_of h zpp in
      if zp =? zppl then
        let* y := right_of h zpp in
        let* yr := red_of h y in
        if yr then
          let* h := set_red h zp false in
          let* h := set_red h y false in
          let* h := set_red h zpp true in
          PutFix_loop f h zpp
        else
          let* zpr := right_of h zp in
          let* ' (h, z) := (if z =? zpr then let* h := RotateLeft h zp in Ok (h, zp)
                            else Ok (h, z)) in
          let* zp := par_of h z in
          let* h := set_red h zp false in
          let* zp := par_of h z in
          let* zpp := par_of h zp in
          let* h := set_red h zpp true in
          let* zp := par_of h z in
          let* zpp := par_of h zp in
          let* h := RotateRight h zpp in
          PutFix_loop f h z
      else
        let* y := left_of h zpp in
        let* yr := red_of h y in
        if yr then
          let* h := set_red h zp false in
          let* h := set_red h y false in
          let* h := set_red h zpp true in
          PutFix_loop f h zpp
        else
          let* zpl := left_of h zp in
          let* ' (h, z) := (if z =? zpl then let* h := RotateRight h zp in Ok (h, zp)
                            else Ok (h, z)) in
          let* zp := par_of h z in
          let* h := set_red h zp false in
          let* zp := par_of h z in
          let* zpp := par_of h zp in
          let* h := set_red h zpp true in
          let* zp := par_of h z in
          let* zpp := par_of h zp in
          let* h := RotateLeft h zpp in
          PutFix_loop f h z
  end.

(** rb-tree.c:329-391 PutFix_ *)
Definition PutFix (fuel : nat) (h : heap) (root z : addr) : res heap :=
  let* h := PutFix_loop fuel h z in
  let* l := left_of h root in
  let* h := set_red h l false in
  let* nr := red_of h nil in
  let* rr := red_of h root in
  massert (negb nr) (massert (negb rr) (Ok h)).

(** KeyCompare(key, x->key): never called on a sentinel's NULL key in a sane tree *)
Definition compare_at (h : heap) (key : K) (a : addr) : res Z :=
  let* n := getn h a in
  match nkey n with Some k => Ok (cmp key k) | None => UB end.

(** search loop of rb-tree.c:394-429 RBTreePut: the node with an equal key, or the
    last node visited *)
Fixpoint put_search (fuel : nat) (h : heap) (key : K) (y x : addr) : res (bool * addr) :=
  match fuel with
  | O => Fuel
  | S f =>
    if x =? nil then Ok (false, y)
    else
      let* c := compare_at h key x in
      if (c =? 0)%Z then Ok (true, x)
      else let* x' := (if (c <? 0)%Z then left_of h x else right_of h x) in
           put_search f h key x x'
  end.

(** rb-tree.c:394-429 RBTreePut *)
Definition RBTreePut (t : rbtree) (key : K) (value : V) : res (rbtree * bool) :=
  let h := rheap t in
  let* x := left_of h (rroot t) in
  let* ' (found, y) := put_search (S (S (rsize t))) h key (rroot t) x in
  if found then
    let* n := getn h y in
    let* h := set_kv h y (Some key) (Some value) in
    Ok (mkT h (rroot t) (rsize t) (rnext t) (rlog t ++ [RKey (nkey n); RVal (nval n)]), true)
  else
    (* NodeNew_ (rb-tree.c:82-94) *)
    let z := rnext t in
    let h := hupd h z (Some (mkN (Some key) (Some value) true y nil nil)) in
    let* goleft := (if y =? rroot t then Ok true
                    else let* c := compare_at h key y in Ok (c <? 0)%Z) in
    let* h := (if goleft then set_left h y z else set_right h y z) in
    let* h := PutFix (S (S (rsize t))) h (rroot t) z in
    Ok (mkT h (rroot t) (S (rsize t)) (S z) (rlog t), false).

(** inner loops of rb-tree.c:431-445 Next_ *)
Fixpoint leftmost (fuel : nat) (h : heap) (a : addr) : res addr :=
  match fuel with
  | O => Fuel
  | S f => let* l := left_of h a in if l =? nil then Ok a else leftmost f h l
  end.
Fixpoint climb (fuel : nat) (h : heap) (n curr : addr) : res addr :=
  match fuel with
  | O => Fuel
  | S f => let* r := right_of h curr in
           if n =? r then let* p := par_of h curr in climb f h curr p else Ok curr
  end.
(** rb-tree.c:431-445 Next_ *)
Definition Next_ (t : rbtree) (h : heap) (a : addr) : res addr :=
  let* r := right_of h a in
  if negb (r =? nil) then leftmost (S (rsize t)) h r
  else
    let* p := par_of h a in
    let* c := climb (S (S (rsize t))) h a p in
    Ok (if negb (c =? rroot t) then c else nil).

(** rb-tree.c:447-471 Get_ *)
Fixpoint Get_loop (fuel : nat) (h : heap) (key : K) (curr : addr) : res addr :=
  match fuel with
  | O => Fuel
  | S f =>
    if curr =? nil then Ok curr
    else
      let* c := compare_at h key curr in
      if (c =? 0)%Z then Ok curr
      else if (c <? 0)%Z then let* l := left_of h curr in Get_loop f h key l
      else let* r := right_of h curr in Get_loop f h key r
  end.
Definition Get_ (t : rbtree) (key : K) : res addr :=
  let h := rheap t in
  let* nr := red_of h nil in massert (negb nr) (
  let* curr := left_of h (rroot t) in
  Get_loop (S (S (rsize t))) h key curr).

(** rb-tree.c:473-477 RBTreeGet *)
Definition RBTreeGet (t : rbtree) (key : K) : res (option V) :=
  let* a := Get_ t key in
  if negb (a =? nil) then let* n := getn (rheap t) a in Ok (nval n) else Ok None.

(** rb-tree.c:480-558 RemoveFix_: the loop; [root] is the local variable, read once
    before the loop *)
Fixpoint RemoveFix_loop (fuel : nat) (h : heap) (root x : addr) : res (heap * addr) :=
  match fuel with
  | O => Fuel
  | S f =>
    let* xr := red_of h x in
    if (x =? root) || xr then Ok (h, x)
    else
      let* xp := par_of h x in
      let* xpl := left_of h xp in
      if x =? xpl then
        let* w := right_of h xp in
        let* wr := red_of h w in
        let* ' (h, w) := (if wr then
                            let* h := set_red h w false in
                            let* h := set_red h xp true in
                            let* h := RotateLeft h xp in
                            let* xp := par_of h x in
                            let* w := right_of h xp in Ok (h, w)
                          else Ok (h, w)) in
        let* wl := left_of h w in
        let* wlr := red_of h wl in
        let* wr_ := right_of h w in
        let* wrr := red_of h wr_ in
        if negb wlr && negb wrr then
          let* h := set_red h w true in
          let* xp := par_of h x in
          RemoveFix_loop f h root xp
        else
          let* ' (h, w) := (if negb wrr then
                              let* h := set_red h wl false in
                              let* h := set_red h w true in
                              let* h := RotateRight h w in
                              let* xp := par_of h x in
                              let* w := right_of h xp in Ok (h, w)
                            else Ok (h, w)) in
          let* xp := par_of h x in
          let* xpr := red_of h xp in
          let* h := set_red h w xpr in
          let* h := set_red h xp false in
          let* wr_ := right_of h w in
          let* h := set_red h wr_ false in
          let* h := RotateLeft h xp in
          RemoveFix_loop f h root root
      else
        let* w := left_of h xp in
        let* wr := red_of h w in
        let* ' (h, w) := (if wr then
                            let* h := set_red h w false in
                            let* h := set_red h xp true in
                            let* h := RotateRight h xp in
                            let* xp := par_of h x in
                            let* w := left_of h xp in Ok (h, w)
                          else Ok (h, w)) in
        let* wl := left_of h w in
        let* wlr := red_of h wl in
        let* wr_ := right_of h w in
        let* wrr := red_of h wr_ in
        if negb wlr && negb wrr then
          let* h := set_red h w true in
          let* xp := par_of h x in
          RemoveFix_loop f h root xp
        else
          let* ' (h, w) := (if negb wlr then
                              let* h := set_red h wr_ false in
                              let* h := set_red h w true in
                              let* h := RotateLeft h w in
                              let* xp := par_of h x in
                              let* w := left_of h xp in Ok (h, w)
                            else Ok (h, w)) in
          let* xp := par_of h x in
          let* xpr := red_of h xp in
          let* h := set_red h w xpr in
          let* h := set_red h xp false in
          let* wl := left_of h w in
          let* h := set_red h wl false in
          let* h := RotateRight h xp in
          RemoveFix_loop f h root root
  end.
(** rb-tree.c:480-558 RemoveFix_ *)
Definition RemoveFix (fuel : nat) (h : heap) (troot x : addr) : res heap :=
  let* nr := red_of h nil in massert (negb nr) (
  let* root := left_of h troot in
  let* ' (h, x) := RemoveFix_loop fuel h root x in
  let* h := set_red h x false in
  let* nr := red_of h nil in massert (negb nr) (Ok h)).

(** rb-tree.c:560-630 RBTreeRemove *)
Definition RBTreeRemove (t : rbtree) (key : K) : res (rbtree * bool) :=
  let h := rheap t in
  let* z := Get_ t key in
  if z =? nil then Ok (t, false)
  else
    let* zl := left_of h z in
    let* zr := right_of h z in
    let* y := (if (zl =? nil) || (zr =? nil) then Ok z else Next_ t h z) in
    let* yl := left_of h y in
    let* x := (if yl =? nil then right_of h y else Ok yl) in
    let* yp := par_of h y in
    let* h := set_par h x yp in
    let* h := (if rroot t =? yp then set_left h (rroot t) x
               else relink h yp y x) in
    let fuel := S (S (rsize t)) in
    let* yn := getn h y in
    let* nr := red_of h nil in
    if negb (z =? y) then
      massert (negb (y =? nil)) (massert (negb nr) (
      let* h := (if negb (nred yn) then RemoveFix fuel h (rroot t) x else Ok h) in
      let* zn := getn h z in
      let* h := set_left h y (nleft zn) in
      let* h := set_right h y (nright zn) in
      let* h := set_par h y (npar zn) in
      let* h := set_red h y (nred zn) in
      let* h := set_par h (nleft zn) y in
      let* h := set_par h (nright zn) y in
      let* h := relink h (npar zn) z y in
      (* NodeDestroy_(z) (rb-tree.c:96-104) *)
      let h := hupd h z None in
      let* nr := red_of h nil in massert (negb nr)
      (Ok (mkT h (rroot t) (rsize t - 1) (rnext t) (rlog t ++ [RKey (nkey zn); RVal (nval zn)]), true))))
    else
      let* h := (if negb (nred yn) then RemoveFix fuel h (rroot t) x else Ok h) in
      let* yn := getn h y in
      let h := hupd h y None in
      let* nr := red_of h nil in massert (negb nr)
      (Ok (mkT h (rroot t) (rsize t - 1) (rnext t) (rlog t ++ [RKey (nkey yn); RVal (nval yn)]), true)).

(** rb-tree.c:632-643 ClearRecursive_ (post-order; node pointers are read before the
    node is freed).  rb-tree.c:147-155 TreeDestroy_ is the same function. *)
Fixpoint ClearRecursive (fuel : nat) (h : heap) (a : addr) : res (heap * list rev_) :=
  match fuel with
  | O => Fuel
  | S f =>
    if a =? nil then Ok (h, [])
    else
      let* l := left_of h a in
      let* ' (h, e1) := ClearRecursive f h l in
      let* r := right_of h a in
      let* ' (h, e2) := ClearRecursive f h r in
      let* n := getn h a in
      Ok (hupd h a None, e1 ++ e2 ++ [RKey (nkey n); RVal (nval n)])
  end.

(** rb-tree.c:645-653 RBTreeClear: starts at the root sentinel, which is itself
    destroyed (KeyDestroy(NULL), ValueDestroy(NULL)) and allocated anew *)
Definition RBTreeClear (t : rbtree) : res rbtree :=
  let* ' (h, e) := ClearRecursive (S (S (rsize t))) (rheap t) (rroot t) in
  let r := rnext t in
  let* nl := getn h nil in
  let h := hupd h nil (Some nil_node) in
  Ok (mkT (hupd h r (Some root_node)) r 0 (S r) (rlog t ++ e)).

(** rb-tree.c:253-263 RBTreeDestroy: the destroy log *)
Definition RBTreeDestroy (t : rbtree) : res (list rev_) :=
  let* l := left_of (rheap t) (rroot t) in
  let* ' (_, e) := ClearRecursive (S (S (rsize t))) (rheap t) l in
  Ok (rlog t ++ e).

(** rb-tree.c:655-658 RBTreeSize *)
Definition RBTreeSize (t : rbtree) : nat := rsize t.

(** rb-tree.c:660-668 RBTreeIteratorNew: the iterator is the current node *)
Definition RBTreeIteratorNew (t : rbtree) : res addr :=
  leftmost (S (S (rsize t))) (rheap t) (rroot t).

(** rb-tree.c:670-693 Peek_ and rb-tree.c:695-706 RBTreeIteratorNext *)
Definition RBTreeIteratorNext (t : rbtree) (curr : addr) : res (option (option K * option V * addr)) :=
  if rsize t =? 0 then Ok None
  else if curr =? nil then Ok None
  else
    let* n := getn (rheap t) curr in
    let* nx := Next_ t (rheap t) curr in
    Ok (Some (nkey n, nval n, nx)).

(** a full iteration *)
Fixpoint iter_loop (fuel : nat) (t : rbtree) (curr : addr) : res (list (option K * option V)) :=
  match fuel with
  | O => Fuel
  | S f => let* r := RBTreeIteratorNext t curr in
           match r with
           | None => Ok []
           | Some (k, v, nx) => let* l := iter_loop f t nx in Ok ((k, v) :: l)
           end
  end.
Definition RBTreeIterate (t : rbtree) : res (list (option K * option V)) :=
  let* it := RBTreeIteratorNew t in iter_loop (S (S (rsize t))) t it.

(** loop of rb-tree.c:210-251 RBTreeEqual on two distinct trees with the same
    callbacks.  Note the && evaluation: it_a advances even when it_b ends. *)
Fixpoint equal_loop (fuel : nat) (a b : rbtree) (ia ib : addr) : res bool :=
  match fuel with
  | O => Fuel
  | S f =>
    let* ra := RBTreeIteratorNext a ia in
    match ra with
    | None => Ok true
    | Some (ka, va, ia) =>
      let* rb := RBTreeIteratorNext b ib in
      match rb with
      | None => Ok true
      | Some (kb, vb, ib) =>
        match ka, kb, va, vb with
        | Some ka, Some kb, Some va, Some vb =>
            if negb (cmp ka kb =? 0)%Z || negb (vcmp va vb =? 0)%Z then Ok false
            else equal_loop f a b ia ib
        | _, _, _, _ => UB
        end
      end
    end
  end.
(** rb-tree.c:210-251 RBTreeEqual *)
Definition RBTreeEqual (a b : rbtree) : res bool :=
  if negb (rsize a =? rsize b) then Ok false
  else
    let* ia := RBTreeIteratorNew a in
    let* ib := RBTreeIteratorNew b in
    equal_loop (S (S (rsize a))) a b ia ib.

(** collection loop of rb-tree.c:157-208 RBTreeCopy; [nodes] has tree->size cells.
    The filter is applied to the (possibly NULL) key and value. *)
Fixpoint copy_collect (fuel : nat) (t : rbtree) (filter : option K -> option V -> bool)
         (curr : addr) (nodes : cells addr) (count : nat) : res (cells addr * nat) :=
  match fuel with
  | O => Fuel
  | S f =>
    if curr =? nil then Ok (nodes, count)
    else
      let* n := getn (rheap t) curr in
      let* ' (nodes, count) :=
        (if filter (nkey n) (nval n)
         then let* nodes := aset nodes count curr in Ok (nodes, S count)
         else Ok (nodes, count)) in
      let* nx := Next_ t (rheap t) curr in
      copy_collect f t filter nx nodes count
  end.
(** RBTreePut(copy, node->key, node->value) *)
Definition put_node (t copy : rbtree) (a : addr) : res rbtree :=
  let* n := getn (rheap t) a in
  match nkey n, nval n with
  | Some k, Some v => let* ' (c, _) := RBTreePut copy k v in Ok c
  | _, _ => UB     (* the comparator or copy callback gets NULL *)
  end.
Fixpoint copy_put (t copy : rbtree) (nodes : cells addr) (half i n : nat) : res rbtree :=
  match n with
  | O => Ok copy
  | S n' =>
    let* a := aget nodes (half + i) in
    let* copy := put_node t copy a in
    let* a := aget nodes (half - i - 1) in
    let* copy := put_node t copy a in
    copy_put t copy nodes half (S i) n'
  end.
(** rb-tree.c:157-208 RBTreeCopy up to the final VerifyTree_ *)
Definition RBTreeCopy_noverify (t : rbtree) (filter : option K -> option V -> bool) : res rbtree :=
  let* it := RBTreeIteratorNew t in
  let* ' (nodes, count) := copy_collect (S (S (rsize t))) t filter it (repeat None (rsize t)) 0 in
  let copy := RBTreeNew in
  let* ' (copy, count) :=
    (if negb (count mod 2 =? 0) then
       let* a := aget nodes (count / 2) in
       let* copy := put_node t copy a in Ok (copy, count - 1)
     else Ok (copy, count)) in
  copy_put t copy nodes (count / 2) 0 (count / 2).

(** rb-tree.c:713-742 VerifyNode_; [pb] is *path_black_count *)
Fixpoint VerifyNode (fuel : nat) (h : heap) (a : addr) (bc pb : Z) : res Z :=
  match fuel with
  | O => Fuel
  | S f =>
    let* n := getn h a in
    let* lr := (if nred n then red_of h (nleft n) else Ok false) in
    massert (negb lr) (
    let* rr := (if nred n then red_of h (nright n) else Ok false) in
    massert (negb rr) (
    let bc := if nred n then bc else (bc + 1)%Z in
    if a =? nil then
      massert (negb (nred n)) (
      if (pb =? -1)%Z then Ok bc
      else massert (bc =? pb)%Z (Ok pb))
    else
      let* pb := VerifyNode f h (nleft n) bc pb in
      VerifyNode f h (nright n) bc pb))
  end.
(** rb-tree.c:744-756 VerifyTree_ *)
Definition VerifyTree (t : rbtree) : res unit :=
  let h := rheap t in
  let* r := getn h (rroot t) in
  massert (negb (nred r)) (massert (match nkey r with None => true | _ => false end)
  (massert (match nval r with None => true | _ => false end) (
  let* n := getn h nil in
  massert (negb (nred n)) (massert (match nkey n with None => true | _ => false end)
  (massert (match nval n with None => true | _ => false end) (
  let* _ := VerifyNode (S (S (rsize t))) h (nleft r) 0 (-1) in Ok tt)))))).

(** rb-tree.c:157-208 RBTreeCopy *)
Definition RBTreeCopy (t : rbtree) (filter : option K -> option V -> bool) : res rbtree :=
  let* copy := RBTreeCopy_noverify t filter in
  let* _ := VerifyTree copy in
  Ok copy.
End RB.
Arguments RBTreeNew {K V}.
