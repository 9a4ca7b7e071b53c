(** Model of the rest of the functions of light list iterators (libutils/list.c); the others are in ListModel.v. *)
From Verif Require Import Prelude DllModel ListModel.
Set Implicit Arguments.

Section V.
Variable V : Type.
Notation world := (world V).
Implicit Type w : world.

(** libutils/list.c:500-513 ListIteratorFirst *)
Definition ListIteratorFirst w (i : liter_) : res (liter_ * Z) :=
  let* s := stale w i in
  if s : bool then Ok (i, (-1)%Z)
  else let* L := lget w (iorigin i) in Ok (mkI (lfirst L) (iorigin i) (istate i), 0%Z).
(** libutils/list.c:515-528 ListIteratorLast *)
Definition ListIteratorLast w (i : liter_) : res (liter_ * Z) :=
  let* s := stale w i in
  if s : bool then Ok (i, (-1)%Z)
  else let* L := lget w (iorigin i) in Ok (mkI (llast L) (iorigin i) (istate i), 0%Z).
(** libutils/list.c:553-574 ListIteratorPrevious *)
Definition ListIteratorPrevious w (i : liter_) : res (liter_ * Z) :=
  let* s := stale w i in
  if s : bool then Ok (i, (-1)%Z)
  else match icur i with
       | None => Ok (i, (-1)%Z)
       | Some a => let* n := dload (wn w) a in
                   match dprev n with
                   | Some b => Ok (mkI (Some b) (iorigin i) (istate i), 0%Z)
                   | None => Ok (i, (-1)%Z)
                   end
       end.
(** libutils/list.c:608-624 ListIteratorHasPrevious *)
Definition ListIteratorHasPrevious w (i : liter_) : res bool :=
  let* s := stale w i in
  if s : bool then Ok false
  else let* a := deref (icur i) in let* n := dload (wn w) a in
       Ok (match dprev n with Some _ => true | None => false end).
End V.
