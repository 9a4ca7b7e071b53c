(** Memory for doubly linked lists: nodes at addresses, as used by the models of refcount.c
    and list.c.  Nothing here models a particular function of /repo. *)
From Verif Require Import Prelude.
Set Implicit Arguments.

Section D.
Variable A : Type.
Record dnode := mkD { dval : A; dnext : option nat; dprev : option nat }.
(** the allocated nodes and the next unused address *)
Record dheap := mkH { dmem : nat -> option dnode; dfresh : nat }.
Definition dempty : dheap := mkH (fun _ => None) 0.
Definition dput (h : dheap) (p : nat) (n : option dnode) : dheap :=
  mkH (fun q => if q =? p then n else dmem h q) (dfresh h).
(** *p *)
Definition dload (h : dheap) (p : nat) : res dnode := match dmem h p with Some n => Ok n | None => UB end.
(** xmalloc, followed by the assignments of all fields *)
Definition dalloc (h : dheap) (n : dnode) : nat * dheap :=
  (dfresh h, mkH (dmem (dput h (dfresh h) (Some n))) (S (dfresh h))).
(** p->next = q and p->previous = q *)
Definition set_next (h : dheap) (p : nat) (q : option nat) : res dheap :=
  let* n := dload h p in Ok (dput h p (Some (mkD (dval n) q (dprev n)))).
Definition set_prev (h : dheap) (p : nat) (q : option nat) : res dheap :=
  let* n := dload h p in Ok (dput h p (Some (mkD (dval n) (dnext n) q))).
Definition dfree (h : dheap) (p : nat) : res dheap := let* _ := dload h p in Ok (dput h p None).
(** NULL dereference *)
Definition deref (p : option nat) : res nat := match p with Some a => Ok a | None => UB end.
End D.
Arguments dempty {A}.
