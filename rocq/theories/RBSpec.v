(** Specification of the red-black tree: a finite map kept as a list of entries
    sorted by the comparison function.  Nothing here mentions nodes or pointers. *)
From Verif Require Import Prelude RBModel.
From Coq Require Import Sorting.Sorted.
Set Implicit Arguments.

Section Spec.
Variables K V : Type.
Variable cmp : K -> K -> Z.
Notation kv := (K * V)%type.

(** a C comparison function: the sign of cmp is a total preorder *)
Record cmp_ok : Prop := {
  cmp_opp : forall a b, (cmp a b < 0 <-> 0 < cmp b a)%Z;
  cmp_trans : forall a b c, (cmp a b <= 0 -> cmp b c <= 0 -> cmp a c <= 0)%Z
}.

(** strictly increasing keys *)
Definition sorted (m : list kv) : Prop :=
  StronglySorted (fun a b => (cmp (fst a) (fst b) < 0)%Z) m.

Definition same (k : K) (e : kv) : bool := (cmp k (fst e) =? 0)%Z.
Definition sget (m : list kv) (k : K) : option V := option_map snd (find (same k) m).
Definition shas (m : list kv) (k : K) : bool := existsb (same k) m.
(** the entries with smaller keys, the new entry, the entries with larger keys *)
Definition sput (m : list kv) (k : K) (v : V) : list kv :=
  filter (fun e => (0 <? cmp k (fst e))%Z) m ++ (k, v) :: filter (fun e => (cmp k (fst e) <? 0)%Z) m.
Definition sremove (m : list kv) (k : K) : list kv := filter (fun e => negb (same k e)) m.
Definition shits (m : list kv) (k : K) : list kv := filter (same k) m.

Inductive rop := OPut (k : K) (v : V) | ORemove (k : K) | OClear | OGet (k : K) | OSize | OIter.
Inductive rout := ZUnit | ZBool (b : bool) | ZVal (v : option V) | ZNat (n : nat)
                | ZEntries (l : list (option K * option V)).

(** next map, result, destroyed entries *)
Definition rspec_step (m : list kv) (o : rop) : list kv * rout * list kv :=
  match o with
  | OPut k v => (sput m k v, ZBool (shas m k), shits m k)
  | ORemove k => (sremove m k, ZBool (shas m k), shits m k)
  | OClear => ([], ZUnit, m)
  | OGet k => (m, ZVal (sget m k), [])
  | OSize => (m, ZNat (length m), [])
  | OIter => (m, ZEntries (map (fun e => (Some (fst e), Some (snd e))) m), [])
  end.
Fixpoint rspec_run (m : list kv) (ops : list rop) : list kv * list rout * list kv :=
  match ops with
  | [] => (m, [], [])
  | o :: os =>
      let '(m1, v, d) := rspec_step m o in
      let '(m2, vs, ds) := rspec_run m1 os in (m2, v :: vs, d ++ ds)
  end.

(** the same history run by the model *)
Definition rb_step (t : rbtree K V) (o : rop) : res (rbtree K V * rout) :=
  match o with
  | OPut k v => let* ' (t, b) := RBTreePut cmp t k v in Ok (t, ZBool b)
  | ORemove k => let* ' (t, b) := RBTreeRemove cmp t k in Ok (t, ZBool b)
  | OClear => let* t := RBTreeClear t in Ok (t, ZUnit)
  | OGet k => let* v := RBTreeGet cmp t k in Ok (t, ZVal v)
  | OSize => Ok (t, ZNat (RBTreeSize t))
  | OIter => let* l := RBTreeIterate t in Ok (t, ZEntries l)
  end.
Fixpoint rb_run (t : rbtree K V) (ops : list rop) : res (rbtree K V * list rout) :=
  match ops with
  | [] => Ok (t, [])
  | o :: os =>
      let* ' (t, v) := rb_step t o in
      let* ' (t, vs) := rb_run t os in Ok (t, v :: vs)
  end.

(** destroyed keys and values (NULL ones left out) *)
Definition dkeys (l : list (rev_ K V)) : list K :=
  flat_map (fun e => match e with RKey _ (Some k) => [k] | _ => [] end) l.
Definition dvals (l : list (rev_ K V)) : list V :=
  flat_map (fun e => match e with RVal _ (Some v) => [v] | _ => [] end) l.
End Spec.
Arguments OClear {K V}. Arguments OSize {K V}. Arguments OIter {K V}.
Arguments ORemove {K V} k. Arguments OGet {K V} k.
Arguments ZUnit {K V}. Arguments ZBool {K V} b. Arguments ZNat {K V} n. Arguments ZVal {K V} v. Arguments ZEntries {K V} l.
