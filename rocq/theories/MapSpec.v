(** Specification of Map: a finite map as an association list without two
    equal keys.  [mspec_step] does not mention the model. *)
From Verif Require Import Prelude MapModel.
Set Implicit Arguments.

Section Spec.
Variables K V : Type.
Variable equal : K -> K -> bool.
Variable hash : K -> N.
Notation kv := (K * V)%type.

(** the key equality is an equivalence and the hash respects it *)
Record equal_ok : Prop := {
  eq_refl_k : forall a, equal a a = true;
  eq_sym_k : forall a b, equal a b = true -> equal b a = true;
  eq_trans_k : forall a b c, equal a b = true -> equal b c = true -> equal a c = true;
  eq_hash_k : forall a b, equal a b = true -> hash a = hash b
}.

(** no two entries with equal keys *)
Inductive uniq : list kv -> Prop :=
| uniq_nil : uniq []
| uniq_cons e l : (forall x, In x l -> equal (fst x) (fst e) = false) -> uniq l -> uniq (e :: l).

Definition sget (m : list kv) (k : K) : option V :=
  option_map snd (find (fun e => equal (fst e) k) m).
Definition shas (m : list kv) (k : K) : bool := existsb (fun e => equal (fst e) k) m.
(** entries whose key equals / does not equal k *)
Definition shits (m : list kv) (k : K) := filter (fun e => equal (fst e) k) m.
Definition srest (m : list kv) (k : K) := filter (fun e => negb (equal (fst e) k)) m.

Inductive mop := MOInsert (k : K) (v : V) | MORemove (k : K) | MOClear
               | MOGet (k : K) | MOHas (k : K) | MOSize | MOIter.
Inductive mout := WUnit | WBool (b : bool) | WVal (v : option V) | WNat (n : nat)
                | WEntries (l : list kv).

(** next map, result, destroyed entries *)
Definition mspec_step (m : list kv) (o : mop) : list kv * mout * list kv :=
  match o with
  | MOInsert k v => ((k, v) :: srest m k, WBool (shas m k), shits m k)
  | MORemove k => (srest m k, WBool (shas m k), shits m k)
  | MOClear => ([], WUnit, m)
  | MOGet k => (m, WVal (sget m k), [])
  | MOHas k => (m, WBool (shas m k), [])
  | MOSize => (m, WNat (length m), [])
  | MOIter => (m, WEntries m, [])
  end.

(** results agree; a full iteration may list the entries in any order *)
Definition mout_ok (a b : mout) : Prop :=
  match a, b with
  | WEntries l, WEntries l' => Permutation l l'
  | _, _ => a = b
  end.

Fixpoint mspec_run (m : list kv) (ops : list mop) : list kv * list mout * list kv :=
  match ops with
  | [] => (m, [], [])
  | o :: os =>
      let '(m1, v, d) := mspec_step m o in
      let '(m2, vs, ds) := mspec_run m1 os in (m2, v :: vs, d ++ ds)
  end.

Definition mapi_step (m : map_t K V) (o : mop) : res (map_t K V * mout * list (ev K V)) :=
  match o with
  | MOInsert k v => let* ' (m, b, l) := MapInsert equal hash m k v in Ok (m, WBool b, l)
  | MORemove k => let* ' (m, b, l) := MapRemove equal hash m k in Ok (m, WBool b, l)
  | MOClear => let* ' (m, l) := MapClear m in Ok (m, WUnit, l)
  | MOGet k => let* v := MapGet equal hash m k in Ok (m, WVal v, [])
  | MOHas k => let* b := MapHasKey equal hash m k in Ok (m, WBool b, [])
  | MOSize => let* n := MapSize m in Ok (m, WNat n, [])
  | MOIter => let* l := MapIterate m in Ok (m, WEntries l, [])
  end.

Fixpoint mapi_run (m : map_t K V) (ops : list mop)
  : res (map_t K V * list mout * list (ev K V)) :=
  match ops with
  | [] => Ok (m, [], [])
  | o :: os =>
      let* ' (m, v, l) := mapi_step m o in
      let* ' (m, vs, ls) := mapi_run m os in Ok (m, v :: vs, l ++ ls)
  end.

(** destroy calls seen as two lists *)
Definition dkeys (l : list (ev K V)) : list K :=
  flat_map (fun e => match e with DKey _ k => [k] | DVal _ _ => [] end) l.
Definition dvals (l : list (ev K V)) : list V :=
  flat_map (fun e => match e with DKey _ _ => [] | DVal _ v => [v] end) l.

(** keys and values handed over by MapInsert calls *)
Definition ins_keys (ops : list mop) : list K :=
  flat_map (fun o => match o with MOInsert k _ => [k] | _ => [] end) ops.
Definition ins_vals (ops : list mop) : list V :=
  flat_map (fun o => match o with MOInsert _ v => [v] | _ => [] end) ops.
End Spec.
Arguments WUnit {K V}. Arguments WBool {K V} b. Arguments WNat {K V} n. Arguments WVal {K V} v.
Arguments MOSize {K V}. Arguments MOIter {K V}. Arguments MOClear {K V}.
Arguments MORemove {K V} k. Arguments MOGet {K V} k. Arguments MOHas {K V} k.
