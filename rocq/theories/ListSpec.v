(** What lists with copies must do, without reference to how list.c does it: every handle
    has its own list of values and possibly a cursor (the mutable iterator), and an
    operation changes the handle it is called on and no other. *)
From Verif Require Import Prelude.
Set Implicit Arguments.

Section S.
Variable V : Type.
Variable cmpf : V -> V -> Z.

(** calls; a payload is passed by value, [New] tells which functions are given *)
Inductive lop :=
| New (cmp copy destroy : bool) | Copy (h : nat) | Destroy (h : nat)
| Append (h : nat) (v : V) | Prepend (h : nat) (v : V) | Remove (h : nat) (v : V)
| Count (h : nat) | Values (h : nat)
| MGet (h : nat) | MRelease (h : nat) | MFirst (h : nat) | MLast (h : nat) | MNext (h : nat) | MPrevious (h : nat)
| MData (h : nat) | MHasNext (h : nat) | MHasPrevious (h : nat)
| MRemove (h : nat) | MAppend (h : nat) (v : V) | MPrepend (h : nat) (v : V).
Inductive lret :=
| RUnit | RHandle (h : option nat) | RInt (z : Z) | RBool (b : bool) | RVal (v : option V) | RVals (vs : list V).

(** a handle: its values; its cursor (none, at a position, or invalid); whether it can be
    copied; and the storage it uses, which it may share with copies of it *)
Record alist := mkA { avals : list V; acur : option (option nat); acopy : bool; astore : nat }.
(** the next handle, and the handles *)
Record astate := mkS { anext : nat; amap : nat -> option alist }.
Definition ainit : astate := mkS 0 (fun _ => None).
Definition aset (st : astate) (h : nat) (x : option alist) : astate :=
  mkS (anext st) (fun k => if k =? h then x else amap st k).
Definition aadd (st : astate) (x : alist) : astate :=
  mkS (S (anext st)) (fun k => if k =? anext st then Some x else amap st k).
(** no other handle uses the storage [s] *)
Definition alone (st : astate) (h s : nat) : Prop :=
  forall k B, k <> h -> amap st k = Some B -> astore B <> s.

(** the first position whose value matches *)
Definition first_match (l : list V) (v : V) (j : nat) : Prop :=
  (exists x, nth_error l j = Some x /\ cmpf x v = 0%Z) /\
  (forall i x, i < j -> nth_error l i = Some x -> cmpf x v <> 0%Z).
Definition no_match (l : list V) (v : V) : Prop := forall x, In x l -> cmpf x v <> 0%Z.
Definition without_nth (l : list V) (j : nat) : list V := firstn j l ++ skipn (S j) l.
Definition insert_nth (l : list V) (j : nat) (v : V) : list V := firstn j l ++ v :: skipn j l.
(** where the cursor is after the value at [j] of [n] has gone: on the next one, or else
    on the previous one *)
Definition cursor_after (c : option (option nat)) (n j : nat) : option (option nat) :=
  match c with
  | Some (Some i) =>
      if i =? j then (if S j <? n then Some (Some j) else if 0 <? j then Some (Some (j - 1)) else Some None)
      else if j <? i then Some (Some (i - 1)) else Some (Some i)
  | _ => c
  end.

(** one call from state [st]; calls that may not be made have no transition:
    lists without a compare function, copying or destroying a list with a cursor, a
    cursor on a list that shares its storage, asking an invalid cursor for neighbours *)
Inductive astep (st : astate) : lop -> lret -> astate -> Prop :=
| s_new copy destroy s :
    (forall k B, amap st k = Some B -> astore B <> s) ->
    astep st (New true copy destroy) (RHandle (Some (anext st))) (aadd st (mkA [] None copy s))
| s_copy h A : amap st h = Some A -> acopy A = true -> acur A = None ->
    astep st (Copy h) (RHandle (Some (anext st))) (aadd st A)
| s_copy_no h A : amap st h = Some A -> acopy A = false -> astep st (Copy h) (RHandle None) st
| s_destroy h A : amap st h = Some A -> acur A = None -> astep st (Destroy h) RUnit (aset st h None)
| s_append h v A s : amap st h = Some A -> alone st h s ->
    astep st (Append h v) RUnit (aset st h (Some (mkA (avals A ++ [v]) (acur A) (acopy A) s)))
| s_prepend h v A s : amap st h = Some A -> alone st h s ->
    astep st (Prepend h v) RUnit
      (aset st h (Some (mkA (v :: avals A) (option_map (option_map S) (acur A)) (acopy A) s)))
| s_remove h v A j s : amap st h = Some A -> first_match (avals A) v j -> alone st h s ->
    astep st (Remove h v) (RInt 0)
      (aset st h (Some (mkA (without_nth (avals A) j) (cursor_after (acur A) (length (avals A)) j) (acopy A) s)))
| s_remove_no h v A : amap st h = Some A -> no_match (avals A) v -> astep st (Remove h v) (RInt (-1)) st
| s_count h A : amap st h = Some A -> astep st (Count h) (RInt (Z.of_nat (length (avals A)))) st
| s_values h A : amap st h = Some A -> astep st (Values h) (RVals (avals A)) st
(* the mutable iterator *)
| s_mget h A : amap st h = Some A -> acur A = None -> avals A <> [] -> alone st h (astore A) ->
    astep st (MGet h) (RBool true) (aset st h (Some (mkA (avals A) (Some (Some 0)) (acopy A) (astore A))))
| s_mget_no h A : amap st h = Some A -> acur A <> None \/ avals A = [] -> astep st (MGet h) (RBool false) st
| s_mrelease h A : amap st h = Some A -> acur A <> None ->
    astep st (MRelease h) RUnit (aset st h (Some (mkA (avals A) None (acopy A) (astore A))))
| s_mmove h A o i j r : amap st h = Some A -> acur A = Some (Some i) ->
    (o = MFirst h /\ j = 0 /\ r = 0%Z) \/
    (o = MLast h /\ j = length (avals A) - 1 /\ r = 0%Z) \/
    (o = MNext h /\ j = S i /\ S i < length (avals A) /\ r = 0%Z) \/
    (o = MNext h /\ j = i /\ S i = length (avals A) /\ r = (-1)%Z) \/
    (o = MPrevious h /\ S j = i /\ r = 0%Z) \/
    (o = MPrevious h /\ i = 0 /\ j = 0 /\ r = (-1)%Z) ->
    astep st o (RInt r) (aset st h (Some (mkA (avals A) (Some (Some j)) (acopy A) (astore A))))
| s_mdata h A i : amap st h = Some A -> acur A = Some (Some i) ->
    astep st (MData h) (RVal (nth_error (avals A) i)) st
| s_mhasnext h A i : amap st h = Some A -> acur A = Some (Some i) ->
    astep st (MHasNext h) (RBool (S i <? length (avals A))) st
| s_mhasprevious h A i : amap st h = Some A -> acur A = Some (Some i) ->
    astep st (MHasPrevious h) (RBool (0 <? i)) st
| s_mremove h A i : amap st h = Some A -> acur A = Some (Some i) -> 1 < length (avals A) ->
    astep st (MRemove h) (RInt 0)
      (aset st h (Some (mkA (without_nth (avals A) i) (cursor_after (acur A) (length (avals A)) i) (acopy A) (astore A))))
| s_mremove_only h A i : amap st h = Some A -> acur A = Some (Some i) -> length (avals A) = 1 ->
    astep st (MRemove h) (RInt (-1)) st
| s_mappend h v A i : amap st h = Some A -> acur A = Some (Some i) ->
    astep st (MAppend h v) (RInt 0)
      (aset st h (Some (mkA (insert_nth (avals A) (S i) v) (Some (Some i)) (acopy A) (astore A))))
| s_mprepend h v A i : amap st h = Some A -> acur A = Some (Some i) ->
    astep st (MPrepend h v) (RInt 0)
      (aset st h (Some (mkA (insert_nth (avals A) i v) (Some (Some (S i))) (acopy A) (astore A))))
| s_minvalid h A o r : amap st h = Some A -> acur A = Some None ->
    (exists v, In o [MFirst h; MLast h; MNext h; MPrevious h; MRemove h; MAppend h v; MPrepend h v] /\ r = RInt (-1)) \/
    (o = MData h /\ r = RVal None) ->
    astep st o r st.

Inductive asteps : astate -> list lop -> list lret -> astate -> Prop :=
| as_nil st : asteps st [] [] st
| as_cons st o r st1 os rs st2 : astep st o r st1 -> asteps st1 os rs st2 -> asteps st (o :: os) (r :: rs) st2.
End S.
