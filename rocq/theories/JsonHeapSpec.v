(** What JSON elements in memory stand for: trees whose nodes are labelled with the addresses of the
    elements and of their strings; the heap is exactly a forest of them. *)
From Coq Require Import Permutation.
From Verif Require Import Prelude Str Libc JsonModel JsonHeapModel.
Set Implicit Arguments.

(** an element at an address; its name is a block with a content; the value of a primitive is a
    block, or (None) a string constant *)
Inductive tree :=
| TP (a : nat) (name : option (nat * list byte)) (t : ptype) (v : option nat) (s : list byte)
| TC (a : nat) (name : option (nat * list byte)) (k : kind) (ts : list tree).
Definition addr (t : tree) : nat := match t with TP a _ _ _ _ => a | TC a _ _ _ => a end.
Definition name (t : tree) : option (nat * list byte) := match t with TP _ n _ _ _ => n | TC _ n _ _ => n end.
Definition key (t : tree) : list byte := match name t with Some (_, k) => k | None => [] end.
Definition renamed (n : option (nat * list byte)) (t : tree) : tree := match t with TP a _ t v s => TP a n t v s | TC a _ k ts => TC a n k ts end.

(** the JSON value of an element *)
Fixpoint value (t : tree) : json :=
  match t with
  | TP _ _ t _ s => JPrim t s
  | TC _ _ KArray ts => JArr (map value ts)
  | TC _ _ KObject ts => JObj (map (fun t => (key t, value t)) ts)
  end.

(** the memory of a tree: its elements, and its strings *)
Definition pointer (v : option nat) (s : list byte) : sptr := match v with Some p => Block p | None => Static s end.
Fixpoint nodes (t : tree) : list (nat * elem) :=
  match t with
  | TP a n t v s => [(a, mkElem (option_map fst n) (Prim t (pointer v s)))]
  | TC a n k ts => (a, mkElem (option_map fst n) (Cont k (map addr ts))) :: flat_map nodes ts
  end.
Definition olist A (x : option A) : list A := match x with Some x => [x] | None => [] end.
Fixpoint strings (t : tree) : list (nat * list byte) :=
  match t with
  | TP _ n _ v s => olist n ++ olist (option_map (fun p => (p, s)) v)
  | TC _ n _ ts => olist n ++ flat_map strings ts
  end.
(** only booleans and nulls have constant strings; the members of an object have different names *)
Inductive wf : tree -> Prop :=
| wf_prim a n t v s : (v = None <-> t = PBool \/ t = PNull) -> wf (TP a n t v s)
| wf_array a n ts : Forall wf ts -> wf (TC a n KArray ts)
| wf_object a n ts : Forall wf ts -> Forall (fun t => name t <> None) ts -> NoDup (map key ts) -> wf (TC a n KObject ts).

(** the map [m] has exactly the entries of [l] *)
Definition has_entries A (m : nat -> option A) (l : list (nat * A)) : Prop := NoDup (map fst l) /\ forall a x, m a = Some x <-> In (a, x) l.
(** the heap is exactly the forest: every element and every string in memory belongs to exactly one
    place in exactly one tree *)
Definition forest (h : heap) (F : list tree) : Prop :=
  has_entries (h_elems h) (flat_map nodes F) /\ has_entries (h_strs h) (flat_map strings F) /\
  (forall a x, h_elems h a = Some x -> (a < h_next h)%nat) /\ (forall a x, h_strs h a = Some x -> (a < h_next h)%nat) /\ Forall wf F.

(** forests with a hole: the containers around the hole, inside out, and the other trees *)
Record frame := mkFrame { f_addr : nat; f_name : option (nat * list byte); f_kind : kind; f_left : list tree; f_right : list tree }.
Record context := mkCtx { c_frames : list frame; c_left : list tree; c_right : list tree }.
Definition fill1 (x : tree) (f : frame) : tree := TC (f_addr f) (f_name f) (f_kind f) (f_left f ++ x :: f_right f).
Definition fill (K : context) (x : tree) : list tree := c_left K ++ fold_left fill1 (c_frames K) x :: c_right K.

(** what the caller passes as a string: its content *)
Definition content (F : list tree) (p : sptr) (s : list byte) : Prop :=
  match p with Static t => s = t | Block n => In (n, s) (flat_map strings F) end.
(** the members of an object other than the one named [k], and the one *)
Definition others (k : list byte) (ts : list tree) : list tree := filter (fun t => negb (bytes_eqb k (key t))) ts.
Definition named (k : list byte) (ts : list tree) : list tree := filter (fun t => bytes_eqb k (key t)) ts.

(** ** programs *)
(** the string [p] is not one of the strings [S] *)
Definition not_among (S : list (nat * list byte)) (p : sptr) : Prop := match p with Static _ => True | Block n => ~ In n (map fst S) end.
(** what can be created *)
Inductive maker := MObject | MArray | MString (p : sptr) | MInteger (z : Z) | MInteger64 (z : Z) | MReal (printed : list byte) | MBool (b : bool) | MNull.
Definition made (F : list tree) (m : maker) (j : json) : Prop :=
  match m with
  | MObject => j = JObj []
  | MArray => j = JArr []
  | MString p => exists s, content F p s /\ j = JPrim PString s
  | MInteger z => (- 2 ^ 31 <= z < 2 ^ 31)%Z /\ j = JPrim PInt (sdec z)
  | MInteger64 z => j = JPrim PInt (sdec z)
  | MReal s => j = JPrim PReal (firstn 31 s)
  | MBool b => j = JPrim PBool (if b then lit "true" else lit "false")
  | MNull => j = JPrim PNull (lit "null")
  end.
Inductive call :=
| Create (m : maker)
| ObjectAppend (a : nat) (p : sptr) (m : maker)
| ObjectAppendElement (a : nat) (p : sptr) (e : nat)
| ArrayAppend (a : nat) (m : maker)
| ArrayAppendElement (a e : nat)
| ArrayExtend (a b : nat)
| RemoveKey (a : nat) (p : sptr)
| DetachKey (a : nat) (p : sptr)
| RemoveRange (a start fin : nat)
| Reverse (a : nat)
| Destroy (a : option nat)
| Copy (a : nat)
| ObjectGet (a : nat) (p : sptr)
| At (a i : nat)
| Length (a : nat)
| PropertyName (a : nat)
| StringOf (a : nat).
Inductive answer := ANone | AElem (a : nat) | AOpt (a : option nat) | ABool (b : bool) | ANat (n : nat) | AStr (p : option sptr).

Section Programs.
  (** what printf of %.4f prints for the number of a text *)
  Variable fmt4 : list byte -> list byte.
  (** the rules for the caller, and what the call does: in the forest [F] the call may be made, and then the
      new forest and the answer are as described *)
  Inductive rule (F : list tree) : call -> (list tree -> answer -> Prop) -> Prop :=
  | R_create m j : made F m j -> rule F (Create m) (fun F' r => exists t, F' = t :: F /\ name t = None /\ value t = j /\ r = AElem (addr t))
  | R_object_append K a n ts p k m j : F = fill K (TC a n KObject ts) -> made F m j -> content F p k -> not_among (flat_map strings (named k ts)) p ->
      rule F (ObjectAppend a p m) (fun F' r => exists t, name t <> None /\ key t = k /\ value t = j /\ F' = fill K (TC a n KObject (others k ts ++ [t])) /\ r = ANone)
  | R_object_append_element K a n ts p k e : Permutation F (e :: fill K (TC a n KObject ts)) -> content F p k -> not_among (olist (name e) ++ flat_map strings (named k ts)) p ->
      rule F (ObjectAppendElement a p (addr e)) (fun F' r => exists m, F' = fill K (TC a n KObject (others k ts ++ [renamed (Some (m, k)) e])) /\ r = ANone)
  | R_array_append K a n ts m j : F = fill K (TC a n KArray ts) -> made F m j ->
      rule F (ArrayAppend a m) (fun F' r => exists t, value t = j /\ F' = fill K (TC a n KArray (ts ++ [t])) /\ r = ANone)
  | R_array_append_element K a n ts e : Permutation F (e :: fill K (TC a n KArray ts)) ->
      rule F (ArrayAppendElement a (addr e)) (fun F' r => F' = fill K (TC a n KArray (ts ++ [e])) /\ r = ANone)
  | R_array_extend K a n ts b nb us : Permutation F (TC b nb KArray us :: fill K (TC a n KArray ts)) ->
      rule F (ArrayExtend a b) (fun F' r => F' = fill K (TC a n KArray (ts ++ us)) /\ r = ANone)
  | R_remove_key K a n ts p k : F = fill K (TC a n KObject ts) -> content F p k ->
      rule F (RemoveKey a p) (fun F' r => F' = fill K (TC a n KObject (others k ts)) /\ r = ABool (match named k ts with [] => false | _ => true end))
  | R_detach_key K a n ts p k : F = fill K (TC a n KObject ts) -> content F p k ->
      rule F (DetachKey a p) (fun F' r => F' = named k ts ++ fill K (TC a n KObject (others k ts)) /\ r = AOpt (option_map addr (hd_error (named k ts))))
  | R_remove_range K a n l x y : x <> [] -> F = fill K (TC a n KArray (l ++ x ++ y)) ->
      rule F (RemoveRange a (length l) (length l + length x - 1)) (fun F' r => F' = fill K (TC a n KArray (l ++ y)) /\ r = ANone)
  | R_reverse K a n ts : F = fill K (TC a n KArray ts) -> rule F (Reverse a) (fun F' r => F' = fill K (TC a n KArray (rev ts)) /\ r = ANone)
  | R_destroy e G : Permutation F (e :: G) -> rule F (Destroy (Some (addr e))) (fun F' r => F' = G /\ r = ANone)
  | R_destroy_null : rule F (Destroy None) (fun F' r => F' = F /\ r = ANone)
  | R_copy K x j : F = fill K x -> JsonModel.JsonCopy fmt4 (value x) = Ok j ->
      rule F (Copy (addr x)) (fun F' r => exists t, F' = t :: F /\ name t = None /\ value t = j /\ r = AElem (addr t))
  | R_object_get K a n ts p k : F = fill K (TC a n KObject ts) -> content F p k ->
      rule F (ObjectGet a p) (fun F' r => F' = F /\ r = AOpt (option_map addr (hd_error (named k ts))))
  | R_at K a n k l x y : F = fill K (TC a n k (l ++ x :: y)) -> rule F (At a (length l)) (fun F' r => F' = F /\ r = AElem (addr x))
  | R_length K a n k ts : F = fill K (TC a n k ts) -> rule F (Length a) (fun F' r => F' = F /\ r = ANat (length ts))
  | R_name K x : F = fill K x -> rule F (PropertyName (addr x)) (fun F' r => F' = F /\ r = AStr (option_map (fun n => Block (fst n)) (name x)))
  | R_string K a n t v s : F = fill K (TP a n t v s) -> rule F (StringOf a) (fun F' r => F' = F /\ exists p, r = AStr (Some p) /\ content F p s).

  (** a program: calls, each depending on the answers so far *)
  Inductive program := Done | Do (c : call) (next : answer -> program).
  (** the program follows the rules, and ends in a forest that satisfies [Q] *)
  Fixpoint follows (F : list tree) (p : program) (Q : list tree -> Prop) : Prop :=
    match p with
    | Done => Q F
    | Do c next => exists P, rule F c P /\ forall F' r, P F' r -> follows F' (next r) Q
    end.

  (** running it *)
  Definition make (h : heap) (m : maker) : res (heap * nat) :=
    match m with
    | MObject => Ok (JsonObjectCreate h)
    | MArray => Ok (JsonArrayCreate h)
    | MString p => JsonStringCreate h p
    | MInteger z => Ok (JsonIntegerCreate h z)
    | MInteger64 z => Ok (JsonIntegerCreate64 h z)
    | MReal s => Ok (JsonRealCreate h s)
    | MBool b => Ok (JsonBoolCreate h b)
    | MNull => Ok (JsonNullCreate h)
    end.
  Definition exec (h : heap) (c : call) : res (heap * answer) :=
    let none (r : res heap) := let* h := r in Ok (h, ANone) in
    match c with
    | Create m => let* ' (h, e) := make h m in Ok (h, AElem e)
    | ObjectAppend a p m =>
        none match m with
             | MString s => JsonObjectAppendString h a p s
             | MInteger z => JsonObjectAppendInteger h a p z
             | MInteger64 z => JsonObjectAppendInteger64 h a p z
             | MReal s => JsonObjectAppendReal h a p s
             | MBool b => JsonObjectAppendBool h a p b
             | MNull => JsonObjectAppendNull h a p
             | MObject => let (h, e) := JsonObjectCreate h in JsonObjectAppendObject h a p e
             | MArray => let (h, e) := JsonArrayCreate h in JsonObjectAppendArray h a p e
             end
    | ObjectAppendElement a p e => none (JsonObjectAppendElement h a p e)
    | ArrayAppend a m =>
        none match m with
             | MString s => JsonArrayAppendString h a s
             | MInteger z => JsonArrayAppendInteger h a z
             | MInteger64 z => let (h, e) := JsonIntegerCreate64 h z in JsonArrayAppendElement h a e
             | MReal s => JsonArrayAppendReal h a s
             | MBool b => JsonArrayAppendBool h a b
             | MNull => JsonArrayAppendNull h a
             | MObject => let (h, e) := JsonObjectCreate h in JsonArrayAppendObject h a e
             | MArray => let (h, e) := JsonArrayCreate h in JsonArrayAppendArray h a e
             end
    | ArrayAppendElement a e => none (JsonArrayAppendElement h a e)
    | ArrayExtend a b => none (JsonArrayExtend h a b)
    | RemoveKey a p => let* ' (h, b) := JsonObjectRemoveKey h a p in Ok (h, ABool b)
    | DetachKey a p => let* ' (h, d) := JsonObjectDetachKey h a p in Ok (h, AOpt d)
    | RemoveRange a s f => none (JsonArrayRemoveRange h a s f)
    | Reverse a => none (JsonContainerReverse h a)
    | Destroy a => none (JsonDestroy h a)
    | Copy a => let* ' (h, e) := JsonCopy fmt4 h a in Ok (h, AElem e)
    | ObjectGet a p => let* r := JsonObjectGet h a p in Ok (h, AOpt r)
    | At a i => let* r := JsonAt h a i in Ok (h, AElem r)
    | Length a => let* n := JsonLength h a in Ok (h, ANat n)
    | PropertyName a => let* r := JsonElementGetPropertyName h a in Ok (h, AStr r)
    | StringOf a => let* r := JsonPrimitiveGetAsString h a in Ok (h, AStr (Some r))
    end.
  Fixpoint run (h : heap) (p : program) : res heap :=
    match p with Done => Ok h | Do c next => let* ' (h, r) := exec h c in run h (next r) end.
End Programs.
Definition empty_heap : heap := mkHeap (fun _ => None) (fun _ => None) 0.

(** ** iterators: what calling a next function until it answers NULL gives *)
Inductive yields A (next : iterator -> res (iterator * option A)) : iterator -> list A -> Prop :=
| yields_end it it' : next it = Ok (it', None) -> yields next it []
| yields_more it it' x l : next it = Ok (it', Some x) -> yields next it' l -> yields next it (x :: l).
Definition is_container (t : tree) : bool := match t with TC _ _ _ _ => true | TP _ _ _ _ _ => false end.
Definition is_null (t : tree) : bool := match t with TP _ _ PNull _ _ => true | _ => false end.
