(** Model of libutils/json.c at the level of memory: elements, property names and values are
    objects that are allocated and freed; functions take and return pointers.

    Simplifications: allocation never fails and never gives an address again that was used
    before (so every use of freed memory is a use of an address that is not there: UB); the
    sequence of the children of a container (sequence.c, see SeqModel.v) is the list of
    their addresses, allocated and freed with the container.  A failing assert is Abort. *)
From Verif Require Import Prelude Str Libc NumModel JsonModel.
Set Implicit Arguments.

(** [const char *]: memory of the caller (or a string constant), or a block on the heap *)
Inductive sptr := Static (s : list byte) | Block (p : nat).
(** json.h:54-60 JsonContainerType *)
Inductive kind := KObject | KArray.
(** json.c:52-74 struct JsonElement_: element type, the union *)
Inductive body := Prim (t : ptype) (v : sptr) | Cont (k : kind) (children : list nat).
Record elem := mkElem { e_name : option nat; e_body : body }.
Record heap := mkHeap { h_elems : nat -> option elem; h_strs : nat -> option (list byte); h_next : nat }.

Definition at_nat A (f : nat -> option A) (n : nat) (x : option A) : nat -> option A := fun m => if (m =? n)%nat then x else f m.
(** [*element]; UB: it was freed *)
Definition load (h : heap) (a : nat) : res elem := match h_elems h a with Some e => Ok e | None => UB end.
(** [*element = e] *)
Definition store (h : heap) (a : nat) (e : elem) : res heap :=
  let* _ := load h a in Ok (mkHeap (at_nat (h_elems h) a (Some e)) (h_strs h) (h_next h)).
(** the string at [p] *)
Definition text (h : heap) (p : sptr) : res (list byte) :=
  match p with Static s => Ok s | Block n => match h_strs h n with Some s => Ok s | None => UB end end.
(** xstrdup of a string with this content *)
Definition new_str (h : heap) (s : list byte) : heap * nat :=
  (mkHeap (h_elems h) (at_nat (h_strs h) (h_next h) (Some s)) (S (h_next h)), h_next h).
Definition new_elem (h : heap) (e : elem) : heap * nat :=
  (mkHeap (at_nat (h_elems h) (h_next h) (Some e)) (h_strs h) (S (h_next h)), h_next h).
(** free of a string; UB: not an allocated block *)
Definition free_str (h : heap) (p : sptr) : res heap :=
  match p with
  | Static _ => UB
  | Block n => match h_strs h n with Some _ => Ok (mkHeap (h_elems h) (at_nat (h_strs h) n None) (h_next h)) | None => UB end
  end.
Definition free_elem (h : heap) (a : nat) : res heap :=
  let* _ := load h a in Ok (mkHeap (at_nat (h_elems h) a None) (h_strs h) (h_next h)).
(** the children of a container of kind [k]: the asserts at the beginning of most functions *)
Definition container (h : heap) (a : nat) : res (kind * list nat) :=
  let* e := load h a in match e_body e with Cont k cs => Ok (k, cs) | Prim _ _ => Abort end.
Definition same_kind (k k' : kind) : bool := match k, k' with KObject, KObject | KArray, KArray => true | _, _ => false end.
Definition children_of (h : heap) (k : kind) (a : nat) : res (list nat) :=
  let* ' (k', cs) := container h a in massert (same_kind k k') (Ok cs).
Definition set_children (h : heap) (a : nat) (cs : list nat) : res heap :=
  let* e := load h a in
  match e_body e with Cont k _ => store h a (mkElem (e_name e) (Cont k cs)) | Prim _ _ => UB end.

(** json.c:96-111 JsonElementSetPropertyName *)
Definition JsonElementSetPropertyName (h : heap) (a : nat) (name : option sptr) : res heap :=
  let* e := load h a in
  let* h := match e_name e with
            | Some n => let* h := free_str h (Block n) in store h a (mkElem None (e_body e))
            | None => Ok h
            end in
  match name with
  | Some p =>
      let* s := text h p in
      let (h, n) := new_str h s in
      store h a (mkElem (Some n) (e_body e))
  | None => Ok h
  end.
(** json.c:113-118 JsonElementGetPropertyName *)
Definition JsonElementGetPropertyName (h : heap) (a : nat) : res (option sptr) :=
  let* e := load h a in Ok (option_map Block (e_name e)).
(** json.c:798-803 JsonGetPropertyAsString *)
Definition JsonGetPropertyAsString := JsonElementGetPropertyName.
(** json.c:120-135 JsonElementCreateContainer *)
Definition JsonElementCreateContainer (h : heap) (k : kind) : heap * nat := new_elem h (mkElem None (Cont k [])).
(** json.c:137-148 JsonElementCreatePrimitive *)
Definition JsonElementCreatePrimitive (h : heap) (t : ptype) (v : sptr) : heap * nat := new_elem h (mkElem None (Prim t v)).
(** json.c:882-886 JsonObjectCreate *)
Definition JsonObjectCreate (h : heap) : heap * nat := JsonElementCreateContainer h KObject.
(** json.c:1308-1312 JsonArrayCreate *)
Definition JsonArrayCreate (h : heap) : heap * nat := JsonElementCreateContainer h KArray.

(** the primitives; the texts are those of the functions of the same names in JsonModel.v *)
Definition JsonText (j : json) : list byte := match j with JPrim _ v => v | _ => [] end.
(** json.c:1484-1490 JsonStringCreate *)
Definition JsonStringCreate (h : heap) (value : sptr) : res (heap * nat) :=
  let* s := text h value in
  let (h, n) := new_str h s in Ok (JsonElementCreatePrimitive h PString (Block n)).
(** json.c:1492-1498 JsonIntegerCreate *)
Definition JsonIntegerCreate (h : heap) (z : Z) : heap * nat :=
  let (h, n) := new_str h (JsonText (JsonModel.JsonIntegerCreate z)) in JsonElementCreatePrimitive h PInt (Block n).
(** json.c:1500-1506 JsonIntegerCreate64 *)
Definition JsonIntegerCreate64 (h : heap) (z : Z) : heap * nat :=
  let (h, n) := new_str h (JsonText (JsonModel.JsonIntegerCreate64 z)) in JsonElementCreatePrimitive h PInt (Block n).
(** json.c:1508-1519 JsonRealCreate; [printed] is what the C library prints for the number with %.4f *)
Definition JsonRealCreate (h : heap) (printed : list byte) : heap * nat :=
  let (h, n) := new_str h (JsonText (JsonModel.JsonRealCreate printed)) in JsonElementCreatePrimitive h PReal (Block n).
(** json.c:1521-1525 JsonBoolCreate: the value is a string constant *)
Definition JsonBoolCreate (h : heap) (b : bool) : heap * nat :=
  JsonElementCreatePrimitive h PBool (Static (if b then lit "true" else lit "false")).
(** json.c:1527-1530 JsonNullCreate *)
Definition JsonNullCreate (h : heap) : heap * nat := JsonElementCreatePrimitive h PNull (Static (lit "null")).

(** json.c:388-422 JsonDestroy, not of NULL; SeqDestroy destroys the children from the first to the last.
    Each level of the tree takes one of [f]. *)
Fixpoint JsonDestroy_rec (f : nat) (h : heap) (a : nat) : res heap :=
  match f with
  | O => Fuel
  | S f =>
      let* e := load h a in
      let* h := match e_body e with
                | Cont _ cs =>
                    (fix go (cs : list nat) (h : heap) : res heap :=
                       match cs with [] => Ok h | c :: cs => let* h := JsonDestroy_rec f h c in go cs h end) cs h
                | Prim (PNull | PBool) _ => Ok h
                | Prim _ v => free_str h v
                end in
      let* h := match e_name e with Some n => free_str h (Block n) | None => Ok h end in
      free_elem h a
  end.
(** json.c:388-422 JsonDestroy *)
Definition JsonDestroy (h : heap) (a : option nat) : res heap :=
  match a with Some a => JsonDestroy_rec (S (h_next h)) h a | None => Ok h end.
(** json.c:424-430 JsonDestroyMaybe *)
Definition JsonDestroyMaybe (h : heap) (a : option nat) (allocated : bool) : res heap :=
  if allocated then JsonDestroy h a else Ok h.

(** sequence.c:195-207 SeqIndexOf with json.c:1155-1162 CompareKeyToPropertyName: StringSafeCompare is 0 if the strings
    are equal (the key is not NULL) *)
Fixpoint index_of (h : heap) (cs : list nat) (key : sptr) (i : nat) : res (option nat) :=
  match cs with
  | [] => Ok None
  | c :: cs =>
      let* e := load h c in
      let* same := match e_name e with
                   | Some n => let* k := text h key in let* s := text h (Block n) in Ok (bytes_eqb k s)
                   | None => Ok false
                   end in
      if same : bool then Ok (Some i) else index_of h cs key (S i)
  end.
(** json.c:1164-1174 JsonElementIndexInParentObject *)
Definition JsonElementIndexInParentObject (h : heap) (a : nat) (key : sptr) : res (option nat) :=
  let* cs := children_of h KObject a in index_of h cs key 0.
(** sequence.c:167-179 SeqLookup with json.c:1137-1153 JsonElementHasProperty *)
Fixpoint lookup (h : heap) (cs : list nat) (key : sptr) : res (option nat) :=
  match cs with
  | [] => Ok None
  | c :: cs =>
      let* e := load h c in
      match e_name e with
      | None => Abort
      | Some n => let* k := text h key in let* s := text h (Block n) in
                  if bytes_eqb k s then Ok (Some c) else lookup h cs key
      end
  end.
(** sequence.c:48-58 DestroyRange: JsonDestroy of children *)
Fixpoint destroy_all (h : heap) (cs : list nat) : res heap :=
  match cs with [] => Ok h | c :: cs => let* h := JsonDestroy h (Some c) in destroy_all h cs end.
(** sequence.c:144-160 SeqRemoveRange *)
Definition remove_range (h : heap) (a : nat) (cs : list nat) (start fin : nat) : res heap :=
  massert ((fin <? length cs) && (start <=? fin))%nat
    (let* h := destroy_all h (firstn (S fin - start) (skipn start cs)) in
     set_children h a (firstn start cs ++ skipn (S fin) cs)).

(** json.c:1176-1190 JsonObjectRemoveKey *)
Definition JsonObjectRemoveKey (h : heap) (a : nat) (key : sptr) : res (heap * bool) :=
  let* i := JsonElementIndexInParentObject h a key in
  match i with
  | Some i => let* cs := children_of h KObject a in let* h := remove_range h a cs i i in Ok (h, true)
  | None => Ok (h, false)
  end.
(** json.c:1192-1211 JsonObjectDetachKey *)
Definition JsonObjectDetachKey (h : heap) (a : nat) (key : sptr) : res (heap * option nat) :=
  let* i := JsonElementIndexInParentObject h a key in
  match i with
  | Some i =>
      let* cs := children_of h KObject a in
      let* detached := lookup h cs key in
      let* h := set_children h a (firstn i cs ++ skipn (S i) cs) in
      Ok (h, detached)
  | None => Ok (h, None)
  end.
(** json.c:1120-1135 JsonObjectAppendElement *)
Definition JsonObjectAppendElement (h : heap) (a : nat) (key : sptr) (e : nat) : res heap :=
  let* ' (h, _) := JsonObjectRemoveKey h a key in
  let* h := JsonElementSetPropertyName h e (Some key) in
  let* cs := children_of h KObject a in
  set_children h a (cs ++ [e]).
(** json.c:1057-1062 JsonObjectAppendString *)
Definition JsonObjectAppendString (h : heap) (a : nat) (key value : sptr) : res heap :=
  let* ' (h, e) := JsonStringCreate h value in JsonObjectAppendElement h a key e.
(** json.c:1064-1069 JsonObjectAppendInteger *)
Definition JsonObjectAppendInteger (h : heap) (a : nat) (key : sptr) (z : Z) : res heap :=
  let (h, e) := JsonIntegerCreate h z in JsonObjectAppendElement h a key e.
(** json.c:1071-1076 JsonObjectAppendInteger64 *)
Definition JsonObjectAppendInteger64 (h : heap) (a : nat) (key : sptr) (z : Z) : res heap :=
  let (h, e) := JsonIntegerCreate64 h z in JsonObjectAppendElement h a key e.
(** json.c:1078-1083 JsonObjectAppendBool *)
Definition JsonObjectAppendBool (h : heap) (a : nat) (key : sptr) (b : bool) : res heap :=
  let (h, e) := JsonBoolCreate h b in JsonObjectAppendElement h a key e.
(** json.c:1085-1090 JsonObjectAppendReal *)
Definition JsonObjectAppendReal (h : heap) (a : nat) (key : sptr) (printed : list byte) : res heap :=
  let (h, e) := JsonRealCreate h printed in JsonObjectAppendElement h a key e.
(** json.c:1092-1096 JsonObjectAppendNull *)
Definition JsonObjectAppendNull (h : heap) (a : nat) (key : sptr) : res heap :=
  let (h, e) := JsonNullCreate h in JsonObjectAppendElement h a key e.
(** json.c:1098-1106 JsonObjectAppendArray *)
Definition JsonObjectAppendArray (h : heap) (a : nat) (key : sptr) (e : nat) : res heap :=
  let* _ := children_of h KArray e in JsonObjectAppendElement h a key e.
(** json.c:1108-1118 JsonObjectAppendObject *)
Definition JsonObjectAppendObject (h : heap) (a : nat) (key : sptr) (e : nat) : res heap :=
  let* _ := children_of h KObject e in JsonObjectAppendElement h a key e.

(** json.c:1363-1372 JsonArrayAppendElement *)
Definition JsonArrayAppendElement (h : heap) (a e : nat) : res heap :=
  let* cs := children_of h KArray a in set_children h a (cs ++ [e]).
(** json.c:1314-1318 JsonArrayAppendString *)
Definition JsonArrayAppendString (h : heap) (a : nat) (value : sptr) : res heap :=
  let* ' (h, e) := JsonStringCreate h value in JsonArrayAppendElement h a e.
(** json.c:1320-1324 JsonArrayAppendBool *)
Definition JsonArrayAppendBool (h : heap) (a : nat) (b : bool) : res heap :=
  let (h, e) := JsonBoolCreate h b in JsonArrayAppendElement h a e.
(** json.c:1326-1330 JsonArrayAppendInteger *)
Definition JsonArrayAppendInteger (h : heap) (a : nat) (z : Z) : res heap :=
  let (h, e) := JsonIntegerCreate h z in JsonArrayAppendElement h a e.
(** json.c:1332-1336 JsonArrayAppendReal *)
Definition JsonArrayAppendReal (h : heap) (a : nat) (printed : list byte) : res heap :=
  let (h, e) := JsonRealCreate h printed in JsonArrayAppendElement h a e.
(** json.c:1338-1342 JsonArrayAppendNull *)
Definition JsonArrayAppendNull (h : heap) (a : nat) : res heap :=
  let (h, e) := JsonNullCreate h in JsonArrayAppendElement h a e.
(** json.c:1344-1352 JsonArrayAppendArray *)
Definition JsonArrayAppendArray (h : heap) (a e : nat) : res heap :=
  let* _ := children_of h KArray e in JsonArrayAppendElement h a e.
(** json.c:1354-1361 JsonArrayAppendObject *)
Definition JsonArrayAppendObject (h : heap) (a e : nat) : res heap :=
  let* _ := children_of h KObject e in JsonArrayAppendElement h a e.
(** json.c:1374-1390 JsonArrayExtend; for a == b the loop of SeqAppendSeq never ends (Fuel) *)
Definition JsonArrayExtend (h : heap) (a b : nat) : res heap :=
  if (a =? b)%nat then Fuel else
  let* cs := children_of h KArray a in
  let* ds := children_of h KArray b in
  let* h := set_children h a (cs ++ ds) in
  let* e := load h b in
  let* h := match e_name e with Some n => free_str h (Block n) | None => Ok h end in
  free_elem h b.
(** json.c:1392-1402 JsonArrayRemoveRange *)
Definition JsonArrayRemoveRange (h : heap) (a : nat) (start fin : nat) : res heap :=
  let* cs := children_of h KArray a in remove_range h a cs start fin.
(** json.c:1471-1478 JsonContainerReverse *)
Definition JsonContainerReverse (h : heap) (a : nat) : res heap :=
  let* cs := children_of h KArray a in set_children h a (rev cs).

(** ** reading *)
(** json.c:669-674 JsonGetElementType: true is JSON_ELEMENT_TYPE_CONTAINER *)
Definition JsonGetElementType (h : heap) (a : nat) : res bool :=
  let* e := load h a in Ok (match e_body e with Cont _ _ => true | Prim _ _ => false end).
(** json.c:687-693 JsonGetContainerType *)
Definition JsonGetContainerType (h : heap) (a : nat) : res kind := let* ' (k, _) := container h a in Ok k.
Definition primitive (h : heap) (a : nat) : res (ptype * sptr) :=
  let* e := load h a in match e_body e with Prim t v => Ok (t, v) | Cont _ _ => Abort end.
(** json.c:695-701 JsonGetPrimitiveType *)
Definition JsonGetPrimitiveType (h : heap) (a : nat) : res ptype := let* ' (t, _) := primitive h a in Ok t.
(** json.h JsonType *)
Inductive jtype := TContainer (k : kind) | TPrimitive (t : ptype).
(** json.c:676-685 JsonGetType *)
Definition JsonGetType (h : heap) (a : nat) : res jtype :=
  let* c := JsonGetElementType h a in
  if c : bool then let* k := JsonGetContainerType h a in Ok (TContainer k) else let* t := JsonGetPrimitiveType h a in Ok (TPrimitive t).
(** json.c:533-549 JsonLength: children, or the characters of a primitive *)
Definition JsonLength (h : heap) (a : nat) : res nat :=
  let* e := load h a in
  match e_body e with Cont _ cs => Ok (length cs) | Prim _ v => let* s := text h v in Ok (length s) end.
(** json.c:703-709 JsonPrimitiveGetAsString *)
Definition JsonPrimitiveGetAsString (h : heap) (a : nat) : res sptr := let* ' (_, v) := primitive h a in Ok v.
(** the asserts on the type, and the text *)
Definition typed_text (h : heap) (a : nat) (ok : ptype -> bool) : res (list byte) :=
  let* ' (t, v) := primitive h a in massert (ok t) (text h v).
(** json.c:743-750 JsonPrimitiveGetAsBool *)
Definition JsonPrimitiveGetAsBool (h : heap) (a : nat) : res bool :=
  let* s := typed_text h a (fun t => match t with PBool => true | _ => false end) in Ok (JsonModel.JsonPrimitiveGetAsBool s).
Definition is_int (t : ptype) : bool := match t with PInt => true | _ => false end.
(** json.c:752-759 JsonPrimitiveGetAsInteger *)
Definition JsonPrimitiveGetAsInteger (h : heap) (a : nat) : res Z :=
  let* s := typed_text h a is_int in StringToLongExitOnError s.
(** json.c:762-769 JsonPrimitiveGetAsInt64: the code and the number stored *)
Definition JsonPrimitiveGetAsInt64 (h : heap) (a : nat) : res (Z * option Z) :=
  let* s := typed_text h a is_int in StringToInt64 s.
(** json.c:771-778 JsonPrimitiveGetAsInt64DefaultOnError *)
Definition JsonPrimitiveGetAsInt64DefaultOnError (h : heap) (a : nat) (default : Z) : res Z :=
  let* s := typed_text h a is_int in StringToInt64DefaultOnError s default.
(** json.c:780-787 JsonPrimitiveGetAsInt64ExitOnError *)
Definition JsonPrimitiveGetAsInt64ExitOnError (h : heap) (a : nat) : res Z :=
  let* s := typed_text h a is_int in StringToInt64ExitOnError s.
(** json.c:1293-1302 JsonObjectGet *)
Definition JsonObjectGet (h : heap) (a : nat) (key : sptr) : res (option nat) :=
  let* cs := children_of h KObject a in lookup h cs key.
(** json.c:1213-1231 JsonObjectGetAsString *)
Definition JsonObjectGetAsString (h : heap) (a : nat) (key : sptr) : res (option sptr) :=
  let* r := JsonObjectGet h a key in
  match r with Some c => let* ' (_, v) := primitive h c in Ok (Some v) | None => Ok None end.
(** json.c:1233-1249 JsonObjectGetAsBool *)
Definition JsonObjectGetAsBool (h : heap) (a : nat) (key : sptr) : res bool :=
  let* r := JsonObjectGet h a key in
  match r with Some c => JsonPrimitiveGetAsBool h c | None => Ok false end.
(** json.c:1251-1270 JsonObjectGetAsObject *)
Definition JsonObjectGetAsObject (h : heap) (a : nat) (key : sptr) : res (option nat) :=
  let* r := JsonObjectGet h a key in
  match r with Some c => let* _ := children_of h KObject c in Ok (Some c) | None => Ok None end.
(** json.c:1272-1291 JsonObjectGetAsArray *)
Definition JsonObjectGetAsArray (h : heap) (a : nat) (key : sptr) : res (option nat) :=
  let* r := JsonObjectGet h a key in
  match r with Some c => let* _ := children_of h KArray c in Ok (Some c) | None => Ok None end.
(** json.c:817-824 JsonAt *)
Definition JsonAt (h : heap) (a : nat) (i : nat) : res nat :=
  let* ' (_, cs) := container h a in match nth_error cs i with Some c => Ok c | None => Abort end.
(** json.c:1442-1449 JsonArrayGet *)
Definition JsonArrayGet (h : heap) (a : nat) (i : nat) : res nat := let* _ := children_of h KArray a in JsonAt h a i.
(** json.c:1404-1421 JsonArrayGetAsString *)
Definition JsonArrayGetAsString (h : heap) (a : nat) (i : nat) : res sptr :=
  let* c := JsonArrayGet h a i in
  let* ' (t, v) := primitive h c in massert (match t with PString => true | _ => false end) (Ok v).
(** json.c:1423-1440 JsonArrayGetAsObject *)
Definition JsonArrayGetAsObject (h : heap) (a : nat) (i : nat) : res nat :=
  let* c := JsonArrayGet h a i in let* _ := children_of h KObject c in Ok c.
(** json.c:1451-1469 JsonArrayContainsOnlyPrimitives: the loop *)
Fixpoint only_primitives (h : heap) (cs : list nat) : res bool :=
  match cs with
  | [] => Ok true
  | c :: cs => let* e := load h c in match e_body e with Prim _ _ => only_primitives h cs | Cont _ _ => Ok false end
  end.
Definition JsonArrayContainsOnlyPrimitives (h : heap) (a : nat) : res bool :=
  let* cs := children_of h KArray a in only_primitives h cs.

(** ** iterators: the container and the index *)
Definition iterator : Type := nat * nat.
(** json.c:551-557 JsonIteratorInit *)
Definition JsonIteratorInit (h : heap) (a : nat) : res iterator := let* _ := container h a in Ok (a, 0%nat).
(** json.c:570-583 JsonIteratorNextValue *)
Definition JsonIteratorNextValue (h : heap) (it : iterator) : res (iterator * option nat) :=
  let* ' (_, cs) := container h (fst it) in
  match nth_error cs (snd it) with Some c => Ok ((fst it, S (snd it)), Some c) | None => Ok (it, None) end.
(** json.c:559-568 JsonIteratorNextKey *)
Definition JsonIteratorNextKey (h : heap) (it : iterator) : res (iterator * option sptr) :=
  let* _ := children_of h KObject (fst it) in
  let* ' (it, c) := JsonIteratorNextValue h it in
  match c with Some c => let* n := JsonElementGetPropertyName h c in Ok (it, n) | None => Ok (it, None) end.
(** json.c:585-603 JsonIteratorNextValueByType; [k] values to go, for the loop *)
Fixpoint next_by_type (k : nat) (h : heap) (it : iterator) (cont skip_null : bool) : res (iterator * option nat) :=
  let* ' (it, r) := JsonIteratorNextValue h it in
  match r with
  | None => Ok (it, None)
  | Some e =>
      match k with
      | O => Fuel
      | S k =>
          let* skip := if skip_null then let* t := JsonGetType h e in Ok (match t with TPrimitive PNull => true | _ => false end) else Ok false in
          if skip : bool then next_by_type k h it cont skip_null
          else let* c := JsonGetElementType h e in
               if Bool.eqb c cont then Ok (it, Some e) else next_by_type k h it cont skip_null
      end
  end.
Definition JsonIteratorNextValueByType (h : heap) (it : iterator) (cont skip_null : bool) : res (iterator * option nat) :=
  let* n := JsonLength h (fst it) in next_by_type n h it cont skip_null.
(** json.c:605-618 JsonIteratorCurrentValue *)
Definition JsonIteratorCurrentValue (h : heap) (it : iterator) : res (option nat) :=
  let* ' (_, cs) := container h (fst it) in
  Ok (match snd it with O => None | S i => nth_error cs i end).
(** json.c:620-630 JsonIteratorCurrentKey *)
Definition JsonIteratorCurrentKey (h : heap) (it : iterator) : res (option sptr) :=
  let* _ := children_of h KObject (fst it) in
  let* c := JsonIteratorCurrentValue h it in
  match c with Some c => JsonElementGetPropertyName h c | None => Ok None end.
(** json.c:632-638 JsonIteratorCurrentElementType; UB: there is no current value *)
Definition JsonIteratorCurrentElementType (h : heap) (it : iterator) : res bool :=
  let* c := JsonIteratorCurrentValue h it in match c with Some c => JsonGetElementType h c | None => UB end.
(** json.c:640-649 JsonIteratorCurrentContainerType *)
Definition JsonIteratorCurrentContainerType (h : heap) (it : iterator) : res kind :=
  let* c := JsonIteratorCurrentValue h it in match c with Some c => JsonGetContainerType h c | None => UB end.
(** json.c:651-660 JsonIteratorCurrentPrimitiveType *)
Definition JsonIteratorCurrentPrimitiveType (h : heap) (it : iterator) : res ptype :=
  let* c := JsonIteratorCurrentValue h it in match c with Some c => JsonGetPrimitiveType h c | None => UB end.
(** json.c:662-667 JsonIteratorHasMore *)
Definition JsonIteratorHasMore (h : heap) (it : iterator) : res bool :=
  let* n := JsonLength h (fst it) in Ok (snd it <? n)%nat.

(** ** copying *)
Section Copy.
  (** what printf of %.4f prints for the number of a text *)
  Variable fmt4 : list byte -> list byte.
  (** json.c:208-235 JsonPrimitiveCopy *)
  Definition JsonPrimitiveCopy (h : heap) (a : nat) : res (heap * nat) :=
    let* ' (t, v) := primitive h a in
    match t with
    | PBool => let* b := JsonPrimitiveGetAsBool h a in Ok (JsonBoolCreate h b)
    | PInt => let* z := JsonPrimitiveGetAsInteger h a in Ok (JsonIntegerCreate h z)
    | PNull => Ok (JsonNullCreate h)
    | PReal => let* s := text h v in Ok (JsonRealCreate h (fmt4 s))
    | PString => JsonStringCreate h v
    end.
  (** json.c:237-250 JsonCopy, JsonContainerCopy, JsonArrayCopy, JsonObjectCopy; each level of the tree takes one of [f] *)
  Fixpoint JsonCopy_rec (f : nat) (h : heap) (a : nat) : res (heap * nat) :=
    match f with
    | O => Fuel
    | S f =>
        let* e := load h a in
        match e_body e with
        | Prim _ _ => JsonPrimitiveCopy h a
        | Cont KArray cs =>
            let (h, copy) := JsonArrayCreate h in
            let* h := (fix go (cs : list nat) (h : heap) : res heap :=
                         match cs with
                         | [] => Ok h
                         | c :: cs =>
                             let* ' (h, c') := JsonCopy_rec f h c in
                             let* h := JsonArrayAppendElement h copy c' in go cs h
                         end) cs h in
            Ok (h, copy)
        | Cont KObject cs =>
            let (h, copy) := JsonObjectCreate h in
            let* h := (fix go (cs : list nat) (h : heap) : res heap :=
                         match cs with
                         | [] => Ok h
                         | c :: cs =>
                             let* n := JsonElementGetPropertyName h c in
                             let* ' (h, c') := JsonCopy_rec f h c in
                             match n with
                             | Some n => let* h := JsonObjectAppendElement h copy n c' in go cs h
                             | None => Abort
                             end
                         end) cs h in
            Ok (h, copy)
        end
    end.
  Definition JsonCopy (h : heap) (a : nat) : res (heap * nat) := JsonCopy_rec (S (h_next h)) h a.
End Copy.
