(** Model of libutils/json.c: element trees, copying, comparing, merging, object and
    array operations, string escaping, the two writers and the parser.

    Simplifications.  A container's [Seq *children] is the list of its elements
    (what sequence.c guarantees is proved in PropsSeq.v, and PropsJson.v connects
    [sort_children] to the model of SeqSort); an element's propertyName is kept
    beside the element in its parent object instead of inside it, and an element that
    is detached or put into an array keeps no name.  A [Writer *] is the text written
    so far (string writers are proved to behave so in PropsWriter.v).  malloc never
    fails.  Recursion depth is not limited. *)
From Verif Require Import Prelude Str Libc NumModel EditModel.
Set Implicit Arguments.
Local Open Scope char_scope.

Definition DQ : byte := """".
Definition BS : byte := "\".
Definition B_b : byte := "008".
Definition B_t : byte := "009".
Definition B_n : byte := "010".
Definition B_f : byte := "012".
Definition B_r : byte := "013".

(** json.h:62-69 JsonPrimitiveType *)
Inductive ptype := PString | PInt | PReal | PBool | PNull.

(** json.c:52-74 struct JsonElement_ *)
Inductive json :=
| JPrim (t : ptype) (v : list byte)
| JArr (cs : list json)
| JObj (kvs : list (list byte * json)).

(** * Primitives *)

(** json.c:1484-1490 JsonStringCreate *)
Definition JsonStringCreate (v : list byte) : json := JPrim PString v.
(** json.c:1492-1498 JsonIntegerCreate: the argument is an int, the conversion of a long
    argument keeps its low 32 bits *)
Definition to_int (z : Z) : Z := ((z + 2 ^ 31) mod 2 ^ 32 - 2 ^ 31)%Z.
Definition JsonIntegerCreate (z : Z) : json := JPrim PInt (sdec (to_int z)).
(** json.c:1500-1506 JsonIntegerCreate64 *)
Definition JsonIntegerCreate64 (z : Z) : json := JPrim PInt (sdec z).
(** json.c:1508-1519 JsonRealCreate; [text] is what the C library prints for the double
    under %.4f (0.0 for NaN and infinities), cut to the 32-byte buffer *)
Definition JsonRealCreate (text : list byte) : json := JPrim PReal (firstn 31 text).
(** json.c:1521-1525 JsonBoolCreate *)
Definition JsonBoolCreate (b : bool) : json := JPrim PBool (if b then lit "true" else lit "false").
(** json.c:1527-1530 JsonNullCreate *)
Definition JsonNullCreate : json := JPrim PNull (lit "null").

(** json.c:743-750 JsonPrimitiveGetAsBool *)
Definition JsonPrimitiveGetAsBool (v : list byte) : bool := bytes_eqb (lit "true") v.
(** json.c:752-759 JsonPrimitiveGetAsInteger *)
Definition JsonPrimitiveGetAsInteger (v : list byte) : res Z := StringToLongExitOnError v.

(** * Objects *)

(** sequence.c:195-207 SeqIndexOf with json.c:1155-1162 CompareKeyToPropertyName *)
Fixpoint index_of (kvs : list (list byte * json)) (key : list byte) : option nat :=
  match kvs with
  | [] => None
  | (k, _) :: r => if bytes_eqb key k then Some 0 else option_map S (index_of r key)
  end.

(** sequence.c:167-179 SeqLookup with json.c:1137-1153 JsonElementHasProperty; json.c:1293-1302 JsonObjectGet *)
Fixpoint JsonObjectGet (kvs : list (list byte * json)) (key : list byte) : option json :=
  match kvs with
  | [] => None
  | (k, v) :: r => if bytes_eqb key k then Some v else JsonObjectGet r key
  end.

Definition remove_at A (l : list A) (i : nat) : list A := firstn i l ++ skipn (S i) l.

(** json.c:1176-1190 JsonObjectRemoveKey *)
Definition JsonObjectRemoveKey (kvs : list (list byte * json)) (key : list byte)
  : bool * list (list byte * json) :=
  match index_of kvs key with
  | Some i => (true, remove_at kvs i)
  | None => (false, kvs)
  end.

(** json.c:1192-1211 JsonObjectDetachKey *)
Definition JsonObjectDetachKey (kvs : list (list byte * json)) (key : list byte)
  : option json * list (list byte * json) :=
  match index_of kvs key with
  | Some i => (JsonObjectGet kvs key, remove_at kvs i)
  | None => (None, kvs)
  end.

(** json.c:1120-1135 JsonObjectAppendElement *)
Definition JsonObjectAppendElement (kvs : list (list byte * json)) (key : list byte) (e : json)
  : list (list byte * json) :=
  snd (JsonObjectRemoveKey kvs key) ++ [(key, e)].

(** * Arrays *)

(** json.c:1363-1372 JsonArrayAppendElement *)
Definition JsonArrayAppendElement (cs : list json) (e : json) : list json := cs ++ [e].
(** json.c:1374-1390 JsonArrayExtend *)
Definition JsonArrayExtend (a b : list json) : list json := a ++ b.
(** json.c:1392-1402 JsonArrayRemoveRange with its assertions *)
Definition JsonArrayRemoveRange (cs : list json) (start fin : nat) : res (list json) :=
  if ((fin <? length cs) && (start <=? fin))%nat then Ok (firstn start cs ++ skipn (S fin) cs) else Abort.
(** json.c:1471-1478 JsonContainerReverse *)
Definition JsonContainerReverse A (cs : list A) : list A := rev cs.
(** json.c:817-824 JsonAt with its assertions *)
Definition children (j : json) : res (list json) :=
  match j with JPrim _ _ => Abort | JArr cs => Ok cs | JObj kvs => Ok (map snd kvs) end.
Definition JsonAt (j : json) (i : nat) : res json :=
  let* cs := children j in match nth_error cs i with Some c => Ok c | None => Abort end.

(** json.c:533-549 JsonLength *)
Definition JsonLength (j : json) : nat :=
  match j with JPrim _ v => length v | JArr cs => length cs | JObj kvs => length kvs end.

(** * Copying *)
Section Copy.
  (** what printf("%.4f", strtod(v)) prints for the number text [v] *)
  Variable fmt4 : list byte -> list byte.

  (** json.c:208-235 JsonPrimitiveCopy *)
  Definition JsonPrimitiveCopy (t : ptype) (v : list byte) : res json :=
    match t with
    | PBool => Ok (JsonBoolCreate (JsonPrimitiveGetAsBool v))
    | PInt => let* z := JsonPrimitiveGetAsInteger v in Ok (JsonIntegerCreate z)
    | PNull => Ok JsonNullCreate
    | PReal => Ok (JsonRealCreate (fmt4 v))
    | PString => Ok (JsonStringCreate v)
    end.

  (** json.c:237-250 JsonCopy, json.c:188-206 JsonContainerCopy, json.c:150-166 JsonArrayCopy,
      json.c:168-185 JsonObjectCopy *)
  Fixpoint JsonCopy (j : json) : res json :=
    match j with
    | JPrim t v => JsonPrimitiveCopy t v
    | JArr cs =>
        let* out := (fix loop l acc := match l with
                     | [] => Ok acc
                     | c :: r => let* c' := JsonCopy c in loop r (JsonArrayAppendElement acc c')
                     end) cs [] in
        Ok (JArr out)
    | JObj kvs =>
        let* out := (fix loop l acc := match l with
                     | [] => Ok acc
                     | (k, c) :: r => let* c' := JsonCopy c in loop r (JsonObjectAppendElement acc k c')
                     end) kvs [] in
        Ok (JObj out)
    end.

  (** json.c:432-452 JsonArrayMergeArray *)
  Fixpoint append_copies (l : list json) (acc : list json) : res (list json) :=
    match l with
    | [] => Ok acc
    | c :: r => let* c' := JsonCopy c in append_copies r (JsonArrayAppendElement acc c')
    end.
  Definition JsonArrayMergeArray (a b : list json) : res json :=
    let* out := append_copies a [] in let* out := append_copies b out in Ok (JArr out).

  (** json.c:454-471 JsonObjectMergeArray; StringFromLong(i) prints the index *)
  Fixpoint append_indexed (l : list json) (i : nat) (acc : list (list byte * json))
    : res (list (list byte * json)) :=
    match l with
    | [] => Ok acc
    | c :: r => let* c' := JsonCopy c in
                append_indexed r (S i) (JsonObjectAppendElement acc (sdec (Z.of_nat i)) c')
    end.
  Definition copied_object (j : json) : res (list (list byte * json)) :=
    let* j' := JsonCopy j in match j' with JObj kvs => Ok kvs | _ => Abort end.
  Definition JsonObjectMergeArray (a : list (list byte * json)) (b : list json) : res json :=
    let* r := copied_object (JObj a) in
    let* out := append_indexed b 0 r in Ok (JObj out).

  (** json.c:473-491 JsonObjectMergeObject *)
  Fixpoint append_members (l : list (list byte * json)) (acc : list (list byte * json))
    : res (list (list byte * json)) :=
    match l with
    | [] => Ok acc
    | (k, c) :: r => let* c' := JsonCopy c in append_members r (JsonObjectAppendElement acc k c')
    end.
  Definition JsonObjectMergeObject (a b : list (list byte * json)) : res json :=
    let* r := copied_object (JObj a) in
    let* out := append_members b r in Ok (JObj out).

  (** json.c:493-530 JsonMerge *)
  Definition JsonMerge (a b : json) : res json :=
    match a, b with
    | JArr x, JObj y => JsonObjectMergeArray y x
    | JArr x, JArr y => JsonArrayMergeArray x y
    | JObj x, JObj y => JsonObjectMergeObject x y
    | JObj x, JArr y => JsonObjectMergeArray x y
    | _, _ => Abort
    end.
End Copy.

(** * Comparing *)
Section Compare.
  Variable strcmp : list byte -> list byte -> Z.

  (** the int difference of two lengths *)
  Definition len_diff (a b : nat) : Z := to_int (Z.of_nat a - Z.of_nat b).

  (** json.c:360-385 JsonCompare, json.c:330-358 JsonContainerCompare, json.c:252-284 JsonArrayCompare,
      json.c:286-327 JsonObjectCompare.  Both iterators of the container comparisons are
      initialised from [a] (json.c:269, 302), so each child of [a] is compared with
      itself. *)
  Fixpoint JsonCompare (a b : json) : Z :=
    match a, b with
    | JPrim _ x, JPrim _ y => strcmp x y
    | JPrim _ _, _ => (2 - 1)%Z
    | _, JPrim _ _ => (1 - 2)%Z
    | JArr _, JObj _ => (4 - 3)%Z
    | JObj _, JArr _ => (3 - 4)%Z
    | JArr x, JArr y =>
        let ret := len_diff (length x) (length y) in
        if (ret =? 0)%Z then
          (fix loop l := match l with
                         | [] => 0%Z
                         | c :: r => let ret := JsonCompare c c in
                                     if (ret =? 0)%Z then loop r else ret
                         end) x
        else ret
    | JObj x, JObj y =>
        let ret := len_diff (length x) (length y) in
        if (ret =? 0)%Z then
          (fix loop l := match l with
                         | [] => 0%Z
                         | (k, c) :: r =>
                             let ret := strcmp k k in
                             if (ret =? 0)%Z then
                               let ret := JsonCompare c c in
                               if (ret =? 0)%Z then loop r else ret
                             else ret
                         end) x
        else ret
    end.
End Compare.

(** * Selecting and walking *)

(** json.c:826-876 JsonSelect; the path is the array of [num_indices] strings *)
Fixpoint JsonSelect (j : json) (path : list (list byte)) : res (option json) :=
  match path with
  | [] => Ok (Some j)
  | index :: rest =>
      match j with
      | JPrim _ _ => Ok None
      | JObj kvs => match JsonObjectGet kvs index with
                    | Some c => JsonSelect c rest
                    | None => Ok None
                    end
      | JArr cs =>
          let* num := StringIsNumeric index in
          if num : bool then
            let* i := StringToLongExitOnError index in
            if (i <? Z.of_nat (length cs))%Z
            then match nth_error cs (Z.to_nat i) with
                 | Some c => JsonSelect c rest
                 | None => UB
                 end
            else Ok None
          else Ok None
      end
  end.

(** json.c:2790-2843 JsonWalk.  A visitor is a function from the element and its own state to
    the state and the answer "keep going"; None is a NULL visitor. *)
Section Walk.
  Variable St : Type.
  Definition visitor := option (json -> St -> St * bool).
  Variables vobj varr vprim : visitor.
  Definition visit (v : visitor) (j : json) (st : St) : St * bool :=
    match v with Some f => f j st | None => (st, true) end.
  Fixpoint JsonWalk (j : json) (st : St) : St * bool :=
    match j with
    | JPrim _ _ => visit vprim j st
    | JArr cs =>
        let '(st, go) := visit varr j st in
        if go then
          (fix loop l st := match l with
                            | [] => (st, true)
                            | c :: r => let '(st, go) := JsonWalk c st in
                                        if go then loop r st else (st, false)
                            end) cs st
        else (st, false)
    | JObj kvs =>
        let '(st, go) := visit vobj j st in
        if go then
          (fix loop l st := match l with
                            | [] => (st, true)
                            | (_, c) :: r => let '(st, go) := JsonWalk c st in
                                             if go then loop r st else (st, false)
                            end) kvs st
        else (st, false)
    end.
End Walk.

(** * String escaping *)

(** json.c:888-926 JsonEncodeStringWriter: the body of the loop *)
Definition encode_char (c : byte) : list byte :=
  if beq c DQ || beq c BS then [BS; c]
  else if beq c B_b then [BS; "b"]
  else if beq c B_f then [BS; "f"]
  else if beq c B_n then [BS; "n"]
  else if beq c B_r then [BS; "r"]
  else if beq c B_t then [BS; "t"]
  else [c].
(** json.c:928-935 JsonEncodeString *)
Fixpoint JsonEncodeString (s : list byte) : list byte :=
  match s with [] => [] | c :: t => encode_char c ++ JsonEncodeString t end.

(** json.c:937-983 JsonDecodeStringWriter, json.c:985-992 JsonDecodeString.  [skip] is set when the
    switch has advanced [c] over the character that the loop looks at next. *)
Fixpoint decode_loop (skip : bool) (s : list byte) : list byte :=
  match s with
  | [] => []
  | c :: t =>
      if skip then decode_loop false t
      else if beq c BS then
        let next := hd NUL t in
        if beq next DQ || beq next BS then next :: decode_loop true t
        else if beq next "b" then B_b :: decode_loop true t
        else if beq next "f" then B_f :: decode_loop true t
        else if beq next "n" then B_n :: decode_loop true t
        else if beq next "r" then B_r :: decode_loop true t
        else if beq next "t" then B_t :: decode_loop true t
        else c :: decode_loop false t
      else c :: decode_loop false t
  end.
Definition JsonDecodeString (s : list byte) : list byte := decode_loop false s.

(** json.c:994-1046 Json5EscapeDataWriter, json.c:1048-1055 Json5EscapeData, string_lib.h:108-111
    CharIsPrintableAscii; any bytes, NUL included *)
Definition hexdigit (n : N) : byte := ascii_of_N (if (n <? 10)%N then 48 + n else 55 + n)%N.
Definition escape5_char (c : byte) : list byte :=
  if beq c NUL then [BS; "0"]
  else if beq c DQ || beq c BS then [BS; c]
  else if beq c B_b then [BS; "b"]
  else if beq c B_f then [BS; "f"]
  else if beq c B_n then [BS; "n"]
  else if beq c B_r then [BS; "r"]
  else if beq c B_t then [BS; "t"]
  else if ((32 <=? scode c) && (scode c <=? 126))%Z then [c]
  else [BS; "x"; hexdigit (code c / 16); hexdigit (code c mod 16)].
Fixpoint Json5EscapeData (s : list byte) : list byte :=
  match s with [] => [] | c :: t => escape5_char c ++ Json5EscapeData t end.

(** * Writing *)

(** json.c:1541-1544 IsWhitespace *)
Definition IsWhitespace (c : byte) : bool := beq c " " || beq c B_t || beq c B_n || beq c B_r.
(** json.c:1546-1549 IsSeparator *)
Definition IsSeparator (c : byte) : bool := IsWhitespace c || beq c "," || beq c "]" || beq c "}".
(** json.c:1551-1555 IsDigit: 1 to 9 *)
Definition IsDigit (c : byte) : bool := ((49 <=? scode c) && (scode c <=? 57))%Z.

(** json.c:1557-1565 PrintIndent, json.c:43 SPACES_PER_INDENT; the counter is an int, here
    unbounded *)
Definition PrintIndent (num : nat) : list byte := repeat " " (num * 2).

(** json.c:1567-1591 JsonPrimitiveWrite *)
Definition JsonPrimitiveWrite (t : ptype) (v : list byte) (indent : nat) : list byte :=
  match t with
  | PString => PrintIndent indent ++ DQ :: JsonEncodeString v ++ [DQ]
  | _ => PrintIndent indent ++ v
  end.

(** json.c:805-815 JsonSort with json.c:1646-1657 JsonElementPropertyCompare: sorting members by name.
    Insertion sort stands for sequence.c:285-289 SeqSort; with distinct names there is only one
    sorted arrangement. *)
Fixpoint lex_le (a b : list byte) : bool :=
  match a, b with
  | [], _ => true
  | _ :: _, [] => false
  | x :: a, y :: b => (code x <? code y)%N || (beq x y && lex_le a b)
  end.
Section Sort.
  Variable A : Type.
  Fixpoint insert_member (k : list byte) (v : A) (l : list (list byte * A)) : list (list byte * A) :=
    match l with
    | [] => [(k, v)]
    | (k', v') :: r => if lex_le k k' then (k, v) :: l else (k', v') :: insert_member k v r
    end.
  Fixpoint sort_children (l : list (list byte * A)) : list (list byte * A) :=
    match l with [] => [] | (k, v) :: r => insert_member k v (sort_children r) end.
End Sort.

Definition is_primitive (j : json) : bool := match j with JPrim _ _ => true | _ => false end.

(** json.c:1754-1775 JsonWrite, json.c:1735-1752 JsonContainerWrite, json.c:1593-1644 JsonArrayWrite,
    json.c:1681-1733 JsonObjectWrite.  The text, and the tree afterwards: writing an object sorts
    its children in place.  (The children are visited in sorted order; computing their
    texts first and sorting the results by name is the same thing.)  A primitive is
    indented by whoever writes it, a container is not. *)
Fixpoint JsonWrite (j : json) (indent : nat) : list byte * json :=
  match j with
  | JPrim t v => (JsonPrimitiveWrite t v indent, j)
  | JArr [] => (lit "[]", j)
  | JArr cs =>
      let ws := (fix each l := match l with
                 | [] => []
                 | c :: r => (is_primitive c, JsonWrite c (S indent)) :: each r
                 end) cs in
      let text := (fix loop (l : list (bool * (list byte * json))) := match l with
                   | [] => []
                   | (prim, (t, _)) :: r =>
                       (if prim : bool then [] else PrintIndent (S indent)) ++ t
                       ++ (match r with [] => [B_n] | _ => [","; B_n] end) ++ loop r
                   end) ws in
      ("[" :: B_n :: text ++ PrintIndent indent ++ ["]"], JArr (map (fun w => snd (snd w)) ws))
  | JObj kvs =>
      let ws := sort_children
                ((fix each l := match l with
                  | [] => []
                  | (k, c) :: r =>
                      (k, JsonWrite c (if is_primitive c then 0 else S indent)) :: each r
                  end) kvs) in
      let text := (fix loop (l : list (list byte * (list byte * json))) := match l with
                   | [] => []
                   | (k, (t, _)) :: r =>
                       PrintIndent (S indent) ++ (DQ :: k ++ [DQ; ":"; " "]) ++ t
                       ++ (match r with [] => [B_n] | _ => [","; B_n] end) ++ loop r
                   end) ws in
      ("{" :: B_n :: text ++ PrintIndent indent ++ ["}"], JObj (map (fun w => (fst w, snd (snd w))) ws))
  end.

(** json.c:1885-1903 JsonWriteCompact, json.c:1868-1883 JsonContainerWriteCompact,
    json.c:1777-1820 JsonArrayWriteCompact, json.c:1822-1866 JsonObjectWriteCompact *)
Fixpoint JsonWriteCompact (j : json) : list byte * json :=
  match j with
  | JPrim t v => (JsonPrimitiveWrite t v 0, j)
  | JArr [] => (lit "[]", j)
  | JArr cs =>
      let ws := (fix each l := match l with
                 | [] => []
                 | c :: r => JsonWriteCompact c :: each r
                 end) cs in
      let text := (fix loop (l : list (list byte * json)) := match l with
                   | [] => []
                   | (t, _) :: r => t ++ (match r with [] => [] | _ => [","] end) ++ loop r
                   end) ws in
      ("[" :: text ++ ["]"], JArr (map snd ws))
  | JObj kvs =>
      let ws := sort_children
                ((fix each l := match l with
                  | [] => []
                  | (k, c) :: r => (k, JsonWriteCompact c) :: each r
                  end) kvs) in
      let text := (fix loop (l : list (list byte * (list byte * json))) := match l with
                   | [] => []
                   | (k, (t, _)) :: r =>
                       (DQ :: k ++ [DQ; ":"]) ++ t
                       ++ (match r with [] => [] | _ => [","] end) ++ loop r
                   end) ws in
      ("{" :: text ++ ["}"], JObj (map (fun w => (fst w, snd (snd w))) ws))
  end.

(** * Parsing *)

(** json.h:82-121 JsonParseError, the codes the parser itself returns *)
Inductive perr :=
| E_STRING_NO_DOUBLEQUOTE_START | E_STRING_NO_DOUBLEQUOTE_END
| E_NUMBER_EXPONENT_NEGATIVE | E_NUMBER_EXPONENT_POSITIVE | E_NUMBER_DUPLICATE_ZERO
| E_NUMBER_NO_DIGIT | E_NUMBER_MULTIPLE_DOTS | E_NUMBER_EXPONENT_DUPLICATE
| E_NUMBER_EXPONENT_DIGIT | E_NUMBER_EXPONENT_FOLLOW_LEADING_ZERO | E_NUMBER_BAD_SYMBOL
| E_NUMBER_DIGIT_END | E_ARRAY_START | E_ARRAY_END | E_ARRAY_COMMA
| E_OBJECT_BAD_SYMBOL | E_OBJECT_END | E_OBJECT_COLON | E_OBJECT_COMMA
| E_OBJECT_ARRAY_LVAL | E_OBJECT_OBJECT_LVAL | E_OBJECT_OPEN_LVAL | E_NO_DATA.

(** JSON_PARSE_OK with the value and the cursor, or an error.  The cursor [*data] is the
    part of the input from the current character up to the terminator: [] means it
    points at the terminator. *)
Inductive parsed (A : Type) :=
| POk (v : A) (data : list byte)
| PErr (e : perr).
Arguments POk {A}.
Arguments PErr {A}.

(** [**data] *)
Definition cur (data : list byte) : byte := hd NUL data.

(** json.c:2028-2103 JsonParseAsString: the loop.  When the backslash is the last character of
    the input, the cursor is moved onto the terminator, and the loop's step then moves
    it past the end of the string. *)
Fixpoint string_loop (data : list byte) (out : list byte) : res (parsed (list byte)) :=
  match data with
  | [] => Ok (PErr E_STRING_NO_DOUBLEQUOTE_END)
  | c :: d =>
      if beq c DQ then Ok (POk out data)
      else if beq c BS then
        match d with
        | [] => UB
        | e :: d' =>
            if beq e BS || beq e DQ || beq e "/" then string_loop d' (out ++ [e])
            else if beq e "b" then string_loop d' (out ++ [B_b])
            else if beq e "f" then string_loop d' (out ++ [B_f])
            else if beq e "n" then string_loop d' (out ++ [B_n])
            else if beq e "r" then string_loop d' (out ++ [B_r])
            else if beq e "t" then string_loop d' (out ++ [B_t])
            else string_loop d' (out ++ [BS; e])
        end
      else string_loop d (out ++ [c])
  end.
Definition JsonParseAsString (data : list byte) : res (parsed (list byte)) :=
  match data with
  | c :: d => if beq c DQ then string_loop d [] else Ok (PErr E_STRING_NO_DOUBLEQUOTE_START)
  | [] => Ok (PErr E_STRING_NO_DOUBLEQUOTE_START)
  end.

(** json.c:2105-2231 JsonParseAsNumber: the loop, with its flags *)
Fixpoint number_loop (data : list byte) (out : list byte)
    (zero_started seen_dot seen_exponent : bool) (prev : byte) : parsed json :=
  let finish :=
    if negb (beq prev "0") && negb (IsDigit prev) then PErr E_NUMBER_DIGIT_END
    else (* the cursor steps back onto the last character read *)
      POk (JPrim (if seen_dot then PReal else PInt) out) (prev :: data) in
  match data with
  | [] => finish
  | c :: d =>
      if IsSeparator c then finish
      else if beq c "-" then
        if negb (beq prev NUL) && negb (beq prev "e") && negb (beq prev "E")
        then PErr E_NUMBER_EXPONENT_NEGATIVE
        else number_loop d (out ++ [c]) zero_started seen_dot seen_exponent c
      else if beq c "+" then
        if negb (beq prev "e") && negb (beq prev "E") then PErr E_NUMBER_EXPONENT_POSITIVE
        else number_loop d (out ++ [c]) zero_started seen_dot seen_exponent c
      else if beq c "0" then
        if zero_started && negb seen_dot && negb seen_exponent then PErr E_NUMBER_DUPLICATE_ZERO
        else number_loop d (out ++ [c]) (zero_started || beq prev NUL) seen_dot seen_exponent c
      else if beq c "." then
        if seen_dot then PErr E_NUMBER_MULTIPLE_DOTS
        else if negb (beq prev "0") && negb (IsDigit prev) then PErr E_NUMBER_NO_DIGIT
        else number_loop d (out ++ [c]) zero_started true seen_exponent c
      else if beq c "e" || beq c "E" then
        if seen_exponent then PErr E_NUMBER_EXPONENT_DUPLICATE
        else if negb (IsDigit prev) && negb (beq prev "0") then PErr E_NUMBER_EXPONENT_DIGIT
        else number_loop d (out ++ [c]) zero_started seen_dot true c
      else
        if zero_started && negb seen_dot && negb seen_exponent
        then PErr E_NUMBER_EXPONENT_FOLLOW_LEADING_ZERO
        else if negb (IsDigit c) then PErr E_NUMBER_BAD_SYMBOL
        else number_loop d (out ++ [c]) zero_started seen_dot seen_exponent c
  end.
Definition JsonParseAsNumber (data : list byte) : parsed json :=
  number_loop data [] false false false NUL.

(** json.c:1915-1939 JsonParseAsBoolean, json.c:1941-1956 JsonParseAsNull: the value and the cursor on
    the last letter of the word *)
Definition ends_word (next : byte) : bool := IsSeparator next || beq next NUL.
Definition JsonParseAsBoolean (data : list byte) : option (json * list byte) :=
  if prefixb (lit "true") data then
    if ends_word (cur (skipn 4 data)) then Some (JsonBoolCreate true, skipn 3 data) else None
  else if prefixb (lit "false") data then
    if ends_word (cur (skipn 5 data)) then Some (JsonBoolCreate false, skipn 4 data) else None
  else None.
Definition JsonParseAsNull (data : list byte) : option (json * list byte) :=
  if prefixb (lit "null") data then
    if ends_word (cur (skipn 4 data)) then Some (JsonNullCreate, skipn 3 data) else None
  else None.

(** json.c:2248, 2374, 2618 [**data == '-' || **data == '0' || IsDigit] *)
Definition starts_number (c : byte) : bool := beq c "-" || beq c "0" || IsDigit c.

(** json.c:2233-2282 JsonParseAsPrimitive *)
Definition JsonParseAsPrimitive (data : list byte) : res (parsed json) :=
  if beq (cur data) DQ then
    let* r := JsonParseAsString data in
    match r with
    | POk v d => Ok (POk (JPrim PString (JsonDecodeString v)) d)
    | PErr e => Ok (PErr e)
    end
  else if starts_number (cur data) then Ok (JsonParseAsNumber data)
  else match JsonParseAsBoolean data with
       | Some (j, d) => Ok (POk j d)
       | None => match JsonParseAsNull data with
                 | Some (j, d) => Ok (POk j d)
                 | None => Ok (PErr E_OBJECT_BAD_SYMBOL)
                 end
       end.

(** json.c:2436-2440 wc *)
Definition wc (c : byte) : bool := isalnum c || beq c "_".

(** json.c:2442-2463 unquoted_key_with_colon and the backwards scan json.c:2601-2613: the key and
    the cursor on the colon *)
Fixpoint strip_trailing_ws (rev_prefix : list byte) : list byte :=
  match rev_prefix with
  | c :: r => if IsWhitespace c then strip_trailing_ws r else rev_prefix
  | [] => []
  end.
Definition unquoted_key_with_colon (data : list byte) : option (list byte * list byte) :=
  match data with
  | c :: d =>
      if wc c then
        let '(word, r) := span (fun x => beq x "-" || wc x) d in
        let '(sp, r) := span IsWhitespace r in
        if beq (cur r) ":" then Some (rev (strip_trailing_ws (rev (c :: word ++ sp))), r)
        else None
      else None
  | [] => None
  end.

(** json.c:2284-2434 JsonParseAsArray and json.c:2465-2701 JsonParseAsObject, from the point where the
    cursor has moved past the opening bracket (both are only called on one, the other
    case is in [JsonParseAsArray] below).  One unit of fuel per loop step; a nested
    value is parsed with what is left.  lookup_function is NULL (JsonParse).
    A child's opening bracket is still at the head of [data], the loop's step skips it.
    On errors the trees built so far are destroyed, except at json.c:2321-2324 where the
    array is leaked; memory leaks are not modelled. *)
Fixpoint array_loop (fuel : nat) (data : list byte) (prev : byte) (array : list json)
  : res (parsed json) :=
  match fuel with
  | O => Fuel
  | S f =>
    match data with
    | [] => Ok (PErr E_ARRAY_END)
    | c :: d =>
      let next r child := (* append, prev_char = **data, step *)
        match r with
        | [] => UB
        | c' :: d' => array_loop f d' c' (JsonArrayAppendElement array child)
        end in
      if IsWhitespace c then array_loop f d prev array
      else if beq c DQ then
        let* r := JsonParseAsString data in
        match r with
        | PErr e => Ok (PErr e)
        | POk v r => next r (JPrim PString (JsonDecodeString v))
        end
      else if beq c "[" then
        if negb (beq prev "[") && negb (beq prev ",") then Ok (PErr E_ARRAY_START)
        else let* r := array_loop f d "[" [] in
             match r with PErr e => Ok (PErr e) | POk child r => next r child end
      else if beq c "{" then
        if negb (beq prev "[") && negb (beq prev ",") then Ok (PErr E_ARRAY_START)
        else let* r := object_loop f d "{" None [] in
             match r with PErr e => Ok (PErr e) | POk child r => next r child end
      else if beq c "," then
        if beq prev "," || beq prev "[" then Ok (PErr E_ARRAY_COMMA)
        else array_loop f d c array
      else if beq c "]" then Ok (POk (JArr array) data)
      else if starts_number c then
        match JsonParseAsNumber data with
        | PErr e => Ok (PErr e)
        | POk child r => next r child
        end
      else match JsonParseAsBoolean data with
           | Some (child, r) => next r child
           | None =>
               match JsonParseAsNull data with
               | Some (child, r) => next r child
               | None => Ok (PErr E_OBJECT_BAD_SYMBOL)
               end
           end
    end
  end
with object_loop (fuel : nat) (data : list byte) (prev : byte) (name : option (list byte))
    (object : list (list byte * json)) : res (parsed json) :=
  match fuel with
  | O => Fuel
  | S f =>
    match data with
    | [] => Ok (PErr E_OBJECT_END)
    | c :: d =>
      let next r key child :=
        match r with
        | [] => UB
        | c' :: d' => object_loop f d' c' None (JsonObjectAppendElement object key child)
        end in
      if IsWhitespace c then object_loop f d prev name object
      else if beq c DQ then
        let* r := JsonParseAsString data in
        match r with
        | PErr e => Ok (PErr e)
        | POk v r =>
            match name with
            | Some key => next r key (JPrim PString (JsonDecodeString v))
            | None => match r with
                      | [] => UB
                      | c' :: d' => object_loop f d' c' (Some v) object
                      end
            end
        end
      else if beq c ":" then
        match name with
        | None => Ok (PErr E_OBJECT_COLON)
        | Some _ => if beq prev ":" || beq prev "," then Ok (PErr E_OBJECT_COLON)
                    else object_loop f d c name object
        end
      else if beq c "," then
        match name with
        | Some _ => Ok (PErr E_OBJECT_COMMA)
        | None => if beq prev ":" || beq prev "," then Ok (PErr E_OBJECT_COMMA)
                  else object_loop f d c name object
        end
      else if beq c "[" then
        match name with
        | None => Ok (PErr E_OBJECT_ARRAY_LVAL)
        | Some key => let* r := array_loop f d "[" [] in
                      match r with PErr e => Ok (PErr e) | POk child r => next r key child end
        end
      else if beq c "{" then
        match name with
        | None => Ok (PErr E_OBJECT_OBJECT_LVAL)
        | Some key => let* r := object_loop f d "{" None [] in
                      match r with PErr e => Ok (PErr e) | POk child r => next r key child end
        end
      else if beq c "}" then
        match name with
        | Some _ => Ok (PErr E_OBJECT_OPEN_LVAL)
        | None => Ok (POk (JObj object) data)
        end
      else
        match name with
        | None =>
            match unquoted_key_with_colon data with
            | Some (key, r) =>
                match r with
                | [] => UB
                | c' :: d' => object_loop f d' c' (Some key) object
                end
            | None => Ok (PErr E_OBJECT_BAD_SYMBOL)
            end
        | Some key =>
            if starts_number c then
              match JsonParseAsNumber data with
              | PErr e => Ok (PErr e)
              | POk child r => next r key child
              end
            else match JsonParseAsBoolean data with
                 | Some (child, r) => next r key child
                 | None =>
                     match JsonParseAsNull data with
                     | Some (child, r) => next r key child
                     | None => Ok (PErr E_OBJECT_BAD_SYMBOL)
                     end
                 end
        end
    end
  end.

(** json.c:2703-2706 JsonParse, json.c:2708-2744 JsonParseWithLookup without a lookup function *)
Fixpoint JsonParse (data : list byte) : res (parsed json) :=
  match data with
  | [] => Ok (PErr E_NO_DATA)
  | c :: d =>
      if beq c "{" then object_loop (S (length d)) d "{" None []
      else if beq c "[" then array_loop (S (length d)) d "[" []
      else if IsWhitespace c then JsonParse d
      else JsonParseAsPrimitive data
  end.
