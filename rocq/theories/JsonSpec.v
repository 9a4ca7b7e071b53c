(** What JSON is (RFC 8259), what a well-formed tree is, and what an object means,
    stated without the functions of JsonModel.v (only its type of trees, whose
    constructors are the element kinds of json.h). *)
From Verif Require Import Prelude Str CmpSpec JsonModel.
From Coq Require Import Permutation Sorting.Sorted.
Set Implicit Arguments.
Local Open Scope char_scope.

(** * Text *)

(** insignificant white space: blank, tab, line feed, carriage return *)
Definition blank (w : list byte) : Prop := Forall (fun c => In c [" "; "009"; "010"; "013"]) w.

(** one character of a string and a way to spell it.  RFC 8259 except for the \uXXXX
    escapes, and tolerating raw control characters. *)
Inductive spells_char : byte -> list byte -> Prop :=
| spc_plain c : c <> """" -> c <> "\" -> c <> NUL -> spells_char c [c]
| spc_quote : spells_char """" ["\"; """"]
| spc_backslash : spells_char "\" ["\"; "\"]
| spc_slash : spells_char "/" ["\"; "/"]
| spc_b : spells_char "008" ["\"; "b"]
| spc_f : spells_char "012" ["\"; "f"]
| spc_n : spells_char "010" ["\"; "n"]
| spc_r : spells_char "013" ["\"; "r"]
| spc_t : spells_char "009" ["\"; "t"].

Inductive spells_chars : list byte -> list byte -> Prop :=
| sps_nil : spells_chars [] []
| sps_cons c s t u : spells_char c t -> spells_chars s u -> spells_chars (c :: s) (t ++ u).

(** a string in quotes *)
Inductive spells_string (s : list byte) : list byte -> Prop :=
| spq t : spells_chars s t -> spells_string s ("""" :: t ++ [""""]).

Definition digit (c : byte) : Prop := In c (lit "0123456789").
Definition digit19 (c : byte) : Prop := In c (lit "123456789").

(** number = [ minus ] int [ frac ] [ exp ]; the flag tells whether there is a fraction *)
Inductive int_part : list byte -> Prop :=
| int_zero : int_part ["0"]
| int_nonzero c t : digit19 c -> Forall digit t -> int_part (c :: t).
Inductive frac_part : bool -> list byte -> Prop :=
| frac_none : frac_part false []
| frac_some c t : digit c -> Forall digit t -> frac_part true ("." :: c :: t).
Inductive exp_part : list byte -> Prop :=
| exp_none : exp_part []
| exp_some e sg c t : In e ["e"; "E"] -> In sg [[]; ["+"]; ["-"]] -> digit c -> Forall digit t ->
    exp_part (e :: sg ++ c :: t).
Inductive number : bool -> list byte -> Prop :=
| number_parts sg i b f e : In sg [[]; ["-"]] -> int_part i -> frac_part b f -> exp_part e ->
    number b (sg ++ i ++ f ++ e).

(** a string in which no backslash is followed by one of the letters of an escape:
    exactly the strings that an extra round of unescaping leaves alone *)
Definition settled (s : list byte) : Prop :=
  forall p c q, s = p ++ "\" :: c :: q -> ~ In c [""""; "\"; "b"; "f"; "n"; "r"; "t"].

(** in a list of members with repeated names the last one counts *)
Fixpoint last_wins (ms : list (list byte * json)) : list (list byte * json) :=
  match ms with
  | [] => []
  | (k, v) :: r => if existsb (fun m => bytes_eqb k (fst m)) r then last_wins r
                   else (k, v) :: last_wins r
  end.

(** [spells j t]: the text [t], without surrounding white space, is a JSON text for [j].
    Numbers with a fraction are reals, others integers; string values are settled. *)
Inductive spells : json -> list byte -> Prop :=
| sp_string s t : settled s -> spells_string s t -> spells (JPrim PString s) t
| sp_int t : number false t -> spells (JPrim PInt t) t
| sp_real t : number true t -> spells (JPrim PReal t) t
| sp_true : spells (JPrim PBool (lit "true")) (lit "true")
| sp_false : spells (JPrim PBool (lit "false")) (lit "false")
| sp_null : spells (JPrim PNull (lit "null")) (lit "null")
| sp_empty_array w : blank w -> spells (JArr []) ("[" :: w ++ ["]"])
| sp_array cs t : elements cs t -> spells (JArr cs) ("[" :: t ++ ["]"])
| sp_empty_object w : blank w -> spells (JObj []) ("{" :: w ++ ["}"])
| sp_object ms t : members ms t -> spells (JObj (last_wins ms)) ("{" :: t ++ ["}"])
with elements : list json -> list byte -> Prop :=
| el_one w1 w2 j t : blank w1 -> blank w2 -> spells j t -> elements [j] (w1 ++ t ++ w2)
| el_more w1 w2 j t js u : blank w1 -> blank w2 -> spells j t -> elements js u ->
    elements (j :: js) (w1 ++ t ++ w2 ++ "," :: u)
with members : list (list byte * json) -> list byte -> Prop :=
| me_one w1 w2 w3 w4 k kt j t : blank w1 -> blank w2 -> blank w3 -> blank w4 ->
    spells_string k kt -> spells j t ->
    members [(k, j)] (w1 ++ kt ++ w2 ++ ":" :: w3 ++ t ++ w4)
| me_more w1 w2 w3 w4 k kt j t ms u : blank w1 -> blank w2 -> blank w3 -> blank w4 ->
    spells_string k kt -> spells j t -> members ms u ->
    members ((k, j) :: ms) (w1 ++ kt ++ w2 ++ ":" :: w3 ++ t ++ w4 ++ "," :: u).

(** what may follow a value in the input: nothing, or a delimiter *)
Definition delimited (rest : list byte) : Prop :=
  rest = [] \/ exists c d, rest = c :: d /\ In c [" "; "009"; "010"; "013"; ","; "]"; "}"].

(** * Trees *)

(** every object has distinct names, no text contains NUL, and the text of a primitive
    fits its type *)
Inductive well_formed : json -> Prop :=
| wf_string v : is_cstr v -> well_formed (JPrim PString v)
| wf_number t v : In t [PInt; PReal] -> v <> [] -> Forall (fun c => In c (lit "0123456789-+.eE")) v ->
    digit (last v NUL) -> well_formed (JPrim t v)
| wf_true : well_formed (JPrim PBool (lit "true"))
| wf_false : well_formed (JPrim PBool (lit "false"))
| wf_null : well_formed (JPrim PNull (lit "null"))
| wf_array cs : Forall well_formed cs -> well_formed (JArr cs)
| wf_object kvs : NoDup (map fst kvs) -> Forall (fun kv => is_cstr (fst kv)) kvs ->
    Forall (fun kv => well_formed (snd kv)) kvs -> well_formed (JObj kvs).

(** the same tree up to the order of the members of every object *)
Inductive same_tree : json -> json -> Prop :=
| same_prim t v : same_tree (JPrim t v) (JPrim t v)
| same_arr a b : Forall2 same_tree a b -> same_tree (JArr a) (JArr b)
| same_obj a b c : Permutation a c -> Forall2 (fun x y => fst x = fst y /\ same_tree (snd x) (snd y)) c b ->
    same_tree (JObj a) (JObj b).

(** names ascend in the byte order at every object *)
Definition ascending (ks : list (list byte)) : Prop := Sorted.StronglySorted before ks.
Inductive canonical : json -> Prop :=
| can_prim t v : canonical (JPrim t v)
| can_arr cs : Forall canonical cs -> canonical (JArr cs)
| can_obj kvs : ascending (map fst kvs) -> Forall (fun kv => canonical (snd kv)) kvs -> canonical (JObj kvs).

(** trees whose values the text format can carry: numbers in JSON's syntax, settled
    strings, and names that need no escaping *)
Inductive portable : json -> Prop :=
| po_string v : is_cstr v -> settled v -> portable (JPrim PString v)
| po_int v : number false v -> portable (JPrim PInt v)
| po_real v : number true v -> portable (JPrim PReal v)
| po_true : portable (JPrim PBool (lit "true"))
| po_false : portable (JPrim PBool (lit "false"))
| po_null : portable (JPrim PNull (lit "null"))
| po_array cs : Forall portable cs -> portable (JArr cs)
| po_object kvs : NoDup (map fst kvs) ->
    Forall (fun kv => is_cstr (fst kv) /\ ~ In """" (fst kv) /\ ~ In "\" (fst kv)) kvs ->
    Forall (fun kv => portable (snd kv)) kvs -> portable (JObj kvs).

(** names are distinct in every object, as the API maintains *)
Inductive distinct_names : json -> Prop :=
| dn_prim t v : distinct_names (JPrim t v)
| dn_arr cs : Forall distinct_names cs -> distinct_names (JArr cs)
| dn_obj kvs : NoDup (map fst kvs) -> Forall (fun kv => distinct_names (snd kv)) kvs -> distinct_names (JObj kvs).
