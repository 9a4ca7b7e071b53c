(** C45, C46, C48, C50: JSON escaping, writing and parsing. *)
From Verif Require Import Prelude Str StrFacts CmpSpec SeqModel SeqSpec JsonModel JsonFacts JsonSpec JsonSafe JsonParse JsonWriteProofs JsonProofs PropsSeq.
From Coq Require Import Permutation Sorting.Sorted.
Set Implicit Arguments.
Local Open Scope char_scope.

(** * C45 *)

Theorem C45_encode_decode : forall s, is_cstr s -> JsonDecodeString (JsonEncodeString s) = s.
Proof. exact C45_round. Qed.
Print Assumptions C45_encode_decode.

(** between quotes the encoded text is a JSON string denoting [s]: in particular no quote
    in it is unescaped *)
Theorem C45_encoded_is_string : forall s, is_cstr s ->
  spells_string s ("""" :: JsonEncodeString s ++ [""""]).
Proof. intros s H. constructor. now apply encode_spells. Qed.
Print Assumptions C45_encoded_is_string.

(** no raw backspace, tab, line feed, form feed or carriage return *)
Theorem C45_encoded_no_raw_control : forall s c,
  In c (JsonEncodeString s) -> ~ In c ["008"; "009"; "010"; "012"; "013"].
Proof. exact C45_plain. Qed.
Print Assumptions C45_encoded_no_raw_control.

(** the other control characters stay raw, which RFC 8259 forbids *)
Theorem C45_control_refuted : exists s c, is_cstr s /\ In c (JsonEncodeString s) /\ (code c < 32)%N.
Proof. exists ["001"], "001". split; [intros [|[]]; discriminate|]. split; [now left|reflexivity]. Qed.
Print Assumptions C45_control_refuted.

Example C45_nonvacuous : is_cstr ["a"; """"; "010"; "\"; "n"] /\
  JsonEncodeString ["a"; """"; "010"; "\"; "n"] = ["a"; "\"; """"; "\"; "n"; "\"; "\"; "n"].
Proof. split; [unfold is_cstr, NUL; cbn; intuition discriminate|reflexivity]. Qed.

(** * C46 *)

(** every JSON text of the supported language, after any white space and whatever
    follows, is parsed to the tree it denotes; the cursor is left on its last character *)
Theorem C46_parse_text_partial : forall j t w rest,
  spells j t -> blank w -> delimited rest ->
  JsonParse (w ++ t ++ rest) = Ok (POk j (last t NUL :: rest)).
Proof. exact C46_parse. Qed.
Print Assumptions C46_parse_text_partial.

(** a text denotes at most one tree *)
Theorem C46_text_unambiguous : forall j j' t, spells j t -> spells j' t -> j = j'.
Proof.
  intros j j' t H H'. assert (K : JsonParse (t ++ []) = Ok (POk j (last t NUL :: [])) ) by (apply (@C46_parse j t [] []); [exact H|constructor|now left]).
  assert (K' : JsonParse (t ++ []) = Ok (POk j' (last t NUL :: []))) by (apply (@C46_parse j' t [] []); [exact H'|constructor|now left]).
  congruence.
Qed.
Print Assumptions C46_text_unambiguous.

(** writing and parsing back gives the tree as it is after writing, which is the tree as
    it was up to the order of the members of its objects, and consumes the whole text *)
Theorem C46_pretty_round_trip_partial : forall j indent, portable j ->
  exists c, JsonParse (fst (JsonWrite j indent)) = Ok (POk (snd (JsonWrite j indent)) [c]) /\
            same_tree j (snd (JsonWrite j indent)).
Proof. exact C46_pretty. Qed.
Print Assumptions C46_pretty_round_trip_partial.

Theorem C46_compact_round_trip_partial : forall j, portable j ->
  exists c, JsonParse (fst (JsonWriteCompact j)) = Ok (POk (snd (JsonWriteCompact j)) [c]) /\
            same_tree j (snd (JsonWriteCompact j)).
Proof. exact C46_compact. Qed.
Print Assumptions C46_compact_round_trip_partial.

(** the restrictions are needed: string values are unescaped twice, names are not escaped
    at all, a real printed with more than 31 characters loses its fraction *)
Definition round_trips (j : json) : Prop :=
  exists j' d, JsonParse (fst (JsonWriteCompact j)) = Ok (POk j' d) /\ same_tree j j'.
(** exactly the strings in which no backslash precedes the letter of an escape survive *)
Theorem C46_string_iff : forall s, is_cstr s -> (round_trips (JsonStringCreate s) <-> settled s).
Proof.
  intros s H. unfold round_trips. rewrite (parse_string_write H). split.
  - intros (j' & d & E & K). apply (f_equal (fun x => match x with Ok (POk v _) => v | _ => JArr [] end)) in E. cbv beta iota in E. subst j'.
    apply decode_fixed. inversion K. unfold JsonDecodeString in *. congruence.
  - intros K. exists (JsonStringCreate s), [DQ]. rewrite decode_settled by exact K. split; [reflexivity|constructor].
Qed.
Print Assumptions C46_string_iff.
Theorem C46_string_refuted : exists s, is_cstr s /\ ~ round_trips (JsonStringCreate s).
Proof.
  exists ["\"; "n"]. split; [unfold is_cstr, NUL; cbn; intuition discriminate|]. intros (j' & d & H & K).
  assert (E : JsonParse (fst (JsonWriteCompact (JsonStringCreate ["\"; "n"]))) = Ok (POk (JPrim PString ["010"]) [""""])) by reflexivity.
  rewrite E in H. apply (f_equal (fun x => match x with Ok (POk v _) => v | _ => JArr [] end)) in H. cbv beta iota in H. subst j'. inversion K.
Qed.
Print Assumptions C46_string_refuted.
Theorem C46_key_refuted : exists k v, is_cstr k /\ portable v /\
  exists e, JsonParse (fst (JsonWriteCompact (JObj (JsonObjectAppendElement [] k v)))) = Ok (PErr e).
Proof.
  exists ["a"; """"; "b"], JsonNullCreate. split; [unfold is_cstr, NUL; cbn; intuition discriminate|]. split; [apply po_null|].
  exists E_OBJECT_BAD_SYMBOL. reflexivity.
Qed.
Print Assumptions C46_key_refuted.
Theorem C46_real_refuted : exists text, number true text /\ ~ round_trips (JsonRealCreate text).
Proof.
  exists ("1" :: repeat "0" 30 ++ ["."; "0"; "0"; "0"; "0"]). split.
  { apply (@number_parts [] ("1" :: repeat "0" 30) true ["."; "0"; "0"; "0"; "0"] []); [now left|apply int_nonzero; [now left|]| |apply exp_none].
    - apply Forall_forall. intros x H. apply repeat_spec in H. subst. now left.
    - apply frac_some; [now left|]. repeat (apply Forall_cons; [now left|]). constructor. }
  intros (j' & d & H & K). inversion K as [t v Q1 Q2| |]; subst. vm_compute in H. discriminate H.
Qed.
Print Assumptions C46_real_refuted.
(** \u escapes of the standard are not decoded *)
Theorem C46_unicode_escape_refuted :
  JsonParse ("""" :: lit "\u0041" ++ [""""]) = Ok (POk (JPrim PString (lit "\u0041")) [""""]).
Proof. reflexivity. Qed.
Print Assumptions C46_unicode_escape_refuted.
(** and texts that are not JSON are accepted *)
Theorem C46_not_json_refuted : exists t1 t2 t3 j1 j2 j3 d1 d2 d3,
  t1 = lit "[1 2,]" /\ t2 = lit "{a:1 ""b"" 2}" /\ t3 = lit "-01" /\
  JsonParse t1 = Ok (POk j1 d1) /\ JsonParse t2 = Ok (POk j2 d2) /\ JsonParse t3 = Ok (POk j3 d3).
Proof. do 9 eexists. do 3 (split; [reflexivity|]). split; [vm_compute; reflexivity|]. split; vm_compute; reflexivity. Qed.
Print Assumptions C46_not_json_refuted.

Definition sample : json :=
  JObj [(lit "name", JPrim PString ["a"; """"; "010"; "\"; "x"]);
        (lit "list", JArr [JPrim PInt (lit "-12"); JPrim PReal (lit "0.5e+3"); JArr []; JObj []]);
        (lit "flag", JsonBoolCreate true); (lit "nil", JsonNullCreate)].
Lemma sample_portable : portable sample.
Proof.
  assert (K : forall k, is_cstr (lit k) -> ~ In """" (lit k) -> ~ In "\" (lit k) -> is_cstr (lit k) /\ ~ In """" (lit k) /\ ~ In "\" (lit k)) by auto.
  apply po_object.
  - cbn. repeat (apply NoDup_cons; [cbn; intuition discriminate|]). constructor.
  - repeat (apply Forall_cons; [unfold is_cstr, NUL; cbn; intuition discriminate|]). constructor.
  - repeat apply Forall_cons; cbn [snd]; [| | | |constructor].
    + apply po_string; [unfold is_cstr, NUL; cbn; intuition discriminate|].
      intros p c q E. do 4 (destruct p as [|? p]; [cbn in E; injection E; intros; subst; try discriminate; cbn; intuition discriminate|cbn in E; injection E as _ E]).
      destruct p as [|? p]; [discriminate E|]. destruct p; discriminate E.
    + apply po_array. repeat apply Forall_cons; [| | | |constructor].
      * apply po_int. apply (@number_parts ["-"] ["1"; "2"] false [] []); [cbn; auto|apply int_nonzero; [now left|]|apply frac_none|apply exp_none].
        repeat (apply Forall_cons; [cbn; tauto|]). constructor.
      * apply po_real. apply (@number_parts [] ["0"] true ["."; "5"] ["e"; "+"; "3"]); [now left|apply int_zero|apply frac_some; [cbn; tauto|constructor]|].
        apply (@exp_some "e" ["+"] "3" []); [now left|cbn; auto|cbn; tauto|constructor].
      * apply po_array. constructor.
      * apply po_object; constructor.
    + apply po_true.
    + apply po_null.
Qed.
Example C46_nonvacuous : portable sample /\
  fst (JsonWriteCompact sample) = lit "{""flag"":true,""list"":[-12,0.5e+3,[],{}],""name"":""a\""\n\\x"",""nil"":null}".
Proof. split; [exact sample_portable|reflexivity]. Qed.

(** * C48 *)

(** equal contents in any order of insertion: equal text *)
Theorem C48_same_text : forall a b indent, distinct_names a -> same_tree a b ->
  fst (JsonWrite a indent) = fst (JsonWrite b indent) /\
  fst (JsonWriteCompact a) = fst (JsonWriteCompact b).
Proof. exact write_same_text. Qed.
Print Assumptions C48_same_text.

(** the members appear in the text in ascending order of their names, at every depth:
    the text is a JSON text of a tree with ascending names *)
Theorem C48_names_ascend : forall j, portable j ->
  exists j', same_tree j j' /\ canonical j' /\ spells j' (fst (JsonWriteCompact j)) /\
  forall indent, exists w u, fst (JsonWrite j indent) = w ++ u /\ blank w /\ spells j' u.
Proof.
  intros j H. exists (canon j). split; [apply canon_same|]. split; [apply canon_canonical; now apply portable_distinct|].
  split; [now apply WriteCompact_spells|]. intros i. destruct (Write_spells H i) as (w & u & E & B & _ & _ & HS). eauto.
Qed.
Print Assumptions C48_names_ascend.

(** the sorting step is what SeqSort (the model of sequence.c) does with the comparison
    of property names *)
Theorem C48_sort_is_SeqSort :
  forall (strcmp : list byte -> list byte -> Z) (l : list (list byte * json)) cap d s,
  strcmp_ok strcmp -> NoDup (map fst l) -> (Z.of_nat (length l) <= 2147483647)%Z ->
  append_list (SeqNew (list byte * json) cap d) (map Some l) = Ok s ->
  exists s', SeqSort (fun a b => match a, b with Some x, Some y => strcmp (fst x) (fst y) | _, _ => 0%Z end) s = Ok s' /\
             items s' = Ok (map Some (sort_children l)).
Proof. exact C48_bridge. Qed.
Print Assumptions C48_sort_is_SeqSort.

Example C48_nonvacuous :
  let a := JObj [(lit "b", JsonNullCreate); (lit "a", JObj [(lit "y", JArr []); (lit "x", JArr [])])] in
  let b := JObj [(lit "a", JObj [(lit "x", JArr []); (lit "y", JArr [])]); (lit "b", JsonNullCreate)] in
  distinct_names a /\ same_tree a b /\ a <> b /\
  fst (JsonWriteCompact a) = lit "{""a"":{""x"":[],""y"":[]},""b"":null}".
Proof.
  intros a b. split; [|split; [|split; [discriminate|reflexivity]]].
  - constructor; [cbn; repeat (apply NoDup_cons; [cbn; intuition discriminate|]); constructor|].
    repeat apply Forall_cons; [constructor| |constructor]. constructor; [cbn; repeat (apply NoDup_cons; [cbn; intuition discriminate|]); constructor|].
    repeat constructor.
  - eapply same_obj; [apply perm_swap|]. constructor; [split; [reflexivity|]|repeat constructor].
    eapply same_obj; [apply perm_swap|]. repeat constructor.
Qed.

(** * C50 *)

(** for every input that does not end in a backslash the parser terminates without
    leaving the string, and answers with an error or with a well-formed tree and a
    cursor inside the input *)
Theorem C50_safe_partial : forall data, is_cstr data -> (forall p, data <> p ++ ["\"]) ->
  exists p, JsonParse data = Ok p /\
    (forall v d, p = POk v d -> well_formed v /\ exists q, data = q ++ d).
Proof.
  intros data H K. destruct (@JsonParse_fine data) as (p & E & F).
  { split; [exact H|]. intros [q Q]. exact (K q Q). }
  exists p. split; [exact E|]. intros v d Q. destruct (F v d Q) as (W & (q & S1) & _). eauto.
Qed.
Print Assumptions C50_safe_partial.

(** a backslash at the very end makes the parser step over the terminator *)
Theorem C50_refuted : exists data, is_cstr data /\ JsonParse data = UB.
Proof. exists [""""; "a"; "\"]. split; [unfold is_cstr, NUL; cbn; intuition discriminate|reflexivity]. Qed.
Print Assumptions C50_refuted.

Example C50_nonvacuous : exists data, is_cstr data /\ (forall p, data <> p ++ ["\"]) /\
  JsonParse data = Ok (POk (JObj [(lit "k", JArr [JPrim PInt (lit "1")])]) ["}"]).
Proof.
  exists (lit " {k : [1]}"). split; [unfold is_cstr, NUL; cbn; intuition discriminate|]. split; [|reflexivity].
  intros p H. apply (f_equal (fun l => last l NUL)) in H. rewrite last_last in H. discriminate H.
Qed.
