(** Properties of json-yaml.c: C108 (documents), C109 (scalars). *)
From Verif Require Import Prelude Str StrFacts Libc LibcFacts JsonModel JsonSpec JsonSafe JsonFacts NumModel PropsJsonMap YamlModel YamlSpec YamlProofs.
Set Implicit Arguments.

(** * C108 *)
(** A YAML stream gives the value of its first document; later documents are read and ignored. *)
Theorem C108_document_partial : forall fmt4 d j ds js, means d j -> copyable fmt4 j -> Forall2 means ds js ->
  JsonParseYamlString fmt4 (stream (d :: ds)) = Ok j.
Proof. intros fmt4 d j ds js M C F. rewrite (yaml_string fmt4 M F). now apply C49_copy_partial. Qed.
Print Assumptions C108_document_partial.
(** Whatever numbers the document holds, the value returned is a JsonCopy of the value of the document. *)
Theorem C108_copy : forall fmt4 d j ds js, means d j -> Forall2 means ds js -> JsonParseYamlString fmt4 (stream (d :: ds)) = JsonCopy fmt4 j.
Proof. intros. now apply yaml_string with js. Qed.
Print Assumptions C108_copy.
(** The meaning of a node is one value, in which no object has a key twice. *)
Lemma values_unique s v j j' : is_cstr v -> scalar_value s v j -> scalar_value s v j' -> j = j'.
Proof. intros C A B. rewrite <- (scalar_ok C A). now apply scalar_ok. Qed.
Lemma means_fun : forall n j j', means n j -> means n j' -> j = j'.
Proof.
  fix IH 4. intros n j j' M M'. destruct M as [s v j C SV|l js F|l kvs F]; inversion M' as [s' v' j'' C' SV'|l' js' F'|l' kvs' F']; subst.
  - now apply values_unique with s v.
  - f_equal. clear M'. revert js' F'. induction F as [|a b l js A F IHF]; intros js' F'; inversion F' as [|? b' ? js'' A' F'']; subst; [reflexivity|]. f_equal; [exact (IH _ _ _ A A')|now apply IHF].
  - f_equal. f_equal. clear M'. revert kvs' F'. induction F as [|a b l kvs A F IHF]; intros kvs' F'; inversion F' as [|? b' ? js'' A' F'']; subst; [reflexivity|]. f_equal; [|now apply IHF].
    destruct A as ((_ & K) & A), A' as ((_ & K') & A'). destruct b as [kb vb], b' as [kb' vb']. cbn [fst snd] in *. f_equal; [congruence|exact (IH _ _ _ A A')].
Qed.
Theorem C108_meaning : forall n j, means n j -> (forall j', means n j' -> j' = j) /\ forall kvs, j = JObj kvs -> NoDup (map fst kvs).
Proof.
  intros n j M. split; [intros j' M'; exact (means_fun M' M)|]. intros kvs E. subst j. inversion M as [s v j C SV| |l kvs' F]; subst; [inversion SV|]. clear.
  induction kvs' as [|[k v] l IH]; [constructor|]. cbn [lasts]. destruct (has_key k l) eqn:H; [exact IH|]. cbn [map fst]. constructor; [|exact IH].
  intros I. assert (SUB : forall x, In x (map fst (lasts l)) -> In x (map fst l)) by (clear; induction l as [|[a b] l IH]; intros x; [auto|]; cbn [lasts]; destruct (has_key a l); cbn [map fst In]; intuition).
  apply SUB in I. unfold has_key in H. apply in_map_iff in I. destruct I as ((a & b) & <- & I). assert (T : existsb (fun kv => bytes_eqb (fst (a, b)) (fst kv)) l = true) by (apply existsb_exists; exists (a, b); split; [exact I|apply bytes_eqb_refl]). congruence.
Qed.
Print Assumptions C108_meaning.

(** Whatever libyaml reports, reading ends: it returns a copy of a well-formed value, or stops the program. *)
Lemma upto_is_cstr v : is_cstr (upto_nul v).
Proof. unfold is_cstr. induction v as [|c v IH]; cbn [upto_nul]; [auto|]. destruct (beq c NUL) eqn:E; cbn [In]; [auto|]. intros [->|I]; [discriminate E|auto]. Qed.
Lemma scalar_wf t v p q : well_formed (JsonParseYamlScalarValue t v p q).
Proof.
  unfold JsonParseYamlScalarValue. set (T := match t with Some t => t | None => yaml_tag (lit "str") end). clearbody T.
  assert (R : well_formed match (if negb q && (p || bytes_eqb T (yaml_tag (lit "int")) || bytes_eqb T (yaml_tag (lit "float"))) then match JsonParseAsNumber (upto_nul v) with POk j _ => Some j | PErr _ => None end else None) with Some j => j | None => JsonStringCreate (upto_nul v) end).
  { destruct (negb q && _); [|apply wf_string, upto_is_cstr]. destruct (JsonParseAsNumber (upto_nul v)) eqn:E; [now apply ParseAsNumber_wf in E|apply wf_string, upto_is_cstr]. }
  repeat match goal with |- well_formed (if ?b then _ else _) => destruct b end; try exact R; try apply wf_null; try apply wf_true; try apply wf_false. unfold JsonBoolCreate. match goal with |- context [if ?b then _ else lit "false"] => destruct b end; [apply wf_true|apply wf_false].
Qed.
Lemma append_obj_wf kvs k j : well_formed (JObj kvs) -> is_cstr k -> well_formed j -> well_formed (JObj (JsonObjectAppendElement kvs k j)).
Proof.
  intros W C J. inversion W as [| | | | | |? ND FK FV]; subst. apply wf_object; [now apply append_NoDup|now apply append_Forall|now apply append_Forall].
Qed.
Lemma append_arr_wf cs j : well_formed (JArr cs) -> well_formed j -> well_formed (JArr (JsonArrayAppendElement cs j)).
Proof. intros W J. inversion W; subst. apply wf_array, Forall_app. auto. Qed.
Lemma data_ends : forall f evs e k, (length evs < f)%nat -> well_formed e -> match k with Some k => is_cstr k | None => True end ->
  (exists j r, JsonParseYamlData f evs e k = Ok (j, r) /\ well_formed j) \/ JsonParseYamlData f evs e k = Abort.
Proof.
  induction f as [|f IH]; intros evs e k L W K; [lia|].
  assert (BND : forall evs' start (g : json -> json), (S (length evs') < S f)%nat -> well_formed start -> (forall j, well_formed j -> well_formed (g j)) ->
    (exists j r, bind (JsonParseYamlData f evs' start None) (fun jr => let (j, evs) := jr in JsonParseYamlData f evs (g j) None) = Ok (j, r) /\ well_formed j) \/ bind (JsonParseYamlData f evs' start None) (fun jr => let (j, evs) := jr in JsonParseYamlData f evs (g j) None) = Abort).
  { intros evs' start g L1 WS G. destruct (IH evs' start None ltac:(lia) WS Logic.I) as [(j & r & E & WJ)|E]; rewrite E; cbn [bind]; [|auto]. apply IH; [|auto|exact Logic.I]. assert (LL := proj2 (@fuel_ok f evs' start None ltac:(lia)) _ _ E). lia. }
  assert (WA : well_formed (JArr [])) by (apply wf_array; constructor). assert (WO : well_formed (JObj [])) by (apply wf_object; constructor).
  cbn [JsonParseYamlData]. destruct evs as [|ev evs]; [left; eauto|]. cbn [length] in L. destruct ev; try (left; eauto; fail).
  - destruct e as [pt pv|cs|kvs]; [auto|apply IH; [lia|apply append_arr_wf; [exact W|apply scalar_wf]|exact Logic.I]|destruct k as [k|]; apply IH; try lia; auto using append_obj_wf, scalar_wf, upto_is_cstr].
  - destruct e as [pt pv|cs|kvs]; [auto|apply (BND evs (JArr []) (fun j => JArr (JsonArrayAppendElement cs j))); auto using append_arr_wf|destruct k as [k|]; [apply (BND evs (JArr []) (fun j => JObj (JsonObjectAppendElement kvs k j))); auto using append_obj_wf|auto]].
  - destruct e; eauto.
  - destruct e as [pt pv|cs|kvs]; [auto|apply (BND evs (JObj []) (fun j => JArr (JsonArrayAppendElement cs j))); auto using append_arr_wf|destruct k as [k|]; [apply (BND evs (JObj []) (fun j => JObj (JsonObjectAppendElement kvs k j))); auto using append_obj_wf|auto]].
  - destruct e; eauto.
  - apply IH; auto. lia.
Qed.
Lemma scan_end s neg ds e : strto_scan s = (neg, ds, e) -> (e <= length s)%nat.
Proof.
  unfold strto_scan. destruct (span isspace s) as [sp r] eqn:E1. apply span_eq in E1. destruct E1 as (-> & _).
  rewrite app_length. assert (G : forall x r', span isdigit r' = (ds, x) -> (length ds <= length r')%nat) by (intros x r' E; apply span_eq in E; destruct E as (-> & _); rewrite app_length; lia).
  destruct r as [|c r]; cbn [span length].
  - intros H. injection H as <- <- <-. lia.
  - destruct (beq c "-"); [|destruct (beq c "+")].
    + destruct (span isdigit r) as [d x] eqn:E. intros H. injection H as <- <- <-. specialize (G _ _ E). destruct d; cbn [length] in *; lia.
    + destruct (span isdigit r) as [d x] eqn:E. intros H. injection H as <- <- <-. specialize (G _ _ E). destruct d; cbn [length] in *; lia.
    + destruct (span isdigit (c :: r)) as [d x] eqn:E. intros H. injection H as <- <- <-. specialize (G _ _ E). destruct d; cbn [length] in *; lia.
Qed.
Lemma int_ends v : Forall (fun c => In c (lit "0123456789-+.eE")) v -> (exists z, StringToLongExitOnError v = Ok z) \/ StringToLongExitOnError v = Abort.
Proof.
  intros F. unfold StringToLongExitOnError, StringToLong, strtol. destruct (strto_scan v) as [[neg ds] e] eqn:E. apply scan_end in E.
  assert (B : exists b, bad_end v e = Ok b).
  { unfold bad_end. destruct (Nat.eq_dec e (length v)) as [->|NE].
    - rewrite chr_end. cbn [bind]. rewrite beq_refl. eauto.
    - rewrite chr_lt by lia. cbn [bind]. destruct (beq (nth e v NUL) NUL); [eauto|]. rewrite Forall_forall in F. assert (I : In (nth e v NUL) (lit "0123456789-+.eE")) by (apply F, nth_In; lia).
      unfold isspace_char. cbn in I. repeat (destruct I as [<-|I]; [cbn; eauto|]). destruct I. }
  destruct B as (b & B). set (z := if neg then _ else _). clearbody z.
  destruct (z >? LONG_MAX)%Z, (z <? LONG_MIN)%Z; cbn [andb]; rewrite ?Z.eqb_refl, ?orb_true_r; cbn [orb bind]; rewrite ?Z.eqb_refl; cbn; auto; destruct (e =? 0)%nat; cbn; auto; rewrite B; cbn [bind]; destruct b; cbn; eauto.
Qed.
Lemma copy_ends fmt4 : forall j, well_formed j -> (exists j', JsonCopy fmt4 j = Ok j') \/ JsonCopy fmt4 j = Abort.
Proof.
  induction j as [t v|cs IH|kvs IH] using json_nested_ind; intros W; cbn [JsonCopy].
  - destruct t; cbn [JsonPrimitiveCopy]; try (left; eexists; reflexivity). unfold JsonPrimitiveGetAsInteger. inversion W as [|? ? _ _ F _| | | | |]; subst. destruct (int_ends F) as [(z & ->)| ->]; cbn [bind]; [left; eexists; reflexivity|right; reflexivity].
  - assert (FW : Forall well_formed cs) by (now inversion W). clear W.
    assert (G : forall acc, (exists o, (fix loop l acc := match l with [] => Ok acc | c :: r => let* c' := JsonCopy fmt4 c in loop r (JsonArrayAppendElement acc c') end) cs acc = Ok o) \/ (fix loop l acc := match l with [] => Ok acc | c :: r => let* c' := JsonCopy fmt4 c in loop r (JsonArrayAppendElement acc c') end) cs acc = Abort).
    { induction cs as [|c cs IHl]; intros acc; [eauto|]. assert (IHc : well_formed c -> (exists j', JsonCopy fmt4 c = Ok j') \/ JsonCopy fmt4 c = Abort) by (now inversion IH). assert (IHr := Forall_inv_tail IH). assert (WC : well_formed c) by (now inversion FW). assert (WR : Forall well_formed cs) by (now inversion FW). destruct (IHc WC) as [(c' & ->)| ->]; cbn [bind]; [apply (IHl IHr WR)|auto]. }
    destruct (G []) as [(o & ->)| ->]; cbn [bind]; eauto.
  - assert (FW : Forall (fun kv => well_formed (snd kv)) kvs) by (now inversion W). clear W.
    assert (G : forall acc, (exists o, (fix loop l acc := match l with [] => Ok acc | (k, c) :: r => let* c' := JsonCopy fmt4 c in loop r (JsonObjectAppendElement acc k c') end) kvs acc = Ok o) \/ (fix loop l acc := match l with [] => Ok acc | (k, c) :: r => let* c' := JsonCopy fmt4 c in loop r (JsonObjectAppendElement acc k c') end) kvs acc = Abort).
    { induction kvs as [|[k c] kvs IHl]; intros acc; [eauto|]. assert (IHc : well_formed c -> (exists j', JsonCopy fmt4 c = Ok j') \/ JsonCopy fmt4 c = Abort) by (now inversion IH). assert (IHr := Forall_inv_tail IH). assert (WC : well_formed c) by (now inversion FW). assert (WR : Forall (fun kv => well_formed (snd kv)) kvs) by (now inversion FW). destruct (IHc WC) as [(c' & ->)| ->]; cbn [bind]; [apply (IHl IHr WR)|auto]. }
    destruct (G []) as [(o & ->)| ->]; cbn [bind]; eauto.
Qed.
Theorem C108_ends : forall fmt4 evs, (exists j j', well_formed j /\ JsonCopy fmt4 j = Ok j' /\ JsonParseYamlString fmt4 evs = Ok j') \/ JsonParseYamlString fmt4 evs = Abort.
Proof.
  intros fmt4 evs. unfold JsonParseYamlString. destruct (@data_ends (S (length evs)) evs (JArr []) None) as [(j & r & -> & W)| ->]; cbn [bind]; auto; [apply wf_array; constructor|].
  destruct j as [t v|[|j cs]|kvs]; auto. assert (WJ : well_formed j) by (inversion W as [| | | | |? F|]; now inversion F). destruct (copy_ends fmt4 WJ) as [(j' & E)|E]; rewrite E; eauto 6.
Qed.
Print Assumptions C108_ends.

(** ** what goes wrong *)
Section Wrong.
  Variable fmt4 : list byte -> list byte.
  Local Notation P v := (scalar_event Plain v).
  (** an empty text (no document) stops the program instead of being an error *)
  Theorem C108_empty_refuted : JsonParseYamlString fmt4 (stream []) = Abort.
  Proof. reflexivity. Qed.
  (** after a syntax error what was read so far is returned as if the text had ended there: here
      the error comes in the middle of a member, whose key is dropped *)
  Theorem C108_syntax_error_refuted :
    JsonParseYamlString fmt4 [OtherE false; OtherE false; MapStart; P (lit "a"); SeqStart; P (lit "x"); NoEvent] = Ok (JObj [(lit "a", JArr [JPrim PString (lit "x")])]) /\
    JsonParseYamlString fmt4 [OtherE false; OtherE false; MapStart; P (lit "a"); P (lit "x"); P (lit "b"); NoEvent] = Ok (JObj [(lit "a", JPrim PString (lit "x"))]).
  Proof. split; reflexivity. Qed.
  (** an alias is passed over, so that the key after it becomes the value of the key before it:
      a: &x p, b: *x, c: q *)
  Theorem C108_alias_refuted :
    JsonParseYamlString fmt4 [OtherE false; OtherE false; MapStart; P (lit "a"); P (lit "p"); P (lit "b"); OtherE true; P (lit "c"); P (lit "q"); MapEnd; OtherE false; StreamEnd]
    = Ok (JObj [(lit "a", JPrim PString (lit "p")); (lit "b", JPrim PString (lit "c"))]).
  Proof. reflexivity. Qed.
  (** a sequence or a mapping as a key stops the program *)
  Theorem C108_key_refuted :
    JsonParseYamlString fmt4 [OtherE false; OtherE false; MapStart; SeqStart; P (lit "a"); SeqEnd; P (lit "b"); MapEnd; OtherE false; StreamEnd] = Abort.
  Proof. reflexivity. Qed.
  (** integers outside the range of int are changed by the copy, and one with an exponent stops the program *)
  Theorem C108_numbers_refuted :
    (means (NScalar Plain (lit "3000000000")) (JPrim PInt (lit "3000000000")) /\ JsonParseYamlString fmt4 (stream [NScalar Plain (lit "3000000000")]) = Ok (JPrim PInt (lit "-1294967296"))) /\
    (means (NScalar Plain (lit "1e5")) (JPrim PInt (lit "1e5")) /\ JsonParseYamlString fmt4 (stream [NScalar Plain (lit "1e5")]) = Abort).
  Proof.
    split; (split; [apply m_scalar; [unfold is_cstr, NUL; cbn; intuition discriminate|apply sv_int; [now left|]]|reflexivity]).
    - apply (@number_parts [] (lit "3000000000") false [] []); [now left| | |].
      + apply int_nonzero; [cbn; tauto|]. repeat (apply Forall_cons; [cbn; tauto|]). constructor.
      + constructor.
      + constructor.
    - apply (@number_parts [] (lit "1") false [] (lit "e5")); [now left| | |].
      + apply int_nonzero; [cbn; tauto|constructor].
      + constructor.
      + apply (@exp_some "e"%char [] "5"%char []); cbn; auto. tauto.
  Qed.
End Wrong.
Print Assumptions C108_empty_refuted.
Print Assumptions C108_syntax_error_refuted.
Print Assumptions C108_alias_refuted.
Print Assumptions C108_key_refuted.
Print Assumptions C108_numbers_refuted.

(** a document with everything in it: a duplicate key, a later document *)
Example C108_nonvacuous : forall fmt4,
  let d := NMap [(Plain, lit "a", NScalar Plain (lit "yes")); (Quoted, lit "b", NSeq [NScalar Quoted (lit "no"); NScalar Plain (lit "-7"); NScalar Plain []]); (Plain, lit "a", NScalar Plain (lit "text"))] in
  let j := JObj [(lit "b", JArr [JPrim PString (lit "no"); JPrim PInt (lit "-7"); JPrim PNull (lit "null")]); (lit "a", JPrim PString (lit "text"))] in
  means d j /\ copyable fmt4 j /\ JsonParseYamlString fmt4 (stream [d; NScalar Plain (lit "x")]) = Ok j.
Proof.
  intros fmt4 d j.
  assert (C : forall v, In v [lit "yes"; lit "no"; lit "-7"; []; lit "text"; lit "a"; lit "b"] -> is_cstr v) by (intros v I; cbn in I; repeat (destruct I as [<-|I]; [unfold is_cstr, NUL; cbn; intuition discriminate|]); destruct I).
  split; [|split; [|reflexivity]].
  - apply (@m_map _ [(lit "a", JPrim PBool (lit "true")); (lit "b", JArr [JPrim PString (lit "no"); JPrim PInt (lit "-7"); JPrim PNull (lit "null")]); (lit "a", JPrim PString (lit "text"))]).
    apply Forall2_cons; [split; [split; [apply C; cbn; tauto|reflexivity]|apply m_scalar; [apply C; cbn; tauto|apply sv_true; [now left|cbn; tauto]]]|].
    apply Forall2_cons; [split; [split; [apply C; cbn; tauto|reflexivity]|]|].
    + apply m_seq. apply Forall2_cons; [apply m_scalar; [apply C; cbn; tauto|apply sv_string]|].
      * intros ([A|A] & _); discriminate.
      * intros ([A|A] & _); discriminate.
      * intros ([A|[A|A]] & _); discriminate.
      * apply Forall2_cons; [apply m_scalar; [apply C; cbn; tauto|apply sv_int; [now left|]]|].
        { apply (@number_parts ["-"%char] (lit "7") false [] []); [cbn; auto|apply int_nonzero; [cbn; tauto|constructor]|constructor|constructor]. }
        apply Forall2_cons; [apply m_scalar; [apply C; cbn; tauto|apply sv_null; [now left|now left]]|constructor].
    + apply Forall2_cons; [split; [split; [apply C; cbn; tauto|reflexivity]|apply m_scalar; [apply C; cbn; tauto|apply sv_string]]|constructor].
      * intros (_ & I). cbn in I. intuition discriminate.
      * intros (_ & I). cbn in I. intuition discriminate.
      * intros (_ & (c & E & I)). injection E as <-. cbn in I. intuition discriminate.
  - apply cp_obj; [cbn; repeat (apply NoDup_cons; [cbn; intuition discriminate|]); constructor|].
    apply Forall_cons; [|apply Forall_cons; [apply cp_string|constructor]]. apply cp_arr.
    apply Forall_cons; [apply cp_string|apply Forall_cons; [apply (@cp_int _ (-7)%Z); lia|apply Forall_cons; [apply cp_null|constructor]]].
Qed.

(** * C109 *)
(** The scalar function, called with what libyaml reports for a scalar, gives the value of the scalar. *)
Theorem C109_scalar : forall s v j t p q, is_cstr v -> scalar_value s v j -> scalar_event s v = ScalarE t v p q -> JsonParseYamlScalarValue t v p q = j.
Proof. intros s v j t p q C V E. rewrite <- (scalar_ok C V). unfold yscalar. destruct s; cbn [scalar_event] in E; injection E as <- <- <-; reflexivity. Qed.
Print Assumptions C109_scalar.
(** Which scalars have a value: all but those that may be numbers, begin like one and are not. *)
Theorem C109_all : forall s v, is_cstr v -> (forall j, ~ scalar_value s v j) ->
  may_number s /\ exists c d, v = c :: d /\ In c (lit "-0123456789") /\ forall b, ~ number b v.
Proof.
  intros s v C NJ. destruct (mayb (lit "null") s && inb v null_words) eqn:E1.
  { apply andb_true_iff in E1. destruct E1 as (A & B). exfalso. eapply NJ. apply sv_null; [now apply mayb_null|now apply inb_in]. }
  destruct (mayb (lit "bool") s && inb v true_words) eqn:E2.
  { apply andb_true_iff in E2. destruct E2 as (A & B). exfalso. eapply NJ. apply sv_true; [now apply mayb_bool|now apply inb_in]. }
  destruct (mayb (lit "bool") s && inb v false_words) eqn:E3.
  { apply andb_true_iff in E3. destruct E3 as (A & B). exfalso. eapply NJ. apply sv_false; [now apply mayb_bool|now apply inb_in]. }
  assert (N1 : ~ (may_null s /\ In v null_words)) by (intros (A & B); apply mayb_null in A; apply inb_in in B; rewrite A, B in E1; discriminate).
  assert (N2 : ~ (may_bool s /\ (In v true_words \/ In v false_words))) by (intros (A & [B|B]); apply mayb_bool in A; apply inb_in in B; rewrite A, B in *; discriminate).
  assert (DEC : {may_number s} + {~ may_number s}).
  { destruct (mayb (lit "int") s || mayb (lit "float") s) eqn:M; [left; now apply mayb_number|right; intros A; apply mayb_number in A; congruence]. }
  destruct DEC as [M|M]; [|exfalso; eapply NJ; apply sv_string; tauto].
  destruct v as [|c d]; [exfalso; eapply NJ; apply sv_string; try tauto; intros (_ & (c & E & _)); discriminate|].
  destruct (in_dec Ascii.ascii_dec c (lit "-0123456789")) as [I|I].
  - split; [exact M|]. exists c, d. split; [reflexivity|]. split; [exact I|]. intros [|] N; eapply NJ; [apply sv_real|apply sv_int]; auto.
  - exfalso. eapply NJ. apply sv_string; auto. intros (_ & (c' & E & I')). injection E as <-. auto.
Qed.
Print Assumptions C109_all.
(** Quoted scalars, and those with another tag, are strings, whatever they spell. *)
Theorem C109_quoted : forall v, is_cstr v -> JsonParseYamlScalarValue None v false true = JPrim PString v.
Proof.
  intros v C. apply (@C109_scalar Quoted v); [exact C| |reflexivity]. apply sv_string; [intros ([A|A] & _)|intros ([A|A] & _)|intros ([A|[A|A]] & _)]; discriminate.
Qed.
Print Assumptions C109_quoted.
Theorem C109_tagged : forall v t, is_cstr v -> ~ In t (map (fun n => lit "tag:yaml.org,2002:" ++ n) [lit "null"; lit "bool"; lit "int"; lit "float"]) ->
  JsonParseYamlScalarValue (Some t) v false false = JPrim PString v.
Proof.
  intros v t C N. apply (@C109_scalar (Tagged t) v); [exact C| |reflexivity]. cbn [map] in N.
  apply sv_string; [intros ([A|A] & _)|intros ([A|A] & _)|intros ([A|[A|A]] & _)]; try discriminate; injection A as ->; apply N; cbn; tauto.
Qed.
Print Assumptions C109_tagged.
(** A plain scalar that only begins with a number is cut to the number when a space, a comma or a
    bracket follows it; and a number with a leading zero behind the sign is taken for an integer. *)
Theorem C109_prefix_refuted :
  JsonParseYamlScalarValue None (lit "12 apples") true false = JPrim PInt (lit "12") /\
  JsonParseYamlScalarValue None (lit "3,5") true false = JPrim PInt (lit "3") /\
  JsonParseYamlScalarValue None (lit "-01") true false = JPrim PInt (lit "-01") /\
  JsonParseYamlScalarValue None (lit "12apples") true false = JPrim PString (lit "12apples").
Proof. repeat split. Qed.
Print Assumptions C109_prefix_refuted.
(** A quoted scalar with a NUL in it is cut there. *)
Theorem C109_nul_refuted : forall w, JsonParseYamlScalarValue None (lit "ab" ++ NUL :: w) false true = JPrim PString (lit "ab").
Proof. intros w. unfold JsonParseYamlScalarValue. reflexivity. Qed.
Print Assumptions C109_nul_refuted.

Example C109_nonvacuous :
  scalar_value (Tagged (lit "tag:yaml.org,2002:bool")) (lit "Off") (JPrim PBool (lit "false")) /\ scalar_value Quoted (lit "Off") (JPrim PString (lit "Off")) /\
  JsonParseYamlScalarValue (Some (lit "tag:yaml.org,2002:bool")) (lit "Off") false false = JPrim PBool (lit "false").
Proof.
  split; [apply sv_false; [now right|cbn; tauto]|]. split; [|reflexivity]. apply sv_string; [intros ([A|A] & _)|intros ([A|A] & _)|intros ([A|[A|A]] & _)]; discriminate.
Qed.
