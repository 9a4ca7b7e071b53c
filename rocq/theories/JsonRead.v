(** Every text that spells a tree is parsed as that tree, in any context. *)
From Verif Require Import Prelude PreludeFacts Str StrFacts Libc LibcFacts JsonModel JsonFacts JsonSpec JsonSafe JsonParse.
From Coq Require Import Lia.
Set Implicit Arguments.
Local Open Scope char_scope.

Scheme spells_mut := Induction for spells Sort Prop
  with elements_mut := Induction for elements Sort Prop
  with members_mut := Induction for members Sort Prop.
Combined Scheme spells_elements_members from spells_mut, elements_mut, members_mut.

(** the last character of a value's text *)
Definition ender (c : byte) : bool := negb (beq c "," || beq c "[" || beq c ":" || beq c "{" || beq c NUL).

Lemma ender_facts c : ender c = true -> beq c "," = false /\ beq c "[" = false /\ beq c ":" = false.
Proof. unfold ender. rewrite negb_true_iff, !orb_false_iff. tauto. Qed.

(** * Members *)
Definition append_all (ms acc : list (list byte * json)) : list (list byte * json) :=
  fold_left (fun a m => JsonObjectAppendElement a (fst m) (snd m)) ms acc.

Lemma append_all_spec ms : forall acc, NoDup (map fst acc) ->
  append_all ms acc = filter (fun a => negb (existsb (fun m => bytes_eqb (fst a) (fst m)) ms)) acc ++ last_wins ms.
Proof.
  induction ms as [|[k v] r IH]; intros acc ND; cbn [append_all fold_left last_wins].
  - rewrite app_nil_r. induction acc as [|a acc IHa]; cbn; [reflexivity|]. f_equal. apply IHa. now inversion ND.
  - change (fold_left _ r (JsonObjectAppendElement acc (fst (k, v)) (snd (k, v)))) with (append_all r (JsonObjectAppendElement acc k v)).
    rewrite IH by now apply append_NoDup. rewrite append_without by assumption. rewrite filter_app, <- app_assoc. f_equal.
    + clear IH. unfold without. induction acc as [|a acc IHa]; cbn; [reflexivity|]. inversion ND; subst. specialize (IHa H2).
      assert (SY : bytes_eqb (fst a) k = bytes_eqb k (fst a)).
      { destruct (bytes_eqb k (fst a)) eqn:E; [apply bytes_eqb_eq in E; rewrite <- E; apply bytes_eqb_refl|].
        destruct (bytes_eqb (fst a) k) eqn:E'; [apply bytes_eqb_eq in E'; rewrite E', bytes_eqb_refl in E; discriminate|reflexivity]. }
      rewrite SY. destruct (bytes_eqb k (fst a)); cbn; [exact IHa|].
      destruct (existsb _ r); cbn; [exact IHa|]. f_equal. exact IHa.
    + cbn. destruct (existsb (fun m => bytes_eqb k (fst m)) r); reflexivity.
Qed.

Lemma append_all_nil ms : append_all ms [] = last_wins ms.
Proof. rewrite append_all_spec by constructor. reflexivity. Qed.

(** * Stepping over punctuation *)
Lemma AL_comma d prev acc : ender prev = true -> AL ("," :: d) prev acc = AL d "," acc.
Proof.
  intros H. unfold AL at 1. cbn [array_loop]. change (IsWhitespace ",") with false. change (beq "," DQ) with false.
  change (beq "," "[") with false. change (beq "," "{") with false. rewrite beq_refl.
  destruct (ender_facts _ H) as (E1 & E2 & E3). rewrite E1, E2. cbn [orb].
  apply AL_fuel. cbn; lia.
Qed.
Lemma AL_close d prev acc : AL ("]" :: d) prev acc = Ok (POk (JArr acc) ("]" :: d)).
Proof. reflexivity. Qed.
Lemma OL_close d prev acc : OL ("}" :: d) prev None acc = Ok (POk (JObj acc) ("}" :: d)).
Proof. reflexivity. Qed.
Lemma OL_comma d prev acc : ender prev = true -> OL ("," :: d) prev None acc = OL d "," None acc.
Proof.
  intros H. unfold OL at 1. cbn [object_loop]. change (IsWhitespace ",") with false. change (beq "," DQ) with false.
  change (beq "," ":") with false. rewrite beq_refl.
  destruct (ender_facts _ H) as (E1 & E2 & E3). rewrite E1, E3. cbn [orb].
  apply OL_fuel. cbn; lia.
Qed.
Lemma OL_colon d key acc : OL (":" :: d) DQ (Some key) acc = OL d ":" (Some key) acc.
Proof.
  change (object_loop (length (":" :: d)) d ":" (Some key) acc = OL d ":" (Some key) acc). apply OL_fuel. cbn; lia.
Qed.
Lemma OL_key k kt d prev acc : spells_string k kt -> OL (kt ++ d) prev None acc = OL d DQ (Some k) acc.
Proof.
  intros H. assert (E := ParseAsString_spells d H). assert (EE := ParseAsString_inside _ E). destruct H as [t H].
  cbn [app] in *. unfold OL at 1. cbn [object_loop].
  change (IsWhitespace """") with false. change (beq """" DQ) with true. cbn iota. rewrite E. cbn [bind].
  apply OL_fuel. destruct EE as [EE _]. now apply inside_length in EE.
Qed.
Lemma AL_array d prev acc : (prev = "[" \/ prev = ",") ->
  AL ("[" :: d) prev acc = let* r := AL d "[" [] in
    match r with PErr e => Ok (PErr e) | POk child r => match r with [] => UB | c' :: d' => AL d' c' (acc ++ [child]) end end.
Proof.
  intros H. unfold AL at 1. cbn [array_loop]. change (IsWhitespace "[") with false. change (beq "[" DQ) with false. rewrite beq_refl.
  replace (negb (beq prev "[") && negb (beq prev ",")) with false by (destruct H as [-> | ->]; reflexivity).
  rewrite AL_fuel by (cbn; lia). destruct (AL d "[" []) as [p| | |] eqn:E; cbn [bind]; try reflexivity.
  destruct p as [v [|c' d']|]; try reflexivity. apply (proj1 (loops_inside _)) in E. destruct E as [E _]. apply inside_length in E.
  rewrite AL_fuel by (cbn; lia). reflexivity.
Qed.
Lemma AL_object d prev acc : (prev = "[" \/ prev = ",") ->
  AL ("{" :: d) prev acc = let* r := OL d "{" None [] in
    match r with PErr e => Ok (PErr e) | POk child r => match r with [] => UB | c' :: d' => AL d' c' (acc ++ [child]) end end.
Proof.
  intros H. unfold AL at 1. cbn [array_loop]. change (IsWhitespace "{") with false. change (beq "{" DQ) with false. change (beq "{" "[") with false. rewrite beq_refl.
  replace (negb (beq prev "[") && negb (beq prev ",")) with false by (destruct H as [-> | ->]; reflexivity).
  rewrite OL_fuel by (cbn; lia). destruct (OL d "{" None []) as [p| | |] eqn:E; cbn [bind]; try reflexivity.
  destruct p as [v [|c' d']|]; try reflexivity. apply (proj2 (loops_inside _)) in E. destruct E as [E _]. apply inside_length in E.
  rewrite AL_fuel by (cbn; lia). reflexivity.
Qed.
Lemma OL_array d prev key acc :
  OL ("[" :: d) prev (Some key) acc = let* r := AL d "[" [] in
    match r with PErr e => Ok (PErr e) | POk child r => match r with [] => UB | c' :: d' => OL d' c' None (JsonObjectAppendElement acc key child) end end.
Proof.
  unfold OL at 1. cbn [object_loop]. change (IsWhitespace "[") with false. change (beq "[" DQ) with false. change (beq "[" ":") with false. change (beq "[" ",") with false. rewrite beq_refl.
  rewrite AL_fuel by (cbn; lia). destruct (AL d "[" []) as [p| | |] eqn:E; cbn [bind]; try reflexivity.
  destruct p as [v [|c' d']|]; try reflexivity. apply (proj1 (loops_inside _)) in E. destruct E as [E _]. apply inside_length in E.
  rewrite OL_fuel by (cbn; lia). reflexivity.
Qed.
Lemma OL_object d prev key acc :
  OL ("{" :: d) prev (Some key) acc = let* r := OL d "{" None [] in
    match r with PErr e => Ok (PErr e) | POk child r => match r with [] => UB | c' :: d' => OL d' c' None (JsonObjectAppendElement acc key child) end end.
Proof.
  unfold OL at 1. cbn [object_loop]. change (IsWhitespace "{") with false. change (beq "{" DQ) with false. change (beq "{" ":") with false. change (beq "{" ",") with false. change (beq "{" "[") with false. rewrite beq_refl.
  rewrite OL_fuel by (cbn; lia). destruct (OL d "{" None []) as [p| | |] eqn:E; cbn [bind]; try reflexivity.
  destruct p as [v [|c' d']|]; try reflexivity. apply (proj2 (loops_inside _)) in E. destruct E as [E _]. apply inside_length in E.
  rewrite OL_fuel by (cbn; lia). reflexivity.
Qed.
Lemma Parse_array d : JsonParse ("[" :: d) = AL d "[" [].
Proof. reflexivity. Qed.
Lemma Parse_object d : JsonParse ("{" :: d) = OL d "{" None [].
Proof. reflexivity. Qed.

(** * Values *)
Record reads (j : json) (t : list byte) : Prop := {
  r_last : ender (last t NUL) = true;
  r_arr : forall rest prev acc, (prev = "[" \/ prev = ",") -> separated rest ->
    AL (t ++ rest) prev acc = AL rest (last t NUL) (acc ++ [j]);
  r_obj : forall rest prev key acc, separated rest ->
    OL (t ++ rest) prev (Some key) acc = OL rest (last t NUL) None (JsonObjectAppendElement acc key j);
  r_top : forall rest, separated rest -> JsonParse (t ++ rest) = Ok (POk j (last t NUL :: rest)) }.

Lemma prim_reads j c t : punct c = false -> ender (last (c :: t) NUL) = true ->
  (forall rest, separated rest -> JsonParseAsPrimitive (c :: t ++ rest) = Ok (POk j (last (c :: t) NUL :: rest))) ->
  reads j (c :: t).
Proof.
  intros HP HL H. split.
  - exact HL.
  - intros rest prev acc _ HS. cbn [app]. rewrite (@AL_prim c _ prev acc _ _ HP (H rest HS)). reflexivity.
  - intros rest prev key acc HS. cbn [app]. rewrite (@OL_prim c _ prev key acc _ _ HP (H rest HS)). reflexivity.
  - intros rest HS. cbn [app]. rewrite Parse_prim by assumption. now apply H.
Qed.

Lemma last_snoc_cons (c x : byte) l d : last (c :: l ++ [x]) d = x.
Proof. change (c :: l ++ [x]) with ((c :: l) ++ [x]). apply last_last. Qed.

Lemma arr_reads cs t :
  (forall rest, AL (t ++ "]" :: rest) "[" [] = Ok (POk (JArr cs) ("]" :: rest))) ->
  reads (JArr cs) ("[" :: t ++ ["]"]).
Proof.
  intros H. split; rewrite last_snoc_cons.
  - reflexivity.
  - intros rest prev acc HP _. cbn [app]. rewrite <- app_assoc. cbn [app]. rewrite AL_array by assumption. rewrite H. reflexivity.
  - intros rest prev key acc _. cbn [app]. rewrite <- app_assoc. cbn [app]. rewrite OL_array. rewrite H. reflexivity.
  - intros rest _. cbn [app]. rewrite <- app_assoc. cbn [app]. now rewrite Parse_array.
Qed.
Lemma obj_reads kvs t :
  (forall rest, OL (t ++ "}" :: rest) "{" None [] = Ok (POk (JObj kvs) ("}" :: rest))) ->
  reads (JObj kvs) ("{" :: t ++ ["}"]).
Proof.
  intros H. split; rewrite last_snoc_cons.
  - reflexivity.
  - intros rest prev acc HP _. cbn [app]. rewrite <- app_assoc. cbn [app]. rewrite AL_object by assumption. rewrite H. reflexivity.
  - intros rest prev key acc _. cbn [app]. rewrite <- app_assoc. cbn [app]. rewrite OL_object. rewrite H. reflexivity.
  - intros rest _. cbn [app]. rewrite <- app_assoc. cbn [app]. now rewrite Parse_object.
Qed.

Lemma dig_ender c : dig c = true -> ender c = true.
Proof. destruct c as [[] [] [] [] [] [] [] []]; vm_compute; intros H; first [discriminate H | reflexivity]. Qed.

Lemma number_reads b t : number b t -> reads (JPrim (if b then PReal else PInt) t) t.
Proof.
  intros H. destruct (number_first H) as (c & d & -> & SN & HP & DQn). apply prim_reads; [exact HP|now apply dig_ender, (number_last H)|].
  intros rest HS. unfold JsonParseAsPrimitive. cbn [cur hd]. rewrite DQn, SN.
  assert (K := number_parses H HS). cbn [app] in K. now rewrite K.
Qed.
Lemma word_end rest : separated rest -> ends_word (cur rest) = true.
Proof. exact (@separated_stops rest). Qed.

Lemma separated_blank w rest : blank w -> separated rest -> separated (w ++ rest).
Proof.
  intros B HS. destruct w as [|c w]; [exact HS|]. right. cbn [app cur hd]. inversion B as [|x y HB1 HB2]; subst.
  unfold IsSeparator. now rewrite (blank_IsWhitespace HB1).
Qed.
Lemma separated_c c rest : IsSeparator c = true -> separated (c :: rest).
Proof. intros H. now right. Qed.

Theorem spells_reads :
  (forall j t, spells j t -> reads j t) /\
  (forall cs t, elements cs t -> forall rest prev acc, (prev = "[" \/ prev = ",") ->
     AL (t ++ "]" :: rest) prev acc = Ok (POk (JArr (acc ++ cs)) ("]" :: rest))) /\
  (forall ms t, members ms t -> forall rest prev acc,
     OL (t ++ "}" :: rest) prev None acc = Ok (POk (JObj (append_all ms acc)) ("}" :: rest))).
Proof.
  apply spells_elements_members.
  - intros s t HS HT. inversion HT as [u HU]; subst. apply prim_reads; [reflexivity|now rewrite last_snoc_cons|].
    intros rest _. rewrite last_snoc_cons. unfold JsonParseAsPrimitive. cbn [cur hd]. change (beq """" DQ) with true. cbn iota.
    assert (K := ParseAsString_spells rest HT). cbn [app] in K |- *. rewrite K. cbn [bind]. now rewrite decode_settled.
  - intros t H. exact (number_reads H).
  - intros t H. exact (number_reads H).
  - apply prim_reads; [reflexivity|reflexivity|]. intros rest HS. cbn -[ends_word]. 
    unfold JsonParseAsPrimitive, JsonParseAsBoolean. cbn -[ends_word]. now rewrite (word_end HS).
  - apply prim_reads; [reflexivity|reflexivity|]. intros rest HS.
    unfold JsonParseAsPrimitive, JsonParseAsBoolean. cbn -[ends_word]. now rewrite (word_end HS).
  - apply prim_reads; [reflexivity|reflexivity|]. intros rest HS.
    unfold JsonParseAsPrimitive, JsonParseAsBoolean, JsonParseAsNull. cbn -[ends_word]. now rewrite (word_end HS).
  - intros w B. apply arr_reads. intros rest. rewrite AL_blank by assumption. apply AL_close.
  - intros cs t HE IH. apply arr_reads. intros rest. rewrite IH by now left. reflexivity.
  - intros w B. apply obj_reads. intros rest. rewrite OL_blank by assumption. apply OL_close.
  - intros ms t HM IH. apply obj_reads. intros rest. rewrite IH. now rewrite append_all_nil.
  - intros w1 w2 j t B1 B2 HJ IH rest prev acc HP. rewrite <- !app_assoc. rewrite AL_blank by assumption.
    rewrite (r_arr IH); [|exact HP|apply separated_blank; [exact B2|now apply separated_c]].
    rewrite AL_blank by assumption. apply AL_close.
  - intros w1 w2 j t js u B1 B2 HJ IH HE IHE rest prev acc HP. rewrite <- !app_assoc. rewrite AL_blank by assumption.
    rewrite (r_arr IH); [|exact HP|apply separated_blank; [exact B2|now apply separated_c]].
    rewrite AL_blank by assumption. cbn [app]. rewrite AL_comma by apply (r_last IH).
    rewrite IHE by now right. now rewrite <- app_assoc.
  - intros w1 w2 w3 w4 k kt j t B1 B2 B3 B4 HK HJ IH rest prev acc.
    rewrite <- !app_assoc. rewrite OL_blank by assumption. rewrite (OL_key _ _ _ HK), OL_blank by assumption.
    cbn [app]. rewrite OL_colon, <- !app_assoc, OL_blank by assumption.
    rewrite (r_obj IH) by (apply separated_blank; [exact B4|now apply separated_c]).
    rewrite OL_blank by assumption. apply OL_close.
  - intros w1 w2 w3 w4 k kt j t ms u B1 B2 B3 B4 HK HJ IH HM IHM rest prev acc.
    rewrite <- !app_assoc. rewrite OL_blank by assumption. rewrite (OL_key _ _ _ HK), OL_blank by assumption.
    cbn [app]. rewrite OL_colon, <- !app_assoc, OL_blank by assumption.
    rewrite (r_obj IH) by (apply separated_blank; [exact B4|now apply separated_c]).
    rewrite OL_blank by assumption. cbn [app]. rewrite OL_comma by apply (r_last IH).
    rewrite IHM. reflexivity.
Qed.
