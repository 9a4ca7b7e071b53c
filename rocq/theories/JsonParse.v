(** The parser on JSON texts: every text that spells a tree is read as that tree. *)
From Verif Require Import Prelude PreludeFacts Str StrFacts Libc LibcFacts JsonModel JsonFacts JsonSpec JsonSafe.
From Coq Require Import Lia.
Set Implicit Arguments.
Local Open Scope char_scope.

(** * Strings *)
Lemma beq_neq c d : c <> d -> beq c d = false.
Proof. intros H. destruct (beq c d) eqn:E; [apply beq_true in E; congruence|reflexivity]. Qed.

Lemma string_loop_spells s t : spells_chars s t ->
  forall rest out, string_loop (t ++ DQ :: rest) out = Ok (POk (out ++ s) (DQ :: rest)).
Proof.
  induction 1 as [|c s t u H K IH]; intros rest out.
  - cbn [app string_loop]. rewrite beq_refl. now rewrite app_nil_r.
  - rewrite <- app_assoc. destruct H; cbn [app string_loop];
      try (cbn; rewrite IH; rewrite <- app_assoc; reflexivity).
    rewrite (@beq_neq c DQ H), (@beq_neq c BS H0), IH, <- app_assoc. reflexivity.
Qed.

Lemma ParseAsString_spells s t rest : spells_string s t ->
  JsonParseAsString (t ++ rest) = Ok (POk s (DQ :: rest)).
Proof.
  intros [u H]. cbn [app]. rewrite <- app_assoc. cbn [app JsonParseAsString].
  change (beq """" DQ) with true. cbn iota. now rewrite (string_loop_spells H).
Qed.

Lemma decode_settled s : settled s -> JsonDecodeString s = s.
Proof.
  unfold JsonDecodeString. induction s as [|c t IH]; intros H; [reflexivity|]. cbn [decode_loop].
  assert (T : settled t). { intros p x q E. apply (H (c :: p) x q). now rewrite E. }
  destruct (beq c BS) eqn:EB; [|now rewrite IH].
  apply beq_true in EB. subst c. cbv zeta.
  destruct t as [|x t]; [reflexivity|]. cbn [hd].
  assert (K := H [] x t eq_refl).
  assert (B : forall y, In y [""""; "\"; "b"; "f"; "n"; "r"; "t"] -> beq x y = false).
  { intros y I. apply beq_neq. intros ->. now apply K. }
  rewrite !B by (cbn; tauto). cbn [orb]. now rewrite IH.
Qed.

(** * White space *)
Lemma blank_IsWhitespace c : In c [" "; "009"; "010"; "013"] -> IsWhitespace c = true.
Proof. cbn. intros H. repeat (destruct H as [<-|H]; [reflexivity|]). destruct H. Qed.

Lemma AL_ws c d prev acc : IsWhitespace c = true -> AL (c :: d) prev acc = AL d prev acc.
Proof. intros H. unfold AL at 1. cbn [array_loop]. rewrite H. apply AL_fuel. cbn; lia. Qed.
Lemma OL_ws c d prev name acc : IsWhitespace c = true -> OL (c :: d) prev name acc = OL d prev name acc.
Proof. intros H. unfold OL at 1. cbn [object_loop]. rewrite H. apply OL_fuel. cbn; lia. Qed.

Lemma AL_blank w d prev acc : blank w -> AL (w ++ d) prev acc = AL d prev acc.
Proof. induction 1 as [|c w H K IH]; [reflexivity|]. cbn [app]. rewrite AL_ws; [exact IH|]. now apply blank_IsWhitespace. Qed.
Lemma OL_blank w d prev name acc : blank w -> OL (w ++ d) prev name acc = OL d prev name acc.
Proof. induction 1 as [|c w H K IH]; [reflexivity|]. cbn [app]. rewrite OL_ws; [exact IH|]. now apply blank_IsWhitespace. Qed.
Lemma Parse_blank w d : blank w -> JsonParse (w ++ d) = JsonParse d.
Proof.
  induction 1 as [|c w H K IH]; [reflexivity|]. cbn [app JsonParse].
  cbn in H. repeat (destruct H as [<-|H]; [exact IH|]). destruct H.
Qed.

(** * Primitives in the three contexts *)
Definition punct (c : byte) : bool :=
  IsWhitespace c || beq c "[" || beq c "]" || beq c "{" || beq c "}" || beq c "," || beq c ":".

Lemma punct_false c : punct c = false -> IsWhitespace c = false /\ beq c "[" = false /\ beq c "]" = false /\
  beq c "{" = false /\ beq c "}" = false /\ beq c "," = false /\ beq c ":" = false.
Proof. unfold punct. rewrite !orb_false_iff. tauto. Qed.

Lemma AL_prim c d prev acc j r : punct c = false ->
  JsonParseAsPrimitive (c :: d) = Ok (POk j r) ->
  AL (c :: d) prev acc = match r with [] => UB | c' :: d' => AL d' c' (acc ++ [j]) end.
Proof.
  intros HP H. apply punct_false in HP. destruct HP as (P1 & P2 & P3 & P4 & P5 & P6 & P7).
  unfold AL at 1. cbn [array_loop]. rewrite P1, P2, P3, P4, P6.
  unfold JsonParseAsPrimitive in H. cbn [cur hd] in H.
  assert (NX : forall r child, inside r (c :: d) ->
    match r with [] => UB | c' :: d' => array_loop (length (c :: d)) d' c' (JsonArrayAppendElement acc child) end
    = match r with [] => UB | c' :: d' => AL d' c' (acc ++ [child]) end).
  { intros [|c' d'] child HI; [reflexivity|]. apply AL_fuel. now apply inside_length in HI. }
  destruct (beq c DQ).
  { destruct (JsonParseAsString (c :: d)) as [p| | |] eqn:E; try discriminate. cbn [bind] in H |- *.
    destruct p as [v r'|]; [|discriminate]. injection H as <- <-. apply NX. now apply ParseAsString_inside in E. }
  destruct (starts_number c).
  { destruct (JsonParseAsNumber (c :: d)) as [v r'|] eqn:E; [|discriminate]. injection H as <- <-. apply NX. now apply ParseAsNumber_inside in E. }
  destruct (JsonParseAsBoolean (c :: d)) as [[v r']|] eqn:E. { injection H as <- <-. apply NX. now apply ParseAsBoolean_inside in E. }
  destruct (JsonParseAsNull (c :: d)) as [[v r']|] eqn:E2; [|discriminate]. injection H as <- <-. apply NX. now apply ParseAsNull_inside in E2.
Qed.

Lemma OL_prim c d prev key acc j r : punct c = false ->
  JsonParseAsPrimitive (c :: d) = Ok (POk j r) ->
  OL (c :: d) prev (Some key) acc =
  match r with [] => UB | c' :: d' => OL d' c' None (JsonObjectAppendElement acc key j) end.
Proof.
  intros HP H. apply punct_false in HP. destruct HP as (P1 & P2 & P3 & P4 & P5 & P6 & P7).
  unfold OL at 1. cbn [object_loop]. rewrite P1, P2, P4, P5, P6, P7.
  unfold JsonParseAsPrimitive in H. cbn [cur hd] in H.
  assert (NX : forall r child, inside r (c :: d) ->
    match r with [] => UB | c' :: d' => object_loop (length (c :: d)) d' c' None (JsonObjectAppendElement acc key child) end
    = match r with [] => UB | c' :: d' => OL d' c' None (JsonObjectAppendElement acc key child) end).
  { intros [|c' d'] child HI; [reflexivity|]. apply OL_fuel. now apply inside_length in HI. }
  destruct (beq c DQ).
  { destruct (JsonParseAsString (c :: d)) as [p| | |] eqn:E; try discriminate. cbn [bind] in H |- *.
    destruct p as [v r'|]; [|discriminate]. injection H as <- <-. apply NX. now apply ParseAsString_inside in E. }
  destruct (starts_number c).
  { destruct (JsonParseAsNumber (c :: d)) as [v r'|] eqn:E; [|discriminate]. injection H as <- <-. apply NX. now apply ParseAsNumber_inside in E. }
  destruct (JsonParseAsBoolean (c :: d)) as [[v r']|] eqn:E. { injection H as <- <-. apply NX. now apply ParseAsBoolean_inside in E. }
  destruct (JsonParseAsNull (c :: d)) as [[v r']|] eqn:E2; [|discriminate]. injection H as <- <-. apply NX. now apply ParseAsNull_inside in E2.
Qed.

Lemma Parse_prim c d : punct c = false -> JsonParse (c :: d) = JsonParseAsPrimitive (c :: d).
Proof.
  intros HP. apply punct_false in HP. destruct HP as (P1 & P2 & P3 & P4 & P5 & P6 & P7).
  cbn [JsonParse]. now rewrite P1, P2, P4.
Qed.

(** * Numbers *)
(** the cursor is at a place where a word may end *)
Definition stops (rest : list byte) : Prop := ends_word (cur rest) = true.

Lemma stops_cases rest : stops rest -> rest = [] \/ exists c d, rest = c :: d /\ (IsSeparator c = true \/ c = NUL).
Proof.
  destruct rest as [|c d]; [now left|]. right. exists c, d. split; [reflexivity|].
  unfold stops, ends_word in H. cbn [cur hd] in H. apply orb_true_iff in H. destruct H as [H|H]; [now left|right; now apply beq_true].
Qed.

Definition separated (rest : list byte) : Prop := rest = [] \/ IsSeparator (cur rest) = true.
Lemma separated_stops rest : separated rest -> stops rest.
Proof. intros [->|H]; [reflexivity|]. unfold stops, ends_word. now rewrite H. Qed.

Definition dig (c : byte) : bool := beq c "0" || IsDigit c.
Lemma digit_dig c : digit c -> dig c = true.
Proof. intros H. apply digit_IsDigit in H. unfold dig. apply orb_true_iff. exact H. Qed.

Lemma digit19_facts c : digit19 c -> IsSeparator c = false /\ beq c "-" = false /\ beq c "+" = false /\ beq c "0" = false /\ beq c "." = false /\
  (beq c "e" || beq c "E") = false /\ IsDigit c = true.
Proof. unfold digit19. cbn. intros H. repeat (destruct H as [<-|H]; [cbv; tauto|]). destruct H. Qed.
Lemma digit_facts c : digit c -> (c = "0" \/ digit19 c).
Proof. unfold digit, digit19. cbn. intros H. repeat (destruct H as [<-|H]; [tauto|]). destruct H. Qed.

Lemma number_finish rest out z sd se prev : separated rest -> dig prev = true ->
  number_loop rest out z sd se prev = POk (JPrim (if sd then PReal else PInt) out) (prev :: rest).
Proof.
  intros HS HD.
  assert (F : negb (beq prev "0") && negb (IsDigit prev) = false).
  { unfold dig in HD. destruct (beq prev "0"); [reflexivity|]. cbn in HD. now rewrite HD. }
  destruct rest as [|c d]; cbn [number_loop]; rewrite F; [reflexivity|].
  destruct HS as [HS|HS]; [discriminate|]. cbn [cur hd] in HS. now rewrite HS.
Qed.

(** a run of digits where they are allowed *)
Lemma number_digits : forall ds rest out z sd se prev,
  Forall digit ds -> prev <> NUL -> dig prev = true -> z && negb sd && negb se = false ->
  exists prev', number_loop (ds ++ rest) out z sd se prev = number_loop rest (out ++ ds) z sd se prev' /\
    dig prev' = true /\ prev' <> NUL /\ prev' = last (prev :: ds) NUL.
Proof.
  induction ds as [|c ds IH]; intros rest out z sd se prev F NZ D Z.
  - exists prev. now rewrite app_nil_r.
  - inversion F; subst.
    assert (NP : beq prev NUL = false) by now apply beq_neq.
    assert (STEP : number_loop ((c :: ds) ++ rest) out z sd se prev = number_loop (ds ++ rest) (out ++ [c]) z sd se c).
    { cbn [app number_loop]. destruct (digit_facts H1) as [-> | H19].
      - change (IsSeparator "0") with false. change (beq "0" "-") with false. change (beq "0" "+") with false. rewrite beq_refl, Z, NP, orb_false_r. reflexivity.
      - destruct (digit19_facts H19) as (-> & -> & -> & -> & -> & -> & ->). rewrite Z. reflexivity. }
    rewrite STEP.
    destruct (IH rest (out ++ [c]) z sd se c H2) as (p' & E & D' & N' & L').
    + intros ->. now vm_compute in H1; intuition discriminate.
    + now apply digit_dig.
    + exact Z.
    + exists p'. rewrite E, <- app_assoc. repeat split; auto.
Qed.

Lemma number_dot rest out z se prev : dig prev = true ->
  number_loop ("." :: rest) out z false se prev = number_loop rest (out ++ ["."]) z true se ".".
Proof.
  intros D. cbn [number_loop]. change (IsSeparator ".") with false. cbn iota. change (beq "." "-") with false. change (beq "." "+") with false. change (beq "." "0") with false. rewrite beq_refl.
  unfold dig in D. destruct (beq prev "0"); [reflexivity|]. cbn in D. rewrite D. reflexivity.
Qed.
Lemma number_exp e rest out z sd prev : In e ["e"; "E"] -> dig prev = true ->
  number_loop (e :: rest) out z sd false prev = number_loop rest (out ++ [e]) z sd true e.
Proof.
  intros HE D. unfold dig in D.
  destruct HE as [<-|[<-|[]]]; cbn [number_loop].
  - change (IsSeparator "e") with false. change (beq "e" "-") with false. change (beq "e" "+") with false. change (beq "e" "0") with false. change (beq "e" ".") with false. rewrite beq_refl. cbn [orb].
    destruct (IsDigit prev); [reflexivity|]. rewrite orb_false_r in D. rewrite D. reflexivity.
  - change (IsSeparator "E") with false. change (beq "E" "-") with false. change (beq "E" "+") with false. change (beq "E" "0") with false. change (beq "E" ".") with false. change (beq "E" "e") with false. rewrite beq_refl. cbn [orb].
    destruct (IsDigit prev); [reflexivity|]. rewrite orb_false_r in D. rewrite D. reflexivity.
Qed.
(** the first digit after a dot, an exponent letter or a sign *)
Lemma number_first_digit c rest out z sd se prev : digit c -> prev <> NUL -> z && negb sd && negb se = false ->
  number_loop (c :: rest) out z sd se prev = number_loop rest (out ++ [c]) z sd se c.
Proof.
  intros D NZ Z. cbn [number_loop]. destruct (digit_facts D) as [-> | H19].
  - change (IsSeparator "0") with false. change (beq "0" "-") with false. change (beq "0" "+") with false. rewrite beq_refl, Z, (beq_neq NZ), orb_false_r. reflexivity.
  - destruct (digit19_facts H19) as (-> & -> & -> & -> & -> & -> & ->). rewrite Z. reflexivity.
Qed.

Lemma digit_nonzero c : digit c -> c <> NUL.
Proof. intros H ->. vm_compute in H. intuition discriminate. Qed.

Lemma last_cons_app (A : Type) (l : list A) c t d : last (l ++ c :: t) d = last (c :: t) d.
Proof. induction l as [|y l IH]; [reflexivity|]. cbn [app]. rewrite <- IH. cbn. destruct (l ++ c :: t) eqn:E; [now destruct l|reflexivity]. Qed.

Lemma last_cons2 (A : Type) (a c : A) t d : last (a :: c :: t) d = last (c :: t) d.
Proof. reflexivity. Qed.

Lemma number_parses b t rest : number b t -> separated rest ->
  JsonParseAsNumber (t ++ rest) = POk (JPrim (if b then PReal else PInt) t) (last t NUL :: rest).
Proof.
  intros HN HS. destruct HN as [sg i b f e Hsg Hi Hf He]. unfold JsonParseAsNumber.
  rewrite <- !app_assoc.
  (* after the exponent part *)
  assert (EXP : forall out z sd prev, dig prev = true -> prev <> NUL ->
     number_loop (e ++ rest) out z sd false prev = POk (JPrim (if sd then PReal else PInt) (out ++ e)) (last (prev :: e) NUL :: rest)).
  { intros out z sd prev D NZ. destruct He as [|e0 sg0 c t HE HG HC HT].
    - cbn [app last]. rewrite app_nil_r. now apply number_finish.
    - cbn [app]. rewrite (@number_exp e0 _ _ _ _ _ HE D), <- !app_assoc.
      assert (G : forall out prev, prev <> NUL ->
        number_loop (c :: t ++ rest) out z sd true prev = POk (JPrim (if sd then PReal else PInt) (out ++ c :: t)) (last (c :: t) NUL :: rest)).
      { intros out' prev' NZ'. rewrite number_first_digit; [|assumption|assumption|now rewrite andb_false_r].
        destruct (@number_digits t rest (out' ++ [c]) z sd true c HT) as (p & E & D' & N' & L').
        - now apply digit_nonzero.
        - now apply digit_dig.
        - now rewrite andb_false_r.
        - rewrite E, number_finish by assumption. rewrite <- app_assoc. now subst p. }
      assert (NE : e0 <> NUL) by (destruct HE as [<-|[<-|[]]]; discriminate).
      assert (LL : forall s, last (prev :: e0 :: s ++ c :: t) NUL = last (c :: t) NUL).
      { intros s. change (prev :: e0 :: s ++ c :: t) with ((prev :: e0 :: s) ++ c :: t). now apply last_cons_app. }
      rewrite LL.
      destruct HG as [<-|[<-|[<-|[]]]].
      + cbn [app]. rewrite (G (out ++ [e0]) e0 NE). now rewrite <- app_assoc.
      + assert (P : forall R out, number_loop ("+" :: R) out z sd true e0 = number_loop R (out ++ ["+"]) z sd true "+").
        { intros R out'. destruct HE as [<-|[<-|[]]]; reflexivity. }
        cbn [app]. rewrite P, G by discriminate. now rewrite <- !app_assoc.
      + assert (P : forall R out, number_loop ("-" :: R) out z sd true e0 = number_loop R (out ++ ["-"]) z sd true "-").
        { intros R out'. destruct HE as [<-|[<-|[]]]; reflexivity. }
        cbn [app]. rewrite P, G by discriminate. now rewrite <- !app_assoc. }
  (* after the fraction *)
  assert (FRAC : forall out z prev, dig prev = true -> prev <> NUL ->
     number_loop (f ++ e ++ rest) out z false false prev = POk (JPrim (if b then PReal else PInt) (out ++ f ++ e)) (last (prev :: f ++ e) NUL :: rest)).
  { intros out z prev D NZ. destruct Hf as [|c t HC HT].
    - cbn [app]. now apply EXP.
    - cbn [app]. rewrite number_dot by assumption. rewrite number_first_digit; [|assumption|discriminate|now rewrite andb_false_r].
      destruct (@number_digits t (e ++ rest) ((out ++ ["."]) ++ [c]) z true false c HT) as (p & E & D' & N' & L').
      + now apply digit_nonzero.
      + now apply digit_dig.
      + now rewrite andb_false_r.
      + rewrite E, EXP by assumption. f_equal; [f_equal; now rewrite <- !app_assoc|]. f_equal.
        subst p. destruct e as [|e0 e']; [rewrite app_nil_r; reflexivity|].
        rewrite last_cons2. change (prev :: "." :: c :: t ++ e0 :: e') with ((prev :: "." :: c :: t) ++ e0 :: e').
        symmetry. now apply last_cons_app. }
  (* the sign *)
  assert (SIGN : exists prev', number_loop (sg ++ i ++ f ++ e ++ rest) [] false false false NUL
      = number_loop (i ++ f ++ e ++ rest) sg false false false prev' /\ (prev' = NUL \/ prev' = "-")).
  { destruct Hsg as [<-|[<-|[]]].
    - exists NUL. cbn [app]. auto.
    - exists "-". split; [|now right]. cbn [app]. reflexivity. }
  destruct SIGN as (p0 & E0 & HP0). rewrite E0. clear E0.
  destruct Hi as [|c t HC HT].
  - cbn [app]. assert (Z0 : number_loop ("0" :: f ++ e ++ rest) sg false false false p0
       = number_loop (f ++ e ++ rest) (sg ++ ["0"]) (beq p0 NUL) false false "0") by reflexivity.
    rewrite Z0, FRAC by (reflexivity || discriminate). f_equal; [f_equal; now rewrite <- !app_assoc|].
    f_equal. now rewrite (last_cons_app sg).
  - cbn [app]. assert (HD := digit19_digit HC).
    assert (C0 : number_loop (c :: t ++ f ++ e ++ rest) sg false false false p0 = number_loop (t ++ f ++ e ++ rest) (sg ++ [c]) false false false c).
    { cbn [number_loop]. destruct (digit19_facts HC) as (-> & -> & -> & -> & -> & -> & ->). reflexivity. }
    rewrite C0.
    destruct (@number_digits t (f ++ e ++ rest) (sg ++ [c]) false false false c HT) as (p & E & D' & N' & L').
    + now apply digit_nonzero.
    + now apply digit_dig.
    + reflexivity.
    + rewrite E, FRAC by assumption. f_equal; [f_equal; now rewrite <- !app_assoc|]. f_equal.
      rewrite (last_cons_app sg). subst p.
      destruct (f ++ e) as [|x l]; [now rewrite app_nil_r|].
      rewrite last_cons2. change (c :: t ++ x :: l) with ((c :: t) ++ x :: l). symmetry. now apply last_cons_app.
Qed.

Lemma number_first b t : number b t -> exists c d, t = c :: d /\ starts_number c = true /\ punct c = false /\ beq c DQ = false.
Proof.
  intros [sg i b' f e Hsg Hi Hf He].
  assert (G : exists c d, i = c :: d /\ starts_number c = true /\ punct c = false /\ beq c DQ = false).
  { destruct Hi as [|c tt HC HT]; eexists _, _; (split; [reflexivity|]); [now cbv|].
    unfold digit19 in HC. cbn in HC. repeat (destruct HC as [<-|HC]; [now cbv|]). destruct HC. }
  destruct Hsg as [<-|[<-|[]]].
  - destruct G as (c & d & -> & G). exists c, (d ++ f ++ e). split; [reflexivity|exact G].
  - eexists _, _. split; [reflexivity|]. now cbv.
Qed.
Lemma number_last b t : number b t -> dig (last t NUL) = true.
Proof.
  intros H. assert (K := number_parses H (or_introl eq_refl : separated [])). unfold JsonParseAsNumber in K.
  apply number_loop_prev in K. cbn [cur hd] in K. unfold dig. now apply orb_true_iff.
Qed.
