(** The parser on arbitrary input: always defined, cursor inside the input, result
    well formed.  Also the object operations as operations on finite maps. *)
From Verif Require Import Prelude PreludeFacts Str StrFacts Libc LibcFacts JsonModel JsonFacts JsonSpec.
From Coq Require Import Lia.
Set Implicit Arguments.
Local Open Scope char_scope.

(** * Objects *)
Definition without (k : list byte) (kvs : list (list byte * json)) :=
  filter (fun kv => negb (bytes_eqb k (fst kv))) kvs.

Lemma without_notin k kvs : ~ In k (map fst kvs) -> without k kvs = kvs.
Proof.
  induction kvs as [|[k' v] r IH]; cbn; intros H; [reflexivity|].
  destruct (bytes_eqb k k') eqn:E; cbn.
  - apply bytes_eqb_eq in E. subst. tauto.
  - f_equal. apply IH. tauto.
Qed.

Lemma index_of_none kvs k : index_of kvs k = None <-> ~ In k (map fst kvs).
Proof.
  induction kvs as [|[k' v] r IH]; cbn; [tauto|].
  destruct (bytes_eqb k k') eqn:E.
  - apply bytes_eqb_eq in E. subst. split; [discriminate|tauto].
  - assert (k <> k'). { intros ->. now rewrite bytes_eqb_refl in E. }
    destruct (index_of r k); cbn; split; intros H'; try discriminate; try tauto.
    + exfalso. assert (Some n = None) by tauto. discriminate.
    + intros [K|K]; [congruence|]. apply IH in K; [exact K|reflexivity].
Qed.

Lemma remove_key_without kvs k : NoDup (map fst kvs) ->
  snd (JsonObjectRemoveKey kvs k) = without k kvs.
Proof.
  unfold JsonObjectRemoveKey. intros ND. destruct (index_of kvs k) as [i|] eqn:E; cbn [snd].
  - revert i E ND. induction kvs as [|[k' v] r IH]; cbn; intros i E ND; [discriminate|].
    inversion ND as [|x l NI ND' E1]; subst. destruct (bytes_eqb k k') eqn:EK; cbn.
    + injection E as <-. cbn. apply bytes_eqb_eq in EK. subst. symmetry. apply without_notin. exact NI.
    + destruct (index_of r k) as [i'|]; [|discriminate]. injection E as <-. cbn. f_equal.
      apply (IH i'); auto.
  - apply index_of_none in E. symmetry. now apply without_notin.
Qed.

Lemma append_without kvs k e : NoDup (map fst kvs) ->
  JsonObjectAppendElement kvs k e = without k kvs ++ [(k, e)].
Proof. intros H. unfold JsonObjectAppendElement. now rewrite remove_key_without. Qed.

Lemma In_without k k' v kvs : In (k', v) (without k kvs) <-> In (k', v) kvs /\ k' <> k.
Proof.
  unfold without. rewrite filter_In. cbn [fst]. split; intros [H K]; split; auto.
  - intros ->. now rewrite bytes_eqb_refl in K.
  - destruct (bytes_eqb k k') eqn:E; [|reflexivity]. apply bytes_eqb_eq in E. congruence.
Qed.
Lemma In_fst_without k k' kvs : In k' (map fst (without k kvs)) <-> In k' (map fst kvs) /\ k' <> k.
Proof.
  rewrite !in_map_iff. split.
  - intros ([a v] & E & H). cbn in E. subst a. apply In_without in H. destruct H as [H K]. split; [|exact K]. now exists (k', v).
  - intros [([a v] & E & H) K]. cbn in E. subst a. exists (k', v). split; [reflexivity|]. now apply In_without.
Qed.
Lemma NoDup_without k kvs : NoDup (map fst kvs) -> NoDup (map fst (without k kvs)).
Proof.
  induction kvs as [|[k' v] r IH]; cbn; intros ND; [constructor|]. inversion ND; subst.
  destruct (bytes_eqb k k'); cbn; [auto|]. constructor; [|auto]. intros H. apply In_fst_without in H. tauto.
Qed.
Lemma NoDup_snoc A (l : list A) x : NoDup l -> ~ In x l -> NoDup (l ++ [x]).
Proof.
  intros H K. apply NoDup_rev in H. rewrite <- (rev_involutive (l ++ [x])). apply NoDup_rev.
  rewrite rev_app_distr. cbn. constructor; [|exact H]. now rewrite <- in_rev.
Qed.
Lemma append_NoDup kvs k e : NoDup (map fst kvs) -> NoDup (map fst (JsonObjectAppendElement kvs k e)).
Proof.
  intros H. rewrite append_without by assumption. rewrite map_app. cbn. apply NoDup_snoc; [now apply NoDup_without|].
  intros K. apply In_fst_without in K. tauto.
Qed.
Lemma Forall_without (P : list byte * json -> Prop) k kvs : Forall P kvs -> Forall P (without k kvs).
Proof. intros H. rewrite Forall_forall in *. intros x K. apply filter_In in K. apply H, K. Qed.
Lemma append_Forall (P : list byte * json -> Prop) kvs k e : NoDup (map fst kvs) -> Forall P kvs -> P (k, e) -> Forall P (JsonObjectAppendElement kvs k e).
Proof.
  intros ND H K. rewrite append_without by assumption. apply Forall_app. split; [now apply Forall_without|].
  constructor; [exact K|constructor].
Qed.

(** * Strings *)
Definition safe (data : list byte) : Prop := is_cstr data /\ ~ suffix [BS] data.

Lemma safe_suffix r data : suffix r data -> safe data -> safe r.
Proof.
  intros [p ->] [H K]. split.
  - intros I. apply H. apply in_or_app. now right.
  - intros [q ->]. apply K. exists (p ++ q). now rewrite app_assoc.
Qed.

Lemma is_cstr_snoc s c : is_cstr s -> c <> NUL -> is_cstr (s ++ [c]).
Proof. intros H K I. apply in_app_or in I. destruct I as [I|[I|[]]]; [now apply H|congruence]. Qed.

Lemma string_loop_safe : forall n data out, length data <= n -> safe data -> is_cstr out ->
  exists r, string_loop data out = Ok r /\ (forall v d, r = POk v d -> is_cstr v).
Proof.
  induction n as [|n IH]; intros data out L S O; destruct data as [|c d]; cbn in L; try lia; cbn [string_loop].
  1,2: eexists; split; [reflexivity|discriminate].
  destruct (beq c DQ). { eexists; split; [reflexivity|]. intros v d' H. now injection H as <- <-. }
  assert (Sd : safe d) by (eapply safe_suffix; [|exact S]; auto with suff).
  assert (C : c <> NUL). { intros ->. destruct S as [S _]. apply S. now left. }
  destruct (beq c BS) eqn:EB.
  - apply beq_true in EB. subst c. destruct d as [|e d'].
    { destruct S as [_ S]. exfalso. apply S, suffix_refl. }
    assert (Sd' : safe d') by (eapply safe_suffix; [|exact Sd]; auto with suff).
    assert (Ce : e <> NUL). { intros ->. destruct Sd as [Sd _]. apply Sd. now left. }
    cbn in L.
    repeat match goal with |- context [if ?b then _ else _] => destruct b end; apply IH; auto; try lia;
      try (apply is_cstr_snoc; auto; discriminate).
    change [BS; e] with ([BS] ++ [e]). rewrite app_assoc. apply is_cstr_snoc; auto. apply is_cstr_snoc; auto.
  - apply IH; auto; [lia|]. now apply is_cstr_snoc.
Qed.

Lemma ParseAsString_safe data : safe data ->
  exists r, JsonParseAsString data = Ok r /\ (forall v d, r = POk v d -> is_cstr v).
Proof.
  intros S. destruct data as [|c d]; cbn [JsonParseAsString]; [eexists; split; [reflexivity|discriminate]|].
  destruct (beq c DQ).
  - eapply string_loop_safe; [apply le_n| |apply (@in_nil byte NUL)]. eapply safe_suffix; [|exact S]. auto with suff.
  - eexists; split; [reflexivity|discriminate].
Qed.

Lemma decode_cstr s : is_cstr s -> is_cstr (JsonDecodeString s).
Proof.
  unfold JsonDecodeString. enough (G : forall b, is_cstr s -> is_cstr (decode_loop b s)) by auto.
  induction s as [|c t IH]; intros b H; [exact H|]. cbn [decode_loop].
  assert (T : is_cstr t) by (intros K; apply H; now right).
  assert (C : c <> NUL) by (intros ->; apply H; now left).
  destruct b; [auto|].
  assert (F : forall b x, x <> NUL -> is_cstr (x :: decode_loop b t)).
  { intros b x N [K|K]; [congruence|]. now apply (IH b T). }
  destruct (beq c BS).
  - cbv zeta. destruct (beq (hd NUL t) DQ || beq (hd NUL t) BS) eqn:E.
    { apply F. intros K. rewrite K in E. discriminate. }
    repeat match goal with |- context [if ?b then _ else _] => destruct b end; apply F; auto; discriminate.
  - apply F; auto.
Qed.

(** * Numbers *)
Definition num_char (c : byte) := In c (lit "0123456789-+.eE").
Lemma IsDigit_digit c : IsDigit c = true -> digit19 c.
Proof.
  unfold digit19. destruct c as [[] [] [] [] [] [] [] []]; vm_compute; intros H; first [discriminate H | tauto].
Qed.
Lemma digit19_digit c : digit19 c -> digit c.
Proof. unfold digit19, digit. cbn. tauto. Qed.
Lemma digit_IsDigit c : digit c -> beq c "0" = true \/ IsDigit c = true.
Proof.
  unfold digit. cbn. intros H. repeat (destruct H as [<-|H]; [cbv; auto|]). destruct H.
Qed.
Lemma digit_num c : digit c -> num_char c.
Proof. unfold digit, num_char. cbn. tauto. Qed.

Lemma number_loop_wf : forall data out z sd se prev v r,
  last out NUL = prev -> Forall num_char out ->
  number_loop data out z sd se prev = POk v r -> well_formed v.
Proof.
  assert (F : forall data out sd prev v r, last out NUL = prev -> Forall num_char out ->
    (if negb (beq prev "0") && negb (IsDigit prev) then PErr E_NUMBER_DIGIT_END
     else POk (JPrim (if sd : bool then PReal else PInt) out) (prev :: data)) = POk v r -> well_formed v).
  { intros data out sd prev v r L O H.
    destruct (negb (beq prev "0") && negb (IsDigit prev)) eqn:E; [discriminate|]. injection H as <- <-.
    assert (D : digit prev).
    { destruct (beq prev "0") eqn:E0; [apply beq_true in E0; subst; now left|].
      destruct (IsDigit prev) eqn:E1; [|discriminate]. now apply digit19_digit, IsDigit_digit. }
    apply wf_number; auto.
    - destruct sd; cbn; auto.
    - intros K. subst out. subst prev. cbn in D. vm_compute in D. repeat (destruct D as [D|D]; [discriminate|]); exact D.
    - now rewrite L. }
  induction data as [|c d IH]; intros out z sd se prev v r L O H; cbn [number_loop] in H.
  - eapply F; eauto.
  - destruct (IsSeparator c); [eapply F; eauto|].
    assert (G : forall z sd se, num_char c -> number_loop d (out ++ [c]) z sd se c = POk v r -> well_formed v).
    { intros z' sd' se' K HH. eapply IH; [| |exact HH]; [apply last_last|]. apply Forall_app; split; [assumption|].
      constructor; [assumption|constructor]. }
    destruct (beq c "-") eqn:E1.
    { apply beq_true in E1. destruct (negb _ && _ && _); [discriminate|]. eapply G; [|exact H]. subst; vm_compute; tauto. }
    destruct (beq c "+") eqn:E2.
    { apply beq_true in E2. destruct (negb _ && _); [discriminate|]. eapply G; [|exact H]. subst; vm_compute; tauto. }
    destruct (beq c "0") eqn:E3.
    { apply beq_true in E3. destruct (z && _ && _); [discriminate|]. eapply G; [|exact H]. subst; vm_compute; tauto. }
    destruct (beq c ".") eqn:E4.
    { apply beq_true in E4. destruct sd; [discriminate|]. destruct (negb _ && _); [discriminate|]. eapply G; [|exact H]. subst; vm_compute; tauto. }
    destruct (beq c "e" || beq c "E") eqn:E5.
    { destruct se; [discriminate|]. destruct (negb _ && _); [discriminate|]. eapply G; [|exact H].
      apply orb_true_iff in E5. destruct E5 as [E5|E5]; apply beq_true in E5; subst; vm_compute; tauto. }
    destruct (z && _ && _); [discriminate|]. destruct (IsDigit c) eqn:E6; [|discriminate]. cbn [negb] in H.
    eapply G; [|exact H]. now apply digit_num, digit19_digit, IsDigit_digit.
Qed.

Lemma ParseAsNumber_wf data v r : JsonParseAsNumber data = POk v r -> well_formed v.
Proof. intros H. eapply number_loop_wf; [| |exact H]; [reflexivity|constructor]. Qed.
Lemma ParseAsBoolean_wf data v r : JsonParseAsBoolean data = Some (v, r) -> well_formed v.
Proof.
  unfold JsonParseAsBoolean. intros H. repeat match type of H with (if ?b then _ else _) = _ => destruct b end; try discriminate;
  injection H as <- <-; [apply wf_true|apply wf_false].
Qed.
Lemma ParseAsNull_wf data v r : JsonParseAsNull data = Some (v, r) -> well_formed v.
Proof.
  unfold JsonParseAsNull. intros H. repeat match type of H with (if ?b then _ else _) = _ => destruct b end; try discriminate;
  injection H as <- <-; apply wf_null.
Qed.

Lemma unquoted_cstr data k r : is_cstr data -> unquoted_key_with_colon data = Some (k, r) -> is_cstr k.
Proof.
  destruct data as [|c d]; cbn; [discriminate|]. intros S. destruct (wc c); [|discriminate].
  destruct (span _ d) as [word r1] eqn:E1. destruct (span IsWhitespace r1) as [sp r2] eqn:E2.
  destruct (beq (cur r2) ":") eqn:E; [|discriminate]. intros H. injection H as <- <-.
  apply span_eq in E1. apply span_eq in E2. destruct E1 as [E1' _], E2 as [E2' _]. subst d r1.
  intros K. apply (proj2 (in_rev _ _)) in K.
  assert (G : forall l x, In x (strip_trailing_ws l) -> In x l).
  { induction l as [|y l IH]; cbn; [auto|]. intros x. destruct (IsWhitespace y); [auto|cbn; auto]. }
  apply G in K. apply S. apply in_app_or in K. destruct K as [K|[K|[]]]; [right|now left].
  apply (proj2 (in_rev _ _)) in K.
  rewrite app_assoc. apply in_or_app. now left.
Qed.

(** * The parser *)
Definition fine (r : res (parsed json)) : Prop :=
  exists p, r = Ok p /\ (forall v d, p = POk v d -> well_formed v).

Lemma fine_err e : fine (Ok (PErr e)).
Proof. eexists; split; [reflexivity|discriminate]. Qed.

Lemma loops_fine : forall f,
  (forall data prev acc, length data < f -> safe data -> Forall well_formed acc -> fine (array_loop f data prev acc)) /\
  (forall data prev name acc, length data < f -> safe data ->
     (forall k, name = Some k -> is_cstr k) -> NoDup (map fst acc) -> Forall (fun kv => is_cstr (fst kv)) acc ->
     Forall (fun kv => well_formed (snd kv)) acc -> fine (object_loop f data prev name acc)).
Proof.
  induction f as [|f [IHa IHo]]; split; try (intros; lia).
  - intros data prev acc L SA WF. cbn [array_loop].
    destruct data as [|c d]; [apply fine_err|]. cbn [length] in L.
    assert (Sd : safe d) by (eapply safe_suffix; [|exact SA]; auto with suff).
    assert (N : forall r child, inside r (c :: d) -> well_formed child ->
      fine match r with [] => UB | c' :: d' => array_loop f d' c' (JsonArrayAppendElement acc child) end).
    { intros r child HI WC. destruct r as [|c' d']; [now destruct HI|].
      assert (L' := inside_length HI). cbn in L'. apply IHa; [lia| |].
      - eapply safe_suffix; [|exact SA]. destruct HI as [HI _]. eauto with suff.
      - apply Forall_app. split; [assumption|]. constructor; [assumption|constructor]. }
    destruct (IsWhitespace c); [apply IHa; auto; lia|].
    destruct (beq c DQ).
    { destruct (ParseAsString_safe SA) as (r & E & K). rewrite E. cbn [bind]. destruct r as [v r'|]; [|apply fine_err].
      apply N; [now apply ParseAsString_inside in E|]. apply wf_string, decode_cstr. eapply K; reflexivity. }
    destruct (beq c "[").
    { destruct (negb _ && _); [apply fine_err|].
      destruct (IHa d "[" []) as (p & E & K); [lia|assumption|constructor|]. rewrite E. cbn [bind].
      destruct p as [v r'|]; [|apply fine_err]. apply N; [|eapply K; reflexivity].
      apply (proj1 (loops_inside f)) in E. destruct E. auto with suff. }
    destruct (beq c "{").
    { destruct (negb _ && _); [apply fine_err|].
      destruct (IHo d "{" None []) as (p & E & K); [lia|assumption|discriminate|constructor|constructor|constructor|]. rewrite E. cbn [bind].
      destruct p as [v r'|]; [|apply fine_err]. apply N; [|eapply K; reflexivity].
      apply (proj2 (loops_inside f)) in E. destruct E. auto with suff. }
    destruct (beq c ","). { destruct (_ || _); [apply fine_err|]. apply IHa; auto; lia. }
    destruct (beq c "]"). { eexists; split; [reflexivity|]. intros v r H. injection H as <- <-. now apply wf_array. }
    destruct (starts_number c).
    { destruct (JsonParseAsNumber (c :: d)) as [v r'|] eqn:E; [|apply fine_err].
      apply N; [now apply ParseAsNumber_inside in E|now apply ParseAsNumber_wf in E]. }
    destruct (JsonParseAsBoolean (c :: d)) as [[v r']|] eqn:E.
    { apply N; [now apply ParseAsBoolean_inside in E|now apply ParseAsBoolean_wf in E]. }
    destruct (JsonParseAsNull (c :: d)) as [[v r']|] eqn:E2; [|apply fine_err].
    apply N; [now apply ParseAsNull_inside in E2|now apply ParseAsNull_wf in E2].
  - intros data prev name acc L SA KN ND KC WF. cbn [object_loop].
    destruct data as [|c d]; [apply fine_err|]. cbn [length] in L.
    assert (Sd : safe d) by (eapply safe_suffix; [|exact SA]; auto with suff).
    assert (R : forall r name' acc', inside r (c :: d) -> (forall k, name' = Some k -> is_cstr k) -> NoDup (map fst acc') ->
       Forall (fun kv => is_cstr (fst kv)) acc' -> Forall (fun kv => well_formed (snd kv)) acc' ->
       fine match r with [] => UB | c' :: d' => object_loop f d' c' name' acc' end).
    { intros r name' acc' HI K1 K2 K3 K4. destruct r as [|c' d']; [now destruct HI|].
      assert (L' := inside_length HI). cbn in L'. apply IHo; auto; [lia|].
      eapply safe_suffix; [|exact SA]. destruct HI as [HI _]. eauto with suff. }
    assert (N : forall r key child, inside r (c :: d) -> well_formed child -> is_cstr key ->
      fine match r with [] => UB | c' :: d' => object_loop f d' c' None (JsonObjectAppendElement acc key child) end).
    { intros r key child HI WC KK. apply R; auto; [discriminate|now apply append_NoDup| |]; apply append_Forall; auto. }
    assert (D : forall p, fine (object_loop f d p name acc)) by (intros; apply IHo; auto; lia).
    destruct (IsWhitespace c); [apply D|].
    destruct (beq c DQ).
    { destruct (ParseAsString_safe SA) as (r & E & K). rewrite E. cbn [bind]. destruct r as [v r'|]; [|apply fine_err].
      assert (I := proj1 (ParseAsString_inside _ E)). specialize (K v r' eq_refl).
      destruct name as [key|].
      - apply N; auto. apply wf_string, decode_cstr, K.
      - apply R; auto. intros k H. now injection H as <-. }
    destruct (beq c ":"). { destruct name; [|apply fine_err]. destruct (_ || _); [apply fine_err|]. apply D. }
    destruct (beq c ","). { destruct name; [apply fine_err|]. destruct (_ || _); [apply fine_err|]. apply D. }
    destruct (beq c "[").
    { destruct name as [key|]; [|apply fine_err].
      destruct (IHa d "[" []) as (p & E & K); [lia|assumption|constructor|]. rewrite E. cbn [bind].
      destruct p as [v r'|]; [|apply fine_err]. apply N; [|eapply K; reflexivity|now apply KN].
      apply (proj1 (loops_inside f)) in E. destruct E. auto with suff. }
    destruct (beq c "{").
    { destruct name as [key|]; [|apply fine_err].
      destruct (IHo d "{" None []) as (p & E & K); [lia|assumption|discriminate|constructor|constructor|constructor|]. rewrite E. cbn [bind].
      destruct p as [v r'|]; [|apply fine_err]. apply N; [|eapply K; reflexivity|now apply KN].
      apply (proj2 (loops_inside f)) in E. destruct E. auto with suff. }
    destruct (beq c "}").
    { destruct name; [apply fine_err|]. eexists; split; [reflexivity|]. intros v r H. injection H as <- <-. now apply wf_object. }
    destruct name as [key|].
    + destruct (starts_number c).
      { destruct (JsonParseAsNumber (c :: d)) as [v r'|] eqn:E; [|apply fine_err].
        apply N; [now apply ParseAsNumber_inside in E|now apply ParseAsNumber_wf in E|now apply KN]. }
      destruct (JsonParseAsBoolean (c :: d)) as [[v r']|] eqn:E.
      { apply N; [now apply ParseAsBoolean_inside in E|now apply ParseAsBoolean_wf in E|now apply KN]. }
      destruct (JsonParseAsNull (c :: d)) as [[v r']|] eqn:E2; [|apply fine_err].
      apply N; [now apply ParseAsNull_inside in E2|now apply ParseAsNull_wf in E2|now apply KN].
    + destruct (unquoted_key_with_colon (c :: d)) as [[key r']|] eqn:E; [|apply fine_err].
      apply R; auto; [now apply unquoted_inside in E|]. intros k H. injection H as <-. eapply unquoted_cstr; [|exact E]. apply SA.
Qed.

Lemma JsonParse_fine : forall data, safe data ->
  exists p, JsonParse data = Ok p /\ (forall v d, p = POk v d -> well_formed v /\ inside d data).
Proof.
  induction data as [|c d IH]; intros SA; cbn [JsonParse]; [eexists; split; [reflexivity|discriminate]|].
  assert (Sd : safe d) by (eapply safe_suffix; [|exact SA]; auto with suff).
  destruct (beq c "{").
  { destruct (proj2 (loops_fine (S (length d))) d "{" None []) as (p & E & K);
    [lia|assumption|discriminate|constructor|constructor|constructor|].
    rewrite E. eexists; split; [reflexivity|]. intros v r ->. split; [eapply K; reflexivity|].
    apply (proj2 (loops_inside _)) in E. destruct E. auto with suff. }
  destruct (beq c "[").
  { destruct (proj1 (loops_fine (S (length d))) d "[" []) as (p & E & K);
    [lia|assumption|constructor|].
    rewrite E. eexists; split; [reflexivity|]. intros v r ->. split; [eapply K; reflexivity|].
    apply (proj1 (loops_inside _)) in E. destruct E. auto with suff. }
  destruct (IsWhitespace c).
  { destruct (IH Sd) as (p & E & K). rewrite E. eexists; split; [reflexivity|]. intros v r ->.
    destruct (K v r eq_refl). split; auto with suff. }
  unfold JsonParseAsPrimitive. destruct (beq (cur (c :: d)) DQ).
  { destruct (ParseAsString_safe SA) as (r & E & K). rewrite E. cbn [bind].
    destruct r as [v r'|]; [|eexists; split; [reflexivity|discriminate]].
    eexists; split; [reflexivity|]. intros v' d' H. injection H as <- <-. split; [|now apply ParseAsString_inside in E].
    apply wf_string, decode_cstr. eapply K; reflexivity. }
  destruct (starts_number (cur (c :: d))).
  { eexists; split; [reflexivity|]. intros v r E. split; [now apply ParseAsNumber_wf in E|now apply ParseAsNumber_inside in E]. }
  destruct (JsonParseAsBoolean (c :: d)) as [[v r']|] eqn:E.
  { eexists; split; [reflexivity|]. intros v' d' H. injection H as <- <-. split; [now apply ParseAsBoolean_wf in E|now apply ParseAsBoolean_inside in E]. }
  destruct (JsonParseAsNull (c :: d)) as [[v r']|] eqn:E2.
  { eexists; split; [reflexivity|]. intros v' d' H. injection H as <- <-. split; [now apply ParseAsNull_wf in E2|now apply ParseAsNull_inside in E2]. }
  eexists; split; [reflexivity|discriminate].
Qed.
