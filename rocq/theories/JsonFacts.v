(** Basic facts about the model of json.c: induction on trees, cursors, fuel. *)
From Verif Require Import Prelude PreludeFacts Str StrFacts Libc LibcFacts JsonModel.
From Coq Require Import Lia.
Set Implicit Arguments.
Local Open Scope char_scope.

(** * Induction on trees *)
Section Ind.
  Variable P : json -> Prop.
  Hypothesis HP : forall t v, P (JPrim t v).
  Hypothesis HA : forall cs, Forall P cs -> P (JArr cs).
  Hypothesis HO : forall kvs, Forall (fun kv => P (snd kv)) kvs -> P (JObj kvs).
  Fixpoint json_nested_ind (j : json) : P j :=
    match j with
    | JPrim t v => HP t v
    | JArr cs => HA ((fix go l : Forall P l :=
                        match l with
                        | [] => Forall_nil _
                        | c :: r => Forall_cons _ (json_nested_ind c) (go r)
                        end) cs)
    | JObj kvs => HO ((fix go l : Forall (fun kv => P (snd kv)) l :=
                        match l with
                        | [] => Forall_nil _
                        | kv :: r => Forall_cons _ (json_nested_ind (snd kv)) (go r)
                        end) kvs)
    end.
End Ind.

(** * Cursors only move forward *)
Definition suffix (r data : list byte) : Prop := exists p, data = p ++ r.

Lemma suffix_refl d : suffix d d.
Proof. now exists []. Qed.
Lemma suffix_cons r c d : suffix r d -> suffix r (c :: d).
Proof. intros [p ->]. now exists (c :: p). Qed.
Lemma suffix_trans a b c : suffix a b -> suffix b c -> suffix a c.
Proof. intros [p ->] [q ->]. exists (q ++ p). now rewrite app_assoc. Qed.
Lemma suffix_tl c r d : suffix (c :: r) d -> suffix r d.
Proof. intros [p ->]. exists (p ++ [c]). now rewrite <- app_assoc. Qed.
Lemma suffix_skipn n d : suffix (skipn n d) d.
Proof. exists (firstn n d). now rewrite firstn_skipn. Qed.
Lemma suffix_length r d : suffix r d -> length r <= length d.
Proof. intros [p ->]. rewrite app_length. lia. Qed.
#[global] Hint Resolve suffix_refl suffix_cons suffix_tl suffix_skipn : suff.

(** a cursor on a character of [data] *)
Definition inside (r data : list byte) : Prop := suffix r data /\ r <> [].

Lemma inside_cons r c d : inside r d -> inside r (c :: d).
Proof. intros [H K]; split; auto with suff. Qed.
Lemma inside_length c r d : inside (c :: r) d -> length r < length d.
Proof. intros [H _]. apply suffix_length in H. cbn in H. lia. Qed.
Lemma inside_self c d : inside (c :: d) (c :: d).
Proof. split; [apply suffix_refl|discriminate]. Qed.
#[global] Hint Resolve inside_cons inside_self : suff.

Lemma string_loop_inside : forall n data out v r, length data <= n ->
  string_loop data out = Ok (POk v r) -> inside r data /\ cur r = DQ.
Proof.
  induction n as [|n IH]; intros data out v r L H; destruct data as [|c d]; cbn in H, L; try discriminate; try lia.
  destruct (beq c DQ) eqn:EC.
  - injection H as <- <-. split; [apply inside_self|]. now apply beq_true in EC.
  - destruct (beq c BS).
    + destruct d as [|e d']; [discriminate|]. cbn in L.
      repeat match type of H with
      | (if ?b then _ else _) = _ => destruct b
      end; apply IH in H; try lia; destruct H; split; auto with suff.
    + apply IH in H; [|lia]. destruct H; split; auto with suff.
Qed.

Lemma ParseAsString_inside data v r : JsonParseAsString data = Ok (POk v r) -> inside r data /\ cur r = DQ.
Proof.
  destruct data as [|c d]; cbn; [discriminate|]. destruct (beq c DQ); [|discriminate].
  intros H. destruct (@string_loop_inside (length d) d [] v r (le_n _) H) as [K1 K2]. auto with suff.
Qed.

Lemma number_loop_inside : forall data out z sd se prev v r,
  number_loop data out z sd se prev = POk v r ->
  exists p, prev :: data = p ++ r /\ r <> [].
Proof.
  induction data as [|c d IH]; intros out z sd se prev v r H; cbn [number_loop] in H.
  - destruct (negb (beq prev "0") && negb (IsDigit prev)); [discriminate|]. injection H as <- <-. now exists [].
  - destruct (IsSeparator c).
    { destruct (negb (beq prev "0") && negb (IsDigit prev)); [discriminate|]. injection H as <- <-. now exists []. }
    repeat match type of H with
    | (if ?b then _ else _) = _ => destruct b
    end; try discriminate; apply IH in H; destruct H as (p & E & Hr); exists (prev :: p); cbn; now rewrite <- E.
Qed.

Lemma number_loop_prev : forall data out z sd se prev v r,
  number_loop data out z sd se prev = POk v r -> (beq (cur r) "0" = true \/ IsDigit (cur r) = true).
Proof.
  assert (F : forall prev, negb (beq prev "0") && negb (IsDigit prev) = false -> beq prev "0" = true \/ IsDigit prev = true).
  { intros prev H. destruct (beq prev "0"); [now left|]. destruct (IsDigit prev); [now right|discriminate]. }
  induction data as [|c d IH]; intros out z sd se prev v r H; cbn [number_loop] in H.
  - destruct (negb (beq prev "0") && negb (IsDigit prev)) eqn:E; [discriminate|]. injection H as <- <-. now apply F.
  - destruct (IsSeparator c).
    { destruct (negb (beq prev "0") && negb (IsDigit prev)) eqn:E; [discriminate|]. injection H as <- <-. now apply F. }
    repeat match type of H with
    | (if ?b then _ else _) = _ => destruct b
    end; try discriminate; eapply IH; exact H.
Qed.

Lemma ParseAsNumber_inside data v r : JsonParseAsNumber data = POk v r -> inside r data.
Proof.
  intros H. unfold JsonParseAsNumber in H. assert (K := number_loop_prev _ _ _ _ _ _ H).
  apply number_loop_inside in H. destruct H as (p & E & Hr). split; [|exact Hr].
  destruct p as [|x p].
  - cbn in E. subst r. cbn in K. destruct K; discriminate.
  - injection E as <- ->. now exists p.
Qed.

Lemma cur_skipn_inside n data : cur (skipn n data) <> NUL -> inside (skipn n data) data.
Proof. intros H. split; [apply suffix_skipn|]. intros E. now rewrite E in H. Qed.

Lemma prefixb_app p s : prefixb p s = true -> exists t, s = p ++ t.
Proof.
  revert s; induction p as [|x p IH]; intros [|y s]; cbn; try discriminate; intros H; eauto.
  apply andb_true_iff in H. destruct H as [E H]. apply beq_true in E. subst y.
  destruct (IH _ H) as [t ->]. now exists t.
Qed.

Lemma ParseAsBoolean_inside data j r : JsonParseAsBoolean data = Some (j, r) -> inside r data /\ cur r = "e".
Proof.
  unfold JsonParseAsBoolean. intros H.
  destruct (prefixb (lit "true") data) eqn:E.
  - destruct (ends_word (cur (skipn 4 data))); [|discriminate]. injection H as <- <-.
    destruct (prefixb_app _ _ E) as [t ->]. cbn. split; [|reflexivity].
    split; [|discriminate]. now exists (lit "tru").
  - destruct (prefixb (lit "false") data) eqn:E'; [|discriminate].
    destruct (ends_word (cur (skipn 5 data))); [|discriminate]. injection H as <- <-.
    destruct (prefixb_app _ _ E') as [t ->]. cbn. split; [|reflexivity].
    split; [|discriminate]. now exists (lit "fals").
Qed.
Lemma ParseAsNull_inside data j r : JsonParseAsNull data = Some (j, r) -> inside r data /\ cur r = "l".
Proof.
  unfold JsonParseAsNull. intros H.
  destruct (prefixb (lit "null") data) eqn:E; [|discriminate].
  destruct (ends_word (cur (skipn 4 data))); [|discriminate]. injection H as <- <-.
  destruct (prefixb_app _ _ E) as [t ->]. cbn. split; [|reflexivity].
  split; [|discriminate]. now exists (lit "nul").
Qed.

Lemma unquoted_inside data k r : unquoted_key_with_colon data = Some (k, r) -> inside r data /\ cur r = ":".
Proof.
  destruct data as [|c d]; cbn; [discriminate|]. destruct (wc c); [|discriminate].
  destruct (span _ d) as [word r1] eqn:E1. destruct (span IsWhitespace r1) as [sp r2] eqn:E2.
  destruct (beq (cur r2) ":") eqn:E; [|discriminate]. intros H. injection H as _ <-.
  apply beq_true in E. split; [|exact E]. apply inside_cons.
  apply span_eq in E1. apply span_eq in E2. destruct E1 as [E1' _], E2 as [E2' _].
  split.
  - exists (word ++ sp). now rewrite <- app_assoc, <- E2', <- E1'.
  - intros ->. discriminate.
Qed.

(** * Fuel *)
Ltac step_in H :=
  match type of H with
  | (if ?b then _ else _) = _ => destruct b eqn:?
  | match ?x with _ => _ end = _ => destruct x eqn:?
  | bind ?x _ = _ => destruct x eqn:?; cbn [bind] in H
  end; try discriminate H.

Lemma loops_inside : forall f,
  (forall data prev acc j r, array_loop f data prev acc = Ok (POk j r) -> inside r data /\ cur r = "]") /\
  (forall data prev name acc j r, object_loop f data prev name acc = Ok (POk j r) -> inside r data /\ cur r = "}").
Proof.
  induction f as [|f [IHa IHo]]; split.
  - intros *; discriminate.
  - intros *; discriminate.
  - intros data prev acc j r H. cbn [array_loop] in H.
    destruct data as [|c d]; [discriminate|].
    destruct (IsWhitespace c). { apply IHa in H. destruct H; auto with suff. }
    destruct (beq c DQ).
    { destruct (JsonParseAsString (c :: d)) as [p| | |] eqn:E; try discriminate. cbn [bind] in H.
      destruct p as [v r'|]; [|discriminate]. apply ParseAsString_inside in E. destruct r' as [|c' d']; [discriminate|].
      apply IHa in H. destruct H as [H K]; split; [|exact K]. destruct H, E as [[]]. split; [|auto].
      eapply suffix_trans; [eassumption|]. eauto with suff. }
    destruct (beq c "[").
    { destruct (negb (beq prev "[") && negb (beq prev ",")); [discriminate|].
      destruct (array_loop f d "[" []) as [p| | |] eqn:E; try discriminate. cbn [bind] in H.
      destruct p as [v r'|]; [|discriminate]. apply IHa in E. destruct r' as [|c' d']; [discriminate|].
      apply IHa in H. destruct H as [H K]; split; [|exact K]. destruct H, E as [[]]. split; [|auto].
      eapply suffix_trans; [eassumption|]. eauto with suff. }
    destruct (beq c "{").
    { destruct (negb (beq prev "[") && negb (beq prev ",")); [discriminate|].
      destruct (object_loop f d "{" None []) as [p| | |] eqn:E; try discriminate. cbn [bind] in H.
      destruct p as [v r'|]; [|discriminate]. apply IHo in E. destruct r' as [|c' d']; [discriminate|].
      apply IHa in H. destruct H as [H K]; split; [|exact K]. destruct H, E as [[]]. split; [|auto].
      eapply suffix_trans; [eassumption|]. eauto with suff. }
    destruct (beq c ","). { destruct (beq prev "," || beq prev "["); [discriminate|]. apply IHa in H. destruct H; auto with suff. }
    destruct (beq c "]") eqn:EB. { apply beq_true in EB. injection H as <- <-. auto with suff. }
    assert (N : forall (j' : json) r' , inside r' (c :: d) ->
      match r' with [] => UB | c' :: d' => array_loop f d' c' (JsonArrayAppendElement acc j') end = Ok (POk j r) ->
      inside r (c :: d) /\ cur r = "]").
    { intros j' r' HI HH. destruct r' as [|c' d']; [discriminate|]. apply IHa in HH. destruct HH as [[HH K1] K2], HI as [HI _].
      split; [|exact K2]. split; [|exact K1]. eapply suffix_trans; [eassumption|]. eauto with suff. }
    destruct (starts_number c).
    { destruct (JsonParseAsNumber (c :: d)) as [v r'|] eqn:E; [|discriminate]. apply ParseAsNumber_inside in E. eauto. }
    destruct (JsonParseAsBoolean (c :: d)) as [[v r']|] eqn:E. { apply ParseAsBoolean_inside in E. destruct E. eauto. }
    destruct (JsonParseAsNull (c :: d)) as [[v r']|] eqn:E2; [|discriminate]. apply ParseAsNull_inside in E2. destruct E2. eauto.
  - intros data prev name acc j r H. cbn [object_loop] in H.
    destruct data as [|c d]; [discriminate|].
    assert (N : forall name' acc' r' , inside r' (c :: d) ->
      match r' with [] => UB | c' :: d' => object_loop f d' c' name' acc' end = Ok (POk j r) ->
      inside r (c :: d) /\ cur r = "}").
    { intros name' acc' r' HI HH. destruct r' as [|c' d']; [discriminate|]. apply IHo in HH. destruct HH as [[HH K1] K2], HI as [HI _].
      split; [|exact K2]. split; [|exact K1]. eapply suffix_trans; [eassumption|]. eauto with suff. }
    assert (D : forall p, object_loop f d p name acc = Ok (POk j r) -> inside r (c :: d) /\ cur r = "}").
    { intros p HH. apply IHo in HH. destruct HH; auto with suff. }
    destruct (IsWhitespace c); [eauto|].
    destruct (beq c DQ).
    { destruct (JsonParseAsString (c :: d)) as [p| | |] eqn:E; try discriminate. cbn [bind] in H.
      destruct p as [v r'|]; [|discriminate]. apply ParseAsString_inside in E. destruct E as [E _]. destruct name as [key|]; eauto. }
    destruct (beq c ":"). { destruct name as [key|]; [|discriminate]. destruct (beq prev ":" || beq prev ","); [discriminate|]. eauto. }
    destruct (beq c ","). { destruct name as [key|]; [discriminate|]. destruct (beq prev ":" || beq prev ","); [discriminate|]. eauto. }
    destruct (beq c "[").
    { destruct name as [key|]; [|discriminate].
      destruct (array_loop f d "[" []) as [p| | |] eqn:E; try discriminate. cbn [bind] in H.
      destruct p as [v r'|]; [|discriminate]. apply IHa in E. destruct E as [E _]. eauto with suff. }
    destruct (beq c "{").
    { destruct name as [key|]; [|discriminate].
      destruct (object_loop f d "{" None []) as [p| | |] eqn:E; try discriminate. cbn [bind] in H.
      destruct p as [v r'|]; [|discriminate]. apply IHo in E. destruct E as [E _]. eauto with suff. }
    destruct (beq c "}") eqn:EB. { destruct name; [discriminate|]. apply beq_true in EB. injection H as <- <-. auto with suff. }
    destruct name as [key|].
    + destruct (starts_number c).
      { destruct (JsonParseAsNumber (c :: d)) as [v r'|] eqn:E; [|discriminate]. apply ParseAsNumber_inside in E. eauto. }
      destruct (JsonParseAsBoolean (c :: d)) as [[v r']|] eqn:E. { apply ParseAsBoolean_inside in E. destruct E. eauto. }
      destruct (JsonParseAsNull (c :: d)) as [[v r']|] eqn:E2; [|discriminate]. apply ParseAsNull_inside in E2. destruct E2. eauto.
    + destruct (unquoted_key_with_colon (c :: d)) as [[key r']|] eqn:E; [|discriminate].
      apply unquoted_inside in E. destruct E. eauto.
Qed.

Lemma fuel_irrelevant : forall f f',
  (forall data prev acc, length data < f -> length data < f' -> array_loop f data prev acc = array_loop f' data prev acc) /\
  (forall data prev name acc, length data < f -> length data < f' -> object_loop f data prev name acc = object_loop f' data prev name acc).
Proof.
  induction f as [|f IH]; intros f'; [split; intros; lia|].
  destruct f' as [|f']; [split; intros; lia|]. destruct (IH f') as [IHa IHo].
  assert (Na : forall r d (acc : list json), inside r d -> length d < S f -> length d < S f' ->
      match r with [] => UB | c' :: d' => array_loop f d' c' acc end = match r with [] => UB | c' :: d' => array_loop f' d' c' acc end).
  { intros [|c' d'] d acc HI L1 L2; [reflexivity|]. apply inside_length in HI. apply IHa; lia. }
  assert (No : forall r d name acc, inside r d -> length d < S f -> length d < S f' ->
      match r with [] => UB | c' :: d' => object_loop f d' c' name acc end = match r with [] => UB | c' :: d' => object_loop f' d' c' name acc end).
  { intros [|c' d'] d name acc HI L1 L2; [reflexivity|]. apply inside_length in HI. apply IHo; lia. }
  split.
  - intros data prev acc L1 L2. cbn [array_loop].
    destruct data as [|c d]; [reflexivity|]. cbn [length] in L1, L2.
    destruct (IsWhitespace c); [apply IHa; lia|].
    destruct (beq c DQ).
    { destruct (JsonParseAsString (c :: d)) as [p| | |] eqn:E; try reflexivity. cbn [bind].
      destruct p as [v r'|]; [|reflexivity]. apply ParseAsString_inside in E. destruct E. eapply Na; [eassumption|cbn; lia|cbn; lia]. }
    destruct (beq c "[").
    { destruct (negb (beq prev "[") && negb (beq prev ",")); [reflexivity|].
      rewrite (IHa d "[" []) by lia. destruct (array_loop f' d "[" []) as [p| | |] eqn:E; try reflexivity. cbn [bind].
      destruct p as [v r'|]; [|reflexivity]. apply (proj1 (loops_inside f')) in E. destruct E. eapply Na; [eassumption|cbn; lia|cbn; lia]. }
    destruct (beq c "{").
    { destruct (negb (beq prev "[") && negb (beq prev ",")); [reflexivity|].
      rewrite (IHo d "{" None []) by lia. destruct (object_loop f' d "{" None []) as [p| | |] eqn:E; try reflexivity. cbn [bind].
      destruct p as [v r'|]; [|reflexivity]. apply (proj2 (loops_inside f')) in E. destruct E. eapply Na; [eassumption|cbn; lia|cbn; lia]. }
    destruct (beq c ","). { destruct (beq prev "," || beq prev "["); [reflexivity|]. apply IHa; lia. }
    destruct (beq c "]"); [reflexivity|].
    destruct (starts_number c).
    { destruct (JsonParseAsNumber (c :: d)) as [v r'|] eqn:E; [|reflexivity]. apply ParseAsNumber_inside in E. eapply Na; [eassumption|cbn; lia|cbn; lia]. }
    destruct (JsonParseAsBoolean (c :: d)) as [[v r']|] eqn:E. { apply ParseAsBoolean_inside in E. destruct E. eapply Na; [eassumption|cbn; lia|cbn; lia]. }
    destruct (JsonParseAsNull (c :: d)) as [[v r']|] eqn:E2; [|reflexivity]. apply ParseAsNull_inside in E2. destruct E2. eapply Na; [eassumption|cbn; lia|cbn; lia].
  - intros data prev name acc L1 L2. cbn [object_loop].
    destruct data as [|c d]; [reflexivity|]. cbn [length] in L1, L2.
    destruct (IsWhitespace c); [apply IHo; lia|].
    destruct (beq c DQ).
    { destruct (JsonParseAsString (c :: d)) as [p| | |] eqn:E; try reflexivity. cbn [bind].
      destruct p as [v r'|]; [|reflexivity]. apply ParseAsString_inside in E. destruct E. destruct name; (eapply No; [eassumption|cbn; lia|cbn; lia]). }
    destruct (beq c ":"). { destruct name as [key|]; [|reflexivity]. destruct (beq prev ":" || beq prev ","); [reflexivity|]. apply IHo; lia. }
    destruct (beq c ","). { destruct name as [key|]; [reflexivity|]. destruct (beq prev ":" || beq prev ","); [reflexivity|]. apply IHo; lia. }
    destruct (beq c "[").
    { destruct name as [key|]; [|reflexivity].
      rewrite (IHa d "[" []) by lia. destruct (array_loop f' d "[" []) as [p| | |] eqn:E; try reflexivity. cbn [bind].
      destruct p as [v r'|]; [|reflexivity]. apply (proj1 (loops_inside f')) in E. destruct E. eapply No; [eassumption|cbn; lia|cbn; lia]. }
    destruct (beq c "{").
    { destruct name as [key|]; [|reflexivity].
      rewrite (IHo d "{" None []) by lia. destruct (object_loop f' d "{" None []) as [p| | |] eqn:E; try reflexivity. cbn [bind].
      destruct p as [v r'|]; [|reflexivity]. apply (proj2 (loops_inside f')) in E. destruct E. eapply No; [eassumption|cbn; lia|cbn; lia]. }
    destruct (beq c "}"); [reflexivity|].
    destruct name as [key|].
    + destruct (starts_number c).
      { destruct (JsonParseAsNumber (c :: d)) as [v r'|] eqn:E; [|reflexivity]. apply ParseAsNumber_inside in E. eapply No; [eassumption|cbn; lia|cbn; lia]. }
      destruct (JsonParseAsBoolean (c :: d)) as [[v r']|] eqn:E. { apply ParseAsBoolean_inside in E. destruct E. eapply No; [eassumption|cbn; lia|cbn; lia]. }
      destruct (JsonParseAsNull (c :: d)) as [[v r']|] eqn:E2; [|reflexivity]. apply ParseAsNull_inside in E2. destruct E2. eapply No; [eassumption|cbn; lia|cbn; lia].
    + destruct (unquoted_key_with_colon (c :: d)) as [[key r']|] eqn:E; [|reflexivity].
      apply unquoted_inside in E. destruct E. eapply No; [eassumption|cbn; lia|cbn; lia].
Qed.

(** the loops with enough fuel *)
Definition AL data prev acc := array_loop (S (length data)) data prev acc.
Definition OL data prev name acc := object_loop (S (length data)) data prev name acc.

Lemma AL_fuel f data prev acc : length data < f -> array_loop f data prev acc = AL data prev acc.
Proof. intros. apply fuel_irrelevant; [assumption|lia]. Qed.
Lemma OL_fuel f data prev name acc : length data < f -> object_loop f data prev name acc = OL data prev name acc.
Proof. intros. apply fuel_irrelevant; [assumption|lia]. Qed.
