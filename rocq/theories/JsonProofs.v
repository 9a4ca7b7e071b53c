(** Lemmas behind PropsJson.v. *)
From Verif Require Import Prelude PreludeFacts Str StrFacts Libc LibcFacts CmpSpec CmpFacts SeqModel SeqSpec SeqProofs SeqSortProofs.
From Verif Require Import JsonModel JsonFacts JsonSpec JsonSafe JsonParse JsonRead JsonWriteProofs PropsSeq.
From Coq Require Import Lia Permutation Sorting.Sorted.
Set Implicit Arguments.
Local Open Scope char_scope.

(** * C45 *)
Lemma decode_char c t : c <> NUL -> decode_loop false (encode_char c ++ t) = c :: decode_loop false t.
Proof.
  intros NZ. unfold encode_char.
  destruct (beq c DQ) eqn:E1; [apply beq_true in E1; subst; reflexivity|]. cbn [orb].
  destruct (beq c BS) eqn:E2; [apply beq_true in E2; subst; reflexivity|].
  destruct (beq c B_b) eqn:E3; [apply beq_true in E3; subst; reflexivity|].
  destruct (beq c B_f) eqn:E4; [apply beq_true in E4; subst; reflexivity|].
  destruct (beq c B_n) eqn:E5; [apply beq_true in E5; subst; reflexivity|].
  destruct (beq c B_r) eqn:E6; [apply beq_true in E6; subst; reflexivity|].
  destruct (beq c B_t) eqn:E7; [apply beq_true in E7; subst; reflexivity|].
  cbn [app decode_loop]. now rewrite E2.
Qed.
Lemma C45_round s : is_cstr s -> JsonDecodeString (JsonEncodeString s) = s.
Proof.
  unfold JsonDecodeString. induction s as [|c s IH]; intros H; [reflexivity|]. cbn [JsonEncodeString].
  rewrite decode_char by (intros ->; apply H; now left). rewrite IH; [reflexivity|]. intros K. apply H. now right.
Qed.
Lemma encode_char_plain c x : In x (encode_char c) -> ~ In x ["008"; "009"; "010"; "012"; "013"].
Proof.
  unfold encode_char. intros H K.
  assert (G : In x ["008"; "009"; "010"; "012"; "013"] -> In x [BS; c] \/ In x [c] -> x = c).
  { cbn. intuition (subst; discriminate || auto). }
  destruct (beq c DQ || beq c BS) eqn:E1.
  { specialize (G K (or_introl H)). subst x. apply orb_true_iff in E1. destruct E1 as [E1|E1]; apply beq_true in E1; subst; cbn in K; intuition discriminate. }
  destruct (beq c B_b) eqn:E3; [cbn in H, K; intuition (subst; discriminate)|].
  destruct (beq c B_f) eqn:E4; [cbn in H, K; intuition (subst; discriminate)|].
  destruct (beq c B_n) eqn:E5; [cbn in H, K; intuition (subst; discriminate)|].
  destruct (beq c B_r) eqn:E6; [cbn in H, K; intuition (subst; discriminate)|].
  destruct (beq c B_t) eqn:E7; [cbn in H, K; intuition (subst; discriminate)|].
  specialize (G K (or_intror H)). subst x. cbn in K. intuition (subst; discriminate).
Qed.
Lemma C45_plain s x : In x (JsonEncodeString s) -> ~ In x ["008"; "009"; "010"; "012"; "013"].
Proof.
  induction s as [|c s IH]; cbn [JsonEncodeString]; [intros []|]. intros H. apply in_app_or in H. destruct H as [H|H]; [now apply encode_char_plain in H|auto].
Qed.

(** * C46 *)
Lemma delimited_separated rest : delimited rest -> separated rest.
Proof.
  intros [->|(c & d & -> & H)]; [now left|]. right. cbn [cur hd]. cbn in H.
  repeat (destruct H as [<-|H]; [reflexivity|]). destruct H.
Qed.
Lemma C46_parse j t w rest : spells j t -> blank w -> delimited rest ->
  JsonParse (w ++ t ++ rest) = Ok (POk j (last t NUL :: rest)).
Proof.
  intros HS HB HD. rewrite Parse_blank by assumption. apply (proj1 spells_reads); [exact HS|now apply delimited_separated].
Qed.
Lemma C46_pretty j i : portable j ->
  exists c, JsonParse (fst (JsonWrite j i)) = Ok (POk (snd (JsonWrite j i)) [c]) /\ same_tree j (snd (JsonWrite j i)).
Proof.
  intros HP. destruct (Write_spells HP i) as (w & u & E & B & _ & _ & HS). rewrite E, Write_tree.
  exists (last u NUL). split; [|apply canon_same]. rewrite <- (app_nil_r u) at 1.
  apply C46_parse; [exact HS|exact B|now left].
Qed.
Lemma C46_compact j : portable j ->
  exists c, JsonParse (fst (JsonWriteCompact j)) = Ok (POk (snd (JsonWriteCompact j)) [c]) /\ same_tree j (snd (JsonWriteCompact j)).
Proof.
  intros HP. assert (HS := WriteCompact_spells HP). rewrite WriteCompact_tree.
  exists (last (fst (JsonWriteCompact j)) NUL). split; [|apply canon_same].
  rewrite <- (app_nil_r (fst (JsonWriteCompact j))) at 1. apply (@C46_parse _ _ []); [exact HS|apply blank_nil|now left].
Qed.

(** * C48 *)
Lemma C48_bridge (strcmp : list byte -> list byte -> Z) (l : list (list byte * json)) cap d s :
  strcmp_ok strcmp -> NoDup (map fst l) -> (Z.of_nat (length l) <= 2147483647)%Z ->
  append_list (SeqNew (list byte * json) cap d) (map Some l) = Ok s ->
  exists s', SeqSort (fun a b => match a, b with Some x, Some y => strcmp (fst x) (fst y) | _, _ => 0%Z end) s = Ok s' /\
             items s' = Ok (map Some (sort_children l)).
Proof.
  intros HC ND HL HA.
  set (cmp := fun a b : option (list byte * json) => match a, b with Some x, Some y => strcmp (fst x) (fst y) | _, _ => 0%Z end).
  assert (SG : forall a b, Z.sgn (strcmp a b) = zcmp a b) by (intros; apply compares_sgn, HC).
  assert (LE : forall a b, (strcmp a b <= 0)%Z <-> lexcmp a b <> Datatypes.Gt).
  { intros a b. assert (K := SG a b). unfold zcmp in K. destruct (lexcmp a b); split; intros; try congruence; try (destruct (strcmp a b); cbn in K; lia). }
  assert (TP : total_preorder (fun x => In x (map Some l)) cmp).
  { split.
    - intros a b I J. apply in_map_iff in I. apply in_map_iff in J. destruct I as (x & <- & _), J as (y & <- & _). cbn.
      assert (K1 := SG (fst x) (fst y)). assert (K2 := SG (fst y) (fst x)). unfold zcmp in *. rewrite (lexcmp_antisym (fst x) (fst y)) in K2.
      destruct (lexcmp (fst x) (fst y)); cbn in K2; destruct (strcmp (fst x) (fst y)), (strcmp (fst y) (fst x)); cbn in *; lia.
    - intros a b c I J K. apply in_map_iff in I. apply in_map_iff in J. apply in_map_iff in K. destruct I as (x & <- & _), J as (y & <- & _), K as (z & <- & _). cbn.
      rewrite !LE. intros H1 H2 H3. apply lexcmp_gt in H3.
      destruct (lexcmp (fst x) (fst y)) eqn:E1; [|apply lexcmp_lt in E1|congruence].
      + apply lexcmp_eq in E1. rewrite E1 in *. apply H2. now apply lexcmp_gt.
      + destruct (lexcmp (fst y) (fst z)) eqn:E2; [|apply lexcmp_lt in E2|congruence].
        * apply lexcmp_eq in E2. rewrite <- E2 in *. now apply before_asym in H3.
        * apply (before_asym H3). eapply before_trans; eauto. }
  destruct (@C03_sort_sorted_permutation _ cmp cap d (map Some l) s HA TP) as (s' & l' & E1 & E2 & HP & HS); [now rewrite map_length|].
  exists s'. split; [exact E1|]. rewrite E2. f_equal.
  assert (EX : exists m, l' = map Some m /\ Permutation l m).
  { destruct (Permutation_map_inv _ _ (Permutation_sym HP)) as (m & -> & HP'). exists m. split; [reflexivity|now apply Permutation_sym]. }
  destruct EX as (m & -> & HPm). f_equal.
  apply ascending_unique.
  - rewrite sort_perm. now apply Permutation_sym.
  - apply sorted_ascending; [eapply Permutation_NoDup; [apply Permutation_map; exact HPm|exact ND]|].
    assert (G : forall i j, i <= j -> j < length m -> forall d0, le_key (nth i m d0) (nth j m d0)).
    { intros i j Hi Hj d0. specialize (HS i j Hi). rewrite map_length in HS. specialize (HS Hj).
      rewrite !(nth_indep (map Some m) None (Some d0)) in HS by (rewrite map_length; lia). rewrite !map_nth in HS. cbn in HS.
      apply LE in HS. unfold le_key. destruct (lexcmp _ _) eqn:E; [right; now apply lexcmp_eq|left; now apply lexcmp_lt|congruence]. }
    clear -G. induction m as [|x m IH]; [constructor|]. constructor.
    + apply IH. intros i j Hi Hj d0. apply (G (S i) (S j)); cbn; lia.
    + apply Forall_forall. intros y I. apply (In_nth _ _ x) in I. destruct I as (n & Hn & <-). apply (G 0 (S n)); cbn; lia.
  - apply sorted_ascending; [now apply sorted_NoDup|apply sort_sorted].
Qed.

(** which strings survive *)
Lemma decode_len : forall s b, length (decode_loop b s) <= length s.
Proof.
  induction s as [|c s IH]; intros b; cbn [decode_loop length]; [lia|].
  assert (H1 := IH true). assert (H2 := IH false).
  destruct b; [lia|]. cbv zeta.
  repeat match goal with |- context [if ?x then _ else _] => destruct x end; cbn [length]; lia.
Qed.
Lemma decode_skip_len : forall s, s <> [] -> length (decode_loop true s) < length s.
Proof. intros [|c s] H; [congruence|]. cbn [decode_loop length]. assert (K := decode_len s false). lia. Qed.
Lemma decode_fixed s : decode_loop false s = s -> settled s.
Proof.
  induction s as [|c s IH]; intros H p x q E; [destruct p; discriminate|].
  assert (D : decode_loop false s = s \/ (c = BS /\ In (hd NUL s) [DQ; BS; "b"; "f"; "n"; "r"; "t"] /\ length (decode_loop true s) = length s)).
  { cbn [decode_loop] in H. destruct (beq c BS) eqn:E0; [|left; now injection H]. apply beq_true in E0.
    cbv zeta in H.
    destruct (beq (hd NUL s) DQ || beq (hd NUL s) BS) eqn:E1.
    { right. split; [exact E0|]. split; [|injection H; congruence]. apply orb_true_iff in E1. destruct E1 as [E1|E1]; apply beq_true in E1; rewrite E1; cbn; tauto. }
    repeat match type of H with (if beq _ ?b then _ else _) = _ => let E := fresh in destruct (beq (hd NUL s) b) eqn:E;
      [right; split; [exact E0|]; split; [apply beq_true in E; rewrite E; cbn; tauto|injection H; congruence]|] end.
    left. now injection H. }
  destruct D as [D|(-> & HI & HL)].
  - destruct p as [|y p]; [|cbn in E; injection E as -> E; exact (IH D p x q E)].
    cbn in E. injection E as -> ->. intros HI. cbn [decode_loop] in H. cbn [hd] in H. change (beq "\" BS) with true in H. cbv iota zeta in H.
    assert (L := decode_skip_len (s := x :: q)). apply (f_equal (@length byte)) in H.
    assert (K : length (decode_loop true (x :: q)) = length (x :: q)).
    { cbn in HI. repeat (destruct HI as [<-|HI]; [cbn [length] in H; now injection H|]). destruct HI. }
    specialize (L ltac:(discriminate)). lia.
  - destruct s as [|y s]; [cbn in HI; unfold NUL in HI; intuition discriminate|]. assert (L := decode_skip_len (s := y :: s) ltac:(discriminate)). lia.
Qed.
Lemma parse_string_write s : is_cstr s ->
  JsonParse (fst (JsonWriteCompact (JsonStringCreate s))) = Ok (POk (JPrim PString (JsonDecodeString s)) [DQ]).
Proof.
  intros H. cbn [JsonWriteCompact JsonStringCreate fst JsonPrimitiveWrite PrintIndent Nat.mul repeat app].
  assert (K := ParseAsString_spells [] (spq (encode_spells H))).
  cbn [app] in K. rewrite app_nil_r in K.
  cbn [JsonParse]. change (beq DQ "{") with false. change (beq DQ "[") with false. change (IsWhitespace DQ) with false. cbv iota.
  unfold JsonParseAsPrimitive. cbn [cur hd]. change (beq DQ DQ) with true. cbv iota. change DQ with """". rewrite K. reflexivity.
Qed.
