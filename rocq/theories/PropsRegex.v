(** Properties of regex.c: C110 (matching), C111 (captures). *)
From Verif Require Import Prelude Str StrFacts Libc LibcFacts JsonModel JsonSafe JsonMapProofs RegexModel RegexSpec.
Set Implicit Arguments.

(** * C110 *)
Lemma top_le gs : top gs <= length gs.
Proof. induction gs as [|g gs IH]; cbn [top length]; [lia|]. destruct (top gs); [destruct g; lia|lia]. Qed.
Lemma top_pos g gs : 1 <= top (Some g :: gs).
Proof. cbn [top]. destruct (top gs); lia. Qed.
Section Matching.
  Variables (p : pcre) (n : nat) (names : list (nat * list byte)) (search : list byte -> Z + groups).
  Hypothesis H : honest p n names search.

  (** StringMatchWithPrecompiledRegex: whether there is a match, and where it begins and ends, if not more than
      nine groups took part *)
  Theorem C110_match : forall str,
    (forall e, search str = inl e -> fst (StringMatchWithPrecompiledRegex p str) = false) /\
    (forall gs s e, search str = inr gs -> hd_error gs = Some (Some (s, e)) -> top gs <= 10 ->
      StringMatchWithPrecompiledRegex p str = (true, (Z.of_nat s, Z.of_nat e))) /\
    (forall gs, search str = inr gs -> fst (StringMatchWithPrecompiledRegex p str) = true).
  Proof.
    intros str. unfold StringMatchWithPrecompiledRegex. rewrite (h_exec H). split; [|split].
    - intros e E. rewrite E. assert (X := h_error H _ E). cbn [promised fst]. apply Z.leb_gt. lia.
    - intros gs s e E HD T. rewrite E. cbn [promised]. change (STRING_MATCH_OVECCOUNT / 3) with 10.
      destruct gs as [|g gs]; [discriminate|]. injection HD as ->. assert (P := top_pos (s, e) gs).
      replace (10 <? top (Some (s, e) :: gs)) with false by (symmetry; apply Nat.ltb_ge; exact T).
      replace (Z.of_nat (top (Some (s, e) :: gs)) =? 0)%Z with false by (symmetry; apply Z.eqb_neq; lia).
      cbn [map firstn nth pair_of]. f_equal. apply Z.leb_le. lia.
    - intros gs E. rewrite E. cbn [promised fst]. destruct (_ <? _); apply Z.leb_le; lia.
  Qed.
  (** with at most nine groups in the pattern that is always so: StringMatchFull says whether the match is the whole text *)
  Theorem C110_full_partial : forall str, n <= 9 ->
    (StringMatchFullWithPrecompiledRegex p str = true <-> exists gs, search str = inr gs /\ hd_error gs = Some (Some (0, length str))).
  Proof.
    intros str N. unfold StringMatchFullWithPrecompiledRegex. destruct (C110_match str) as (A & B & _). destruct (search str) as [e|gs] eqn:E.
    - specialize (A e eq_refl). destruct (StringMatchWithPrecompiledRegex p str) as [r se]. cbn [fst] in A. subst r. split; [discriminate|intros (gs & X & _); discriminate].
    - destruct (h_groups H _ E) as (L & ((s & t) & HD) & F). rewrite (B gs s t eq_refl HD) by (assert (X := top_le gs); lia).
      rewrite andb_true_iff, !Z.eqb_eq. split.
      + intros (S & T). exists gs. split; [reflexivity|]. rewrite HD. repeat f_equal; lia.
      + intros (gs' & X & Y). injection X as <-. rewrite HD in Y. injection Y as -> ->. split; lia.
  Qed.
  (** a match of the whole text is never claimed wrongly, except of the empty text *)
  Theorem C110_full_sound : forall str, StringMatchFullWithPrecompiledRegex p str = true ->
    exists gs, search str = inr gs /\ (str <> [] -> hd_error gs = Some (Some (0, length str))).
  Proof.
    intros str. unfold StringMatchFullWithPrecompiledRegex, StringMatchWithPrecompiledRegex. rewrite (h_exec H). destruct (search str) as [e|gs] eqn:E.
    - cbn [promised fst]. assert (X := h_error H _ E). replace (0 <=? e)%Z with false by (symmetry; apply Z.leb_gt; lia). discriminate.
    - intros R. exists gs. split; [reflexivity|]. intros NE. destruct (h_groups H _ E) as (L & ((s & t) & HD) & F). destruct gs as [|g gs]; [discriminate|]. injection HD as ->. cbn [hd_error].
      cbn [promised] in R. change (STRING_MATCH_OVECCOUNT / 3) with 10 in R. destruct (10 <? top (Some (s, t) :: gs)).
      + cbn in R. destruct str; [contradiction|]. discriminate R.
      + assert (P := top_pos (s, t) gs). replace (Z.of_nat (top (Some (s, t) :: gs)) =? 0)%Z with false in R by (symmetry; apply Z.eqb_neq; lia).
        replace (0 <=? Z.of_nat (top (Some (s, t) :: gs)))%Z with true in R by (symmetry; apply Z.leb_le; lia). cbn [map firstn nth pair_of] in R.
        apply andb_true_iff in R. rewrite !Z.eqb_eq in R. repeat f_equal; lia.
  Qed.
  Theorem C110_partial_match : forall str, RegexPartialMatch p str = true <-> exists gs, search str = inr gs.
  Proof.
    intros str. unfold RegexPartialMatch. rewrite (h_exec H). destruct (search str) as [e|gs] eqn:E; cbn [promised fst].
    - assert (X := h_error H _ E). rewrite Z.leb_le. split; [lia|intros (gs & Y); discriminate].
    - split; [eauto|]. intros _. destruct (_ <? _); apply Z.leb_le; lia.
  Qed.
End Matching.
Print Assumptions C110_match.
Print Assumptions C110_full_partial.
Print Assumptions C110_full_sound.
Print Assumptions C110_partial_match.
(** the functions that compile: a bad expression matches nothing; CompareStringOrRegex lets NULL and the empty text match everything *)
Theorem C110_compile : forall compile regex str,
  (compile regex = None -> StringMatch compile regex str = (false, None) /\ StringMatchFull compile regex str = false) /\
  (forall p, compile regex = Some p -> StringMatch compile regex str = (fst (StringMatchWithPrecompiledRegex p str), Some (snd (StringMatchWithPrecompiledRegex p str))) /\
    StringMatchFull compile regex str = StringMatchFullWithPrecompiledRegex p str) /\
  (forall is_regex c, CompareStringOrRegex compile str c is_regex = true <->
     c = None \/ c = Some [] \/ exists t, c = Some t /\ if is_regex : bool then StringMatchFull compile t str = true else str = t).
Proof.
  intros compile regex str. split; [|split].
  - intros E. unfold StringMatch, StringMatchFull. now rewrite E.
  - intros p E. unfold StringMatch, StringMatchFull. rewrite E. destruct (StringMatchWithPrecompiledRegex p str); auto.
  - intros is_regex [[|a t]|]; cbn [CompareStringOrRegex]; [split; auto| |split; auto].
    destruct is_regex; [|rewrite bytes_eqb_eq]; split.
    + intros E. right. right. eauto.
    + intros [X|[X|(t' & X & E)]]; try discriminate. now injection X as <-.
    + intros E. right. right. eauto.
    + intros [X|[X|(t' & X & E)]]; try discriminate. injection X as <-. congruence.
Qed.
Print Assumptions C110_compile.

(** ** what goes wrong *)
(** a pattern of [n] groups around a, like ((((a)))): it matches the first a *)
Fixpoint position (s : list byte) (i : nat) : option nat :=
  match s with [] => None | c :: s => if beq c "a" then Some i else position s (S i) end.
Definition nested (n : nat) (str : list byte) : Z + groups :=
  match position str 0 with None => inl (-1)%Z | Some i => inr (repeat (Some (i, S i)) (S n)) end.
Definition nested_pattern (n : nat) : pcre := mkPcre n [] 0 0 (fun str size => promised (nested n str) size).
Lemma position_lt s : forall i j, position s i = Some j -> i <= j /\ j < i + length s.
Proof. induction s as [|c s IH]; intros i j; cbn [position length]; [discriminate|]. destruct (beq c "a"); [intros E; injection E as <-; lia|]. intros E. apply IH in E. lia. Qed.
Lemma nested_honest n : honest (nested_pattern n) n [] (nested n).
Proof.
  constructor; try reflexivity.
  - exists []. split; [reflexivity|constructor].
  - intros str e. unfold nested. destruct (position str 0); [discriminate|]. intros E. injection E as <-. lia.
  - intros str gs. unfold nested. destruct (position str 0) as [i|] eqn:P; [|discriminate]. intros E. assert (G : gs = repeat (Some (i, S i)) (S n)) by congruence. subst gs. apply position_lt in P. rewrite repeat_length. split; [reflexivity|]. split; [eexists; reflexivity|].
    apply Forall_forall. intros g I. apply repeat_spec in I. subst g. lia.
Qed.
(** with ten groups the vector is too small: a match of the whole text is denied, and the position is 0 and 0 *)
Theorem C110_many_groups_refuted : exists p search, honest p 10 [] search /\ (exists gs, search (lit "a") = inr gs /\ hd_error gs = Some (Some (0, 1))) /\
  StringMatchFullWithPrecompiledRegex p (lit "a") = false /\ StringMatchWithPrecompiledRegex p (lit "xa") = (true, (0, 0)%Z) /\
  StringMatchFullWithPrecompiledRegex (nested_pattern 9) (lit "a") = true.
Proof.
  exists (nested_pattern 10), (nested 10). split; [apply nested_honest|]. split; [eexists; split; reflexivity|]. split; [reflexivity|]. split; reflexivity.
Qed.
Print Assumptions C110_many_groups_refuted.
(** the position of the match is that of the first alternative: a|ab is found at the beginning of ab, but only as a, so StringMatchFull denies that
    ab matches a|ab, and grants that it matches ab|a *)
Fixpoint first_of (alts : list (list byte)) (str : list byte) : option nat :=
  match alts with [] => None | a :: alts => if prefixb a str then Some (length a) else first_of alts str end.
Fixpoint leftmost (alts : list (list byte)) (str : list byte) (i : nat) : Z + groups :=
  match first_of alts str with
  | Some l => inr [Some (i, i + l)]
  | None => match str with [] => inl (-1)%Z | _ :: str => leftmost alts str (S i) end
  end.
Definition alternatives (alts : list (list byte)) : pcre := mkPcre 0 [] 0 0 (fun str size => promised (leftmost alts str 0) size).
Lemma first_le alts str l : first_of alts str = Some l -> l <= length str.
Proof. induction alts as [|a alts IH]; cbn [first_of]; [discriminate|]. destruct (prefixb a str) eqn:E; [|exact IH]. intros X. injection X as <-. apply prefixb_spec in E. destruct E as (r & ->). rewrite app_length. lia. Qed.
Lemma leftmost_ok alts str : forall i, match leftmost alts str i with inl e => (e < 0)%Z | inr gs => exists s e, gs = [Some (s, e)] /\ s <= e /\ e <= i + length str end.
Proof.
  induction str as [|c str IH]; intros i; cbn [leftmost]; destruct (first_of alts _) as [l|] eqn:E; try lia.
  - apply first_le in E. do 2 eexists. split; [reflexivity|]. cbn [length] in *. lia.
  - apply first_le in E. do 2 eexists. split; [reflexivity|]. cbn [length] in *. lia.
  - specialize (IH (S i)). destruct (leftmost alts str (S i)); [exact IH|]. destruct IH as (s & e & -> & A & B). exists s, e. cbn [length]. split; [reflexivity|lia].
Qed.
Lemma alternatives_honest alts : honest (alternatives alts) 0 [] (fun str => leftmost alts str 0).
Proof.
  constructor; try reflexivity.
  - exists []. split; [reflexivity|constructor].
  - intros str e E. assert (X := leftmost_ok alts str 0). now rewrite E in X.
  - intros str gs E. assert (X := leftmost_ok alts str 0). rewrite E in X. destruct X as (s & e & -> & A & B). split; [reflexivity|]. split; [eexists; reflexivity|]. constructor; [lia|constructor].
Qed.
Theorem C110_alternative_refuted : honest (alternatives [lit "a"; lit "ab"]) 0 [] (fun str => leftmost [lit "a"; lit "ab"] str 0) /\
  StringMatchFullWithPrecompiledRegex (alternatives [lit "a"; lit "ab"]) (lit "ab") = false /\
  StringMatchFullWithPrecompiledRegex (alternatives [lit "ab"; lit "a"]) (lit "ab") = true.
Proof. split; [apply alternatives_honest|]. split; reflexivity. Qed.
Print Assumptions C110_alternative_refuted.
Example C110_nonvacuous : honest (nested_pattern 2) 2 [] (nested 2) /\ StringMatchWithPrecompiledRegex (nested_pattern 2) (lit "xay") = (true, (1, 2)%Z) /\
  StringMatchFullWithPrecompiledRegex (nested_pattern 2) (lit "a") = true /\ StringMatchFullWithPrecompiledRegex (nested_pattern 2) (lit "ab") = false /\
  RegexPartialMatch (nested_pattern 2) (lit "b") = false.
Proof. split; [apply nested_honest|]. repeat split. Qed.

(** * C111 *)
Definition interleaved (l : list (list byte * list byte)) : list (list byte) := flat_map (fun kv => [fst kv; snd kv]) l.
Lemma text_group str g : is_cstr str -> match g with Some (s, e) => s <= e /\ e <= length str | None => True end ->
  text_from str (fst (pair_of g)) (snd (pair_of g)) = Ok (capture str g).
Proof.
  intros C. destruct g as [[s e]|]; cbn [pair_of fst snd capture]; [|reflexivity]. intros (A & B). unfold text_from. destruct (Z.eqb_spec (Z.of_nat s) (Z.of_nat e)) as [E|E].
  - replace (e - s) with 0 by lia. reflexivity.
  - replace ((0 <=? Z.of_nat s) && (Z.of_nat s <? Z.of_nat e) && (Z.of_nat e <=? Z.of_nat (length str)))%Z with true by (symmetry; rewrite !andb_true_iff, !Z.leb_le, Z.ltb_lt; lia).
    replace (Z.to_nat (Z.of_nat e - Z.of_nat s)) with (e - s) by lia. rewrite Nat2Z.id. rewrite upto_nul_id; [reflexivity|]. unfold is_cstr in *. intros I. apply C. rewrite <- (firstn_skipn s str). apply in_or_app. right. rewrite <- (firstn_skipn (e - s) (skipn s str)). apply in_or_app. now left.
Qed.

Lemma find_name_ok size i names es : Forall2 (fun kn e => entry_of size (fst kn) (snd kn) e) names es ->
  find_name (length names) (concat es) size i = Ok (option_map snd (find (fun kn => (fst kn =? i)%nat) names)).
Proof.
  induction 1 as [|[k nm] e names es (h & l & pad & -> & L & C & K) F IH]; cbn [length find_name concat find fst snd]; [reflexivity|].
  cbn [fst snd] in C, K, L. cbn [app].
  destruct (Nat.eqb_spec k i) as [->|NE].
  - rewrite K, N.eqb_refl. cbn [length] in L. rewrite app_length in L. cbn [length] in L.
    replace (size - 3 <=? length ((nm ++ NUL :: pad) ++ concat es)) with true by (symmetry; apply Nat.leb_le; rewrite !app_length; cbn [length]; lia).
    cbn [option_map snd]. do 2 f_equal. replace (size - 3) with (length nm + length pad) by lia.
    rewrite <- app_assoc, firstn_app_2. cbn [app]. destruct pad as [|x pad].
    + cbn [length firstn]. rewrite app_nil_r. now apply upto_nul_id.
    + cbn [length firstn app]. apply upto_nul_cstr. exact C.
  - replace (N.of_nat i =? code h * 256 + code l)%N with false by (symmetry; apply N.eqb_neq; lia).
    rewrite <- IH. f_equal. change (h :: l :: (nm ++ NUL :: pad) ++ concat es) with ((h :: l :: nm ++ NUL :: pad) ++ concat es). rewrite <- L. rewrite skipn_app, skipn_all, Nat.sub_diag. reflexivity.
Qed.
Section Captures.
  Variables (p : pcre) (n : nat) (names : list (nat * list byte)) (search : list byte -> Z + groups).
  Hypothesis H : honest p n names search.
  Lemma loop_ok str with_names : is_cstr str -> forall gs i before, Forall (fun g => match g with Some (s, e) => s <= e /\ e <= length str | None => True end) gs -> length before = i ->
    captures_loop p str (before ++ map pair_of gs) with_names i (length gs) = Ok (if with_names : bool then interleaved (labelled names str i gs) else map (capture str) gs).
  Proof.
    intros C. induction gs as [|g gs IH]; intros i before F L; cbn [length captures_loop]; [destruct with_names; reflexivity|].
    assert (FG := Forall_inv F). assert (FR := Forall_inv_tail F).
    assert (NAME : (if with_names then let* found := (if (0 <? namecount p)%nat then find_name (namecount p) (name_table p) (name_entry_size p) i else Ok None) in Ok [match found with Some s => s | None => udec (N.of_nat i) end] else Ok []) = Ok (if with_names then [label names i] else [])).
    { destruct with_names; [|reflexivity]. destruct (h_table H) as (es & -> & FE). rewrite (h_names H), (find_name_ok i FE). unfold label. destruct names as [|kn nms]; [reflexivity|]. cbn [length Nat.ltb Nat.leb]. cbn [bind]. destruct (find _ (kn :: nms)); reflexivity. }
    rewrite NAME. cbn [bind]. rewrite nth_error_app2 by lia. rewrite L, Nat.sub_diag. cbn [map nth_error]. assert (TG := text_group g C FG). destruct (pair_of g) as [a b]. cbn [fst snd] in TG. rewrite TG. cbn [bind].
    replace (before ++ (a, b) :: map pair_of gs) with ((before ++ [(a, b)]) ++ map pair_of gs) by now rewrite <- app_assoc.
    rewrite (IH (S i) (before ++ [(a, b)]) FR) by (rewrite app_length; cbn [length]; lia). cbn [bind]. destruct with_names; reflexivity.
  Qed.
  (** the captures: NULL if there is no match; otherwise the text of every group, empty for one that took no part, behind its name (or number) if asked for *)
  Theorem C111_captures : forall str with_names, is_cstr str ->
    (forall e, search str = inl e -> StringMatchCapturesWithPrecompiledRegex p str with_names = Ok None) /\
    (forall gs, search str = inr gs -> StringMatchCapturesWithPrecompiledRegex p str with_names =
      Ok (Some (if with_names : bool then interleaved (labelled names str 0 gs) else map (capture str) gs))).
  Proof.
    intros str with_names C. unfold StringMatchCapturesWithPrecompiledRegex. rewrite (h_exec H), (h_count H). split.
    - intros e E. rewrite E. cbn [promised]. assert (X := h_error H _ E). replace (e <=? 0)%Z with true by (symmetry; apply Z.leb_le; lia). reflexivity.
    - intros gs E. rewrite E. cbn [promised]. destruct (h_groups H _ E) as (L & ((s & t) & HD) & F). rewrite Nat.div_mul by lia.
      assert (T := top_le gs). replace (n + 1 <? top gs) with false by (symmetry; apply Nat.ltb_ge; lia).
      assert (P : 1 <= top gs) by (destruct gs as [|g gs]; [discriminate|]; injection HD as ->; apply top_pos).
      replace (Z.of_nat (top gs) <=? 0)%Z with false by (symmetry; apply Z.leb_gt; lia). rewrite firstn_all2 by (rewrite map_length; lia).
      replace (n + 1) with (length gs) by lia. assert (LO := loop_ok with_names C [] F eq_refl). cbn [app length] in LO. now rewrite LO.
  Qed.

  (** StringCaptureData: the groups from 1 on as members of an object; names are distinct, belong to distinct groups, and do not begin with a digit *)
  Definition good_names : Prop := NoDup (map snd names) /\ NoDup (map fst names) /\ Forall (fun kn => 1 <= fst kn /\ exists c r, snd kn = c :: r /\ isdigit c = false) names.
  Lemma label_cases i : (exists nm, In (i, nm) names /\ label names i = nm) \/ ((forall nm, ~ In (i, nm) names) /\ label names i = udec (N.of_nat i)).
  Proof.
    unfold label. destruct (find _ names) as [[k nm]|] eqn:E.
    - apply find_some in E. destruct E as (I & E). cbn [fst] in E. apply Nat.eqb_eq in E. subst k. left. exists nm. auto.
    - right. split; [|reflexivity]. intros nm I. apply (find_none _ _ E) in I. cbn [fst] in I. rewrite Nat.eqb_refl in I. discriminate.
  Qed.
  Lemma label_inj i j : good_names -> label names i = label names j -> i = j.
  Proof.
    intros (ND & _ & F) E. rewrite Forall_forall in F.
    assert (NN : forall k nm m, In (k, nm) names -> nm = udec m -> False).
    { intros k nm m I ->. destruct (F _ I) as (_ & c & r & X & D). cbn [snd] in X. assert (Y := udec_digits m). rewrite X in Y. cbn [forallb] in Y. rewrite D in Y. discriminate. }
    destruct (label_cases i) as [(a & I & A)|(NI & A)], (label_cases j) as [(b & J & B)|(NJ & B)]; rewrite A, B in E.
    - subst b. clear -ND I J. induction names as [|[k x] l IH]; [destruct I|]. cbn [map snd] in ND. inversion ND as [|? ? NI ND']; subst. destruct I as [I|I], J as [J|J].
      + congruence.
      + injection I as -> ->. exfalso. apply NI. apply in_map_iff. exists (j, a). auto.
      + injection J as -> ->. exfalso. apply NI. apply in_map_iff. exists (i, a). auto.
      + now apply IH.
    - exfalso. eapply NN; eauto.
    - exfalso. eapply NN; eauto.
    - apply udec_inj in E. lia.
  Qed.
  Lemma labelled_keys str gs : forall i, map fst (labelled names str i gs) = map (label names) (seq i (length gs)).
  Proof. induction gs as [|g gs IH]; intros i; [reflexivity|]. cbn [labelled map fst length seq]. f_equal. apply IH. Qed.
  Lemma labelled_NoDup str gs i : good_names -> NoDup (map fst (labelled names str i gs)).
  Proof.
    intros G. rewrite labelled_keys. generalize (length gs). intros m. revert i. induction m as [|m IH]; intros i; cbn [seq map]; constructor; [|apply IH].
    intros I. apply in_map_iff in I. destruct I as (j & E & I). apply label_inj in E; [|exact G]. apply in_seq in I. lia.
  Qed.
  Definition member (kv : list byte * list byte) : list byte * json := (fst kv, JPrim PString (snd kv)).
  Lemma members_ok l : forall acc, NoDup (map fst acc ++ map fst l) -> capture_members (interleaved l) acc = acc ++ map member l.
  Proof.
    induction l as [|[k v] l IH]; intros acc ND; cbn [interleaved flat_map app fst snd capture_members map]; [now rewrite app_nil_r|].
    fold (interleaved l). cbn [map fst] in ND. assert (NDA : NoDup (map fst acc)) by (revert ND; generalize (k :: map fst l); intros r; revert r; induction (map fst acc) as [|a b IHb]; intros r N; [constructor|]; inversion N as [|? ? NI N']; subst; constructor; [intros I; apply NI, in_or_app; now left|now apply IHb with r]).
    assert (NK : ~ In k (map fst acc)) by (apply NoDup_remove_2 in ND; intros I; apply ND, in_or_app; now left).
    rewrite (append_without acc k (JsonStringCreate v) NDA), (without_notin _ _ NK). rewrite IH; [now rewrite <- app_assoc|].
    rewrite map_app, <- app_assoc. exact ND.
  Qed.
  Theorem C111_data : forall compile regex str, is_cstr str -> good_names ->
    (forall e, search str = inl e -> StringCaptureData compile (Some p) regex str = Ok None) /\
    (forall g gs, search str = inr (g :: gs) -> StringCaptureData compile (Some p) regex str =
      Ok (Some (JObj (map (fun kv => (fst kv, JPrim PString (snd kv))) (labelled names str 1 gs))))).
  Proof.
    intros compile regex str C G. unfold StringCaptureData. destruct (C111_captures true C) as (A & B). split.
    - intros e E. rewrite (A e E). reflexivity.
    - intros g gs E. rewrite (B _ E). cbn [bind]. assert (ND := labelled_NoDup str (g :: gs) 0 G).
      change (interleaved (labelled names str 0 (g :: gs))) with (label names 0 :: capture str g :: interleaved (labelled names str 1 gs)). cbn iota.
      change (label names 0 :: capture str g :: interleaved (labelled names str 1 gs)) with (interleaved (labelled names str 0 (g :: gs))).
      rewrite members_ok by exact ND. cbn [app]. assert (L0 : label names 0 = lit "0").
      { destruct (label_cases 0) as [(nm & I & _)|(_ & X)]; [|exact X]. destruct G as (_ & _ & F). rewrite Forall_forall in F. destruct (F _ I) as (X & _). cbn [fst] in X. lia. }
      do 3 f_equal. rewrite remove_key_without by (rewrite map_map; exact ND).
      cbn [labelled map member fst snd]. rewrite L0. unfold without. cbn [filter fst]. rewrite bytes_eqb_refl. cbn [negb].
      change (filter (fun kv => negb (bytes_eqb (lit "0") (fst kv))) (map member (labelled names str 1 gs))) with (without (lit "0") (map member (labelled names str 1 gs))). apply without_notin.
      rewrite map_map. cbn [labelled map fst] in ND. rewrite L0 in ND. now inversion ND.
  Qed.
End Captures.
Print Assumptions C111_captures.
Print Assumptions C111_data.
(** (?<first>a)(b)? in xa: the second group takes no part; the table has one entry of 9 bytes with something behind the NUL *)
Definition named : pcre := mkPcre 2 ([ascii_of_nat 0; ascii_of_nat 1] ++ lit "first" ++ [NUL; "?"%char]) 9 1
  (fun str size => promised (if bytes_eqb str (lit "xa") then inr [Some (1, 2); Some (1, 2); None] else inl (-1)%Z) size).
Example C111_nonvacuous : honest named 2 [(1, lit "first")] (fun str => if bytes_eqb str (lit "xa") then inr [Some (1, 2); Some (1, 2); None] else inl (-1)%Z) /\
  good_names [(1, lit "first")] /\
  StringMatchCapturesWithPrecompiledRegex named (lit "xa") true = Ok (Some [lit "0"; lit "a"; lit "first"; lit "a"; lit "2"; []]) /\
  StringCaptureData (fun _ => None) (Some named) [] (lit "xa") = Ok (Some (JObj [(lit "first", JPrim PString (lit "a")); (lit "2", JPrim PString [])])).
Proof.
  split; [|split; [|split; reflexivity]].
  - constructor; try reflexivity.
    + eexists [_]. split; [unfold named; cbn [name_table concat]; symmetry; apply app_nil_r|]. constructor; [|constructor]. exists (ascii_of_nat 0), (ascii_of_nat 1), ["?"%char]. cbn [fst snd]. split; [reflexivity|]. split; [reflexivity|]. split; [unfold is_cstr, NUL; cbn; intuition discriminate|reflexivity].
    + intros str e. destruct (bytes_eqb str (lit "xa")); [discriminate|]. intros E. injection E as <-. lia.
    + intros str gs. destruct (bytes_eqb str (lit "xa")) eqn:E; [|discriminate]. apply bytes_eqb_eq in E. subst str. intros X. injection X as <-. split; [reflexivity|]. split; [eexists; reflexivity|]. cbn. repeat constructor.
  - repeat split.
    + cbn. repeat constructor. auto.
    + cbn. repeat constructor. auto.
    + constructor; [|constructor]. cbn. split; [lia|]. exists "f"%char, (lit "irst"). split; reflexivity.
Qed.
