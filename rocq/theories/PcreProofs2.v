(** Proofs about PcreModel.v: the loop compiling the substitute. *)
From Verif Require Import Prelude PreludeFacts Str StrFacts Libc LibcFacts CompatProofs EnvProofs PcreModel PcreSpec PcreProofs.
Set Implicit Arguments.

Definition items_of (bs : blocks) (cur : list byte) : list item :=
  flat_map (fun b : list byte * N => map Lit (fst b) ++ [Ref (snd b)]) bs ++ map Lit cur.
Lemma items_lit bs cur c : items_of bs (cur ++ [c]) = items_of bs cur ++ [Lit c].
Proof. unfold items_of. rewrite map_app, app_assoc. reflexivity. Qed.
Lemma items_ref bs cur v : items_of (bs ++ [(cur, v)]) [] = items_of bs cur ++ [Ref v].
Proof. unfold items_of. rewrite flat_map_app. cbn. rewrite !app_nil_r, app_assoc. reflexivity. Qed.

Lemma is_digit_eq c : is_digit c = isdigit c.
Proof. reflexivity. Qed.
Lemma digit_scode c : is_digit c = true -> scode c = Z.of_N (code c) /\ (48 <= code c <= 57)%N.
Proof. intros D. pose proof (proj1 (isdigit_code c) D) as H. split; [|exact H]. unfold scode. replace (Z.of_N (code c) <? 128)%Z with true by lia. reflexivity. Qed.
Lemma isdigit_int_digit c : is_digit c = true -> isdigit_int c = Ok true.
Proof. intros D. unfold isdigit_int. destruct (digit_scode _ D) as [_ B]. replace (code c <? 128)%N with true by lia. rewrite <- is_digit_eq, D. reflexivity. Qed.
Lemma isdigit_int_other c : is_digit c = false -> (code c < 128)%N -> isdigit_int c = Ok false.
Proof. intros D B. unfold isdigit_int. replace (code c <? 128)%N with true by lia. rewrite <- is_digit_eq, D. reflexivity. Qed.

Lemma number_mono ds : forall v, (v <= fold_left (fun v c => v * 10 + (code c - 48)) ds v)%N.
Proof. induction ds as [|d ds IH]; intros v; cbn [fold_left]; [lia|]. pose proof (IH (v * 10 + (code d - 48))%N). lia. Qed.

Lemma digits_spec ds : forall f a b s v, forallb is_digit ds = true -> ~ starts_with (fun c => is_digit c = true) s ->
  (forall c r, s = c :: r -> (code c < 128)%N) -> length ds < f ->
  (fold_left (fun v c => v * 10 + (code c - 48)) ds v <= 32)%N ->
  digits_loop f (a ++ b :: ds ++ s) (length a) (Z.of_N v) = Ok (length a + S (length ds), Z.of_N (fold_left (fun v c => v * 10 + (code c - 48))%N ds v)).
Proof.
  induction ds as [|d ds IH]; intros f a b s v D N A F B; destruct f as [|f]; try (cbn in F; lia); cbn [digits_loop app];
    replace (length a <? length _) with true by (rewrite app_length; cbn [length]; lia).
  - assert (E : exists c, chr (a ++ b :: s) (S (length a)) = Ok c /\ isdigit_int c = Ok false).
    { replace (a ++ b :: s) with ((a ++ [b]) ++ s) by (rewrite <- app_assoc; reflexivity).
      replace (S (length a)) with (length (a ++ [b])) by (rewrite app_length; cbn; lia).
      destruct s as [|c r].
      - exists NUL. rewrite app_nil_r. split; [apply chr_end|reflexivity].
      - rewrite chr_app_mid. exists c. split; [reflexivity|]. apply isdigit_int_other; [|eapply A; reflexivity].
        destruct (is_digit c) eqn:Q; [|reflexivity]. exfalso. apply N. exact Q. }
    destruct E as [c [-> E]]. cbn [bind]. rewrite E. cbn [bind]. rewrite Nat.add_1_r. reflexivity.
  - cbn [forallb] in D. apply andb_true_iff in D. destruct D as [D1 D2]. cbn [fold_left] in B |- *.
    replace (a ++ b :: d :: ds ++ s) with ((a ++ [b]) ++ d :: ds ++ s) by (rewrite <- app_assoc; reflexivity).
    replace (S (length a)) with (length (a ++ [b])) by (rewrite app_length; cbn; lia).
    rewrite chr_app_mid. cbn [bind]. rewrite (isdigit_int_digit _ D1). cbn [bind]. destruct (digit_scode _ D1) as [-> R].
    pose proof (number_mono ds (v * 10 + (code d - 48))) as M.
    replace (Z.of_N v * 10 + Z.of_N (code d) <=? INT_MAX)%Z with true by (unfold INT_MAX; lia).
    replace (Z.of_N v * 10 + Z.of_N (code d) - 48)%Z with (Z.of_N (v * 10 + (code d - 48))) by lia.
    rewrite IH; [|exact D2|exact N|exact A|cbn [length] in F; lia|exact B].
    rewrite app_length. cbn [length]. f_equal. f_equal. lia.
Qed.

Section Loop.
  Variable cc : N.
  Notation captures := (Z.of_N cc).
  (** the state of the loop at a boundary between items *)
  Definition at_item (st : rstate) (size pos : nat) (bs : blocks) (cur : list byte) : Prop :=
    compiled (sub st) size bs cur /\ sourcepos st = pos /\ refnum st = length bs /\ textpos st = length (flat bs ++ cur).

  Lemma put_item st size pos bs cur c skip : at_item st size pos bs cur -> S (length (flat bs ++ cur)) < size ->
    exists st', put_char st c skip = Ok st' /\ at_item st' size (pos + skip) bs (cur ++ [c]) /\ quoted st' = false.
  Proof.
    intros [C [P [R T]]] L. unfold put_char. destruct (compiled_put c C L) as [t [E C']]. rewrite T, E. cbn [bind].
    eexists. split; [reflexivity|]. split; [|reflexivity]. unfold at_item. cbn. rewrite P, R. split; [exact C'|]. split; [reflexivity|]. split; [reflexivity|].
    rewrite !app_length. cbn. lia.
  Qed.

  (** the start of a reference: block_length[refnum] *)
  Lemma start_ref st size pos bs cur : at_item st size pos bs cur ->
    exists off lens, aget (block_offset (sub st)) (refnum st) = Ok off /\ aset (block_length (sub st)) (refnum st) (textpos st - off) = Ok lens /\
      at_item (mkR (textpos st) (quoted st) (sourcepos st) (refnum st)
                 (mkSub (text (sub st)) (backrefs (sub st)) (block_offset (sub st)) lens (backref (sub st)) (backref_count (sub st))) (badref st)) size pos bs cur /\
      aget lens (length bs) = Ok (length cur).
  Proof.
    intros [C [P [R T]]]. destruct (compiled_len (textpos st - length (flat bs)) C) as [lens [E [C' G]]].
    exists (length (flat bs)), lens. rewrite R, (compiled_offset C). split; [reflexivity|]. split; [exact E|].
    split; [unfold at_item; cbn; auto|]. rewrite G, T, app_length. f_equal. lia.
  Qed.

  Lemma end_ref st size pos bs cur v pos' bad : at_item st size pos bs cur -> length bs < 32 -> (v <= 32)%N ->
    aget (block_length (sub st)) (length bs) = Ok (length cur) ->
    exists st', end_reference st pos' (Z.of_N v) bad = Ok st' /\ at_item st' size pos' (bs ++ [(cur, v)]) [] /\ quoted st' = quoted st.
  Proof.
    intros [C [P [R T]]] L V G. unfold end_reference. destruct (compiled_ref C L V G) as [refs [n [counts [offs [E1 [E2 [E3 [E4 C']]]]]]]].
    rewrite R, E1. cbn [bind]. replace (Z.of_N v <? Z.of_nat (MAX_SUBMATCHES + 2))%Z with true by (unfold MAX_SUBMATCHES; lia).
    replace (Z.to_nat (Z.of_N v)) with (N.to_nat v) by lia. rewrite E2. cbn [bind]. rewrite E3. cbn [bind]. rewrite T, E4. cbn [bind]. eexists. split; [reflexivity|].
    split; [|reflexivity]. unfold at_item. cbn. split; [exact C'|]. split; [reflexivity|]. split; [rewrite app_length; cbn; lia|].
    rewrite flat_snoc, app_nil_r. reflexivity.
  Qed.

  Lemma beq_neq (a b : byte) : a <> b -> beq a b = false.
  Proof. intros E. destruct (beq_spec a b); congruence. Qed.
  Lemma chr_next pre c s : chr (pre ++ c :: s) (length pre + 1) = Ok (hd NUL s).
  Proof.
    replace (pre ++ c :: s) with ((pre ++ [c]) ++ s) by (rewrite <- app_assoc; reflexivity).
    replace (length pre + 1) with (length (pre ++ [c])) by (rewrite app_length; reflexivity).
    destruct s as [|d s]; [rewrite app_nil_r; apply chr_end|]. apply chr_app_mid.
  Qed.
  Lemma member_In c s : member c s = true <-> In c s.
  Proof.
    unfold member. rewrite existsb_exists. split; [intros [x [I E]]|intros I; exists c; split; [exact I|]].
    - destruct (beq_spec c x); congruence.
    - destruct (beq_spec c c); congruence.
  Qed.
  Lemma member_not c s : ~ In c s -> member c s = false.
  Proof. intros H. destruct (member c s) eqn:E; [|reflexivity]. apply member_In in E. contradiction. Qed.

  Ltac here P := cbn [replacement_loop]; rewrite P; replace (length _ <? length _) with true by (symmetry; apply Nat.ltb_lt; rewrite app_length; cbn [length]; lia);
    rewrite chr_app_mid, chr_next; cbn [bind hd].

  (** a character copied because of a preceding backslash *)
  Lemma loop_quoted f pre c s st size bs cur : at_item st size (length pre) bs cur -> quoted st = true -> S (length (flat bs ++ cur)) < size ->
    exists st', replacement_loop (S f) (pre ++ c :: s) captures st = replacement_loop f (pre ++ c :: s) captures st' /\
      at_item st' size (length pre + 1) bs (cur ++ [c]) /\ quoted st' = false.
  Proof.
    intros A Q L. destruct (@put_item st size (length pre) bs cur c 1 A L) as [st' [E [A' Q']]].
    pose proof A as [_ [P _]]. exists st'. split; [|auto]. here P. rewrite Q, E. cbn [bind negb andb]. rewrite andb_false_r. cbn [andb].
    destruct (beq c "\" && _); reflexivity.
  Qed.
  (** a character that starts nothing *)
  Lemma loop_plain f pre c s st size bs cur : at_item st size (length pre) bs cur -> quoted st = false -> S (length (flat bs ++ cur)) < size ->
    c <> BSLASH -> c <> DOLLAR ->
    exists st', replacement_loop (S f) (pre ++ c :: s) captures st = replacement_loop f (pre ++ c :: s) captures st' /\
      at_item st' size (length pre + 1) bs (cur ++ [c]) /\ quoted st' = false.
  Proof.
    intros A Q L N1 N2. destruct (@put_item st size (length pre) bs cur c 1 A L) as [st' [E [A' Q']]].
    pose proof A as [_ [P _]]. exists st'. split; [|auto]. here P. rewrite (beq_neq N1 : beq c "\" = false), (beq_neq N2 : beq c "$" = false), E. reflexivity.
  Qed.
  Lemma loop_dollar f pre s st size bs cur : at_item st size (length pre) bs cur -> quoted st = false -> S (length (flat bs ++ cur)) < size ->
    ~ starts_with (fun c => is_digit c = true \/ In c (lit "&+`'")) s -> (forall c r, s = c :: r -> (code c < 128)%N) ->
    exists st', replacement_loop (S f) (pre ++ DOLLAR :: s) captures st = replacement_loop f (pre ++ DOLLAR :: s) captures st' /\
      at_item st' size (length pre + 1) bs (cur ++ [DOLLAR]) /\ quoted st' = false.
  Proof.
    intros A Q L N B. destruct s as [|c s].
    - destruct (@put_item st size (length pre) bs cur DOLLAR 1 A L) as [st' [E [A' Q']]].
      pose proof A as [_ [P _]]. exists st'. split; [|auto]. here P. rewrite E.
      replace (length pre <? _) with false by (symmetry; apply Nat.ltb_ge; rewrite app_length; cbn [length]; lia).
      replace (beq DOLLAR "\") with false by reflexivity. cbn [andb orb]. rewrite Q, andb_false_r. reflexivity.
    - destruct (start_ref A) as [off [lens [E1 [E2 [A2 G]]]]].
      destruct (@put_item _ size (length pre) bs cur DOLLAR 1 A2 L) as [st' [E [A' Q']]].
      pose proof A as [_ [P _]]. exists st'. split; [|auto]. here P.
      replace (length pre <? _ - 1) with true by (symmetry; apply Nat.ltb_lt; rewrite app_length; cbn [length]; lia).
      replace (beq DOLLAR "\") with false by reflexivity. replace (beq DOLLAR "$") with true by reflexivity. rewrite Q. cbn [andb orb negb].
      rewrite E1. cbn [bind]. rewrite E2. cbn [bind].
      rewrite isdigit_int_other; [|destruct (is_digit c) eqn:D; [exfalso; apply N; left; exact D|reflexivity]|eapply B; reflexivity]. cbn [bind].
      rewrite member_not.
      + rewrite Q, P in E. rewrite E. reflexivity.
      + intros I. apply N. right. cbn in I |- *. tauto.
  Qed.
  (** a reference *)
  Lemma loop_symbol f pre c s st size bs cur v : at_item st size (length pre) bs cur -> quoted st = false ->
    (c = "&"%char /\ v = 0%N \/ c = "+"%char /\ v = cc) -> length bs < 32 -> (v <= 32)%N ->
    exists st', replacement_loop (S f) (pre ++ DOLLAR :: c :: s) captures st = replacement_loop f (pre ++ DOLLAR :: c :: s) captures st' /\
      at_item st' size (length pre + 2) (bs ++ [(cur, v)]) [] /\ quoted st' = false.
  Proof.
    intros A Q V L B. destruct (start_ref A) as [off [lens [E1 [E2 [A2 G]]]]].
    destruct (@end_ref _ size (length pre) bs cur v (length pre + 2) (badref st) A2 L B G) as [st' [E [A' Q']]].
    cbn [quoted] in Q'. rewrite Q in Q'.
    pose proof A as [_ [P _]]. exists st'. split; [|auto]. here P.
    replace (length pre <? _ - 1) with true by (symmetry; apply Nat.ltb_lt; rewrite app_length; cbn [length]; lia).
    replace (beq DOLLAR "\") with false by reflexivity. replace (beq DOLLAR "$") with true by reflexivity. rewrite Q. cbn [andb orb negb].
    rewrite E1. cbn [bind]. rewrite E2. cbn [bind]. rewrite P, Q in E. 
    destruct V as [[-> ->]|[-> ->]]; cbn [isdigit_int bind]; rewrite isdigit_int_other by reflexivity; cbn [bind];
      match goal with |- context [member ?x ?y] => replace (member x y) with true by reflexivity end; cbn [sourcepos badref textpos quoted refnum sub].
    - replace (beq "&" "+") with false by reflexivity. replace (beq "&" "&") with true by reflexivity.
      cbn [Z.of_N] in E. rewrite E. reflexivity.
    - replace (beq "+" "+") with true by reflexivity. rewrite E. reflexivity.
  Qed.
  Lemma loop_number f pre b d ds s st size bs cur : at_item st size (length pre) bs cur -> quoted st = false ->
    b = DOLLAR \/ (b = BSLASH /\ d <> "0"%char) -> is_digit d = true -> forallb is_digit ds = true ->
    ~ starts_with (fun c => is_digit c = true) s -> (forall c r, s = c :: r -> (code c < 128)%N) ->
    length bs < 32 -> (number (d :: ds) <= 32)%N ->
    exists st', replacement_loop (S f) (pre ++ b :: d :: ds ++ s) captures st = replacement_loop f (pre ++ b :: d :: ds ++ s) captures st' /\
      at_item st' size (length pre + (2 + length ds)) (bs ++ [(cur, number (d :: ds))]) [] /\ quoted st' = false.
  Proof.
    intros A Q V D DS NS B L M. destruct (start_ref A) as [off [lens [E1 [E2 [A2 G]]]]].
    destruct (@end_ref _ size (length pre) bs cur (number (d :: ds)) (length pre + (2 + length ds)) (badref st || (captures <? Z.of_N (number (d :: ds))))%Z A2 L M G) as [st' [E [A' Q']]].
    cbn [quoted] in Q'. rewrite Q in Q'.
    pose proof A as [_ [P [R _]]]. exists st'. split; [|auto]. here P.
    replace (length pre <? _ - 1) with true by (symmetry; apply Nat.ltb_lt; rewrite app_length; cbn [length]; lia).
    assert (D0 : d <> NUL) by (intros ->; discriminate).
    replace (beq b "\" && (beq d NUL || negb (member d B_ref))) with false.
    2:{ symmetry. destruct V as [-> | [-> V]]; [reflexivity|]. rewrite (beq_neq D0). cbn [orb andb].
        replace (member d B_ref) with true; [reflexivity|]. symmetry. apply member_In.
        clear - D V. destruct d as [[] [] [] [] [] [] [] []]; try discriminate D; try (exfalso; apply V; reflexivity); cbn; tauto. }
    replace (beq b "\" || beq b "$") with true by (destruct V as [-> | [-> _]]; reflexivity). rewrite Q. cbn [andb orb negb].
    rewrite E1. cbn [bind]. rewrite E2. cbn [bind]. rewrite P, Q in E.
    rewrite (isdigit_int_digit _ D). cbn [bind].
    assert (R0 : aget (backref (sub st)) (refnum st) = Ok 0%Z).
    { rewrite R. destruct A as [[_ [_ [_ [_ [_ [_ [C7 _]]]]]]] _]. rewrite C7, (@repeat_cons_S _ _ (33 - length bs)) by lia.
      rewrite <- (map_length (fun b0 : list byte * N => Some (Z.of_N (snd b0))) bs) at 2. apply aget_at. }
    cbn [refnum sourcepos]. rewrite R0. cbn [bind].
    change (0%Z) with (Z.of_N 0). change (d :: ds ++ s) with ((d :: ds) ++ s).
    rewrite digits_spec; [|cbn [forallb]; rewrite D, DS; reflexivity|exact NS|exact B|rewrite app_length; cbn [length app]; rewrite app_length; lia|exact M].
    cbn [bind badref]. fold (number (d :: ds)). replace (length pre + S (length (d :: ds))) with (length pre + (2 + length ds)) by (cbn [length]; lia).
    rewrite E. reflexivity.
  Qed.

  Lemma refs_ascii_tail a s : refs_ascii (a ++ s) -> refs_ascii s.
  Proof. intros R a' b ds c r E. apply (R (a ++ a') b ds c r). rewrite E, <- app_assoc. reflexivity. Qed.
  Lemma refs_ascii_cons c s : refs_ascii (c :: s) -> refs_ascii s.
  Proof. apply (@refs_ascii_tail [c]). Qed.
  Lemma cstr_tail c s : is_cstr (c :: s) -> is_cstr s /\ c <> NUL.
  Proof. unfold is_cstr. cbn. intuition congruence. Qed.
  Lemma cstr_tails a s : is_cstr (a ++ s) -> is_cstr s.
  Proof. unfold is_cstr. rewrite in_app_iff. tauto. Qed.

  Lemma loop_spec s l : denotes cc s l -> forall f pre size bs cur st, is_cstr s -> Forall plain_item l -> length bs + nrefs l <= 32 ->
    refs_ascii s -> at_item st size (length pre) bs cur -> quoted st = false -> length (flat bs ++ cur) <= length pre ->
    size = S (length pre + length s) -> length s < f ->
    exists st' bs' cur', replacement_loop f (pre ++ s) captures st = Ok st' /\ at_item st' size (length (pre ++ s)) bs' cur' /\
      items_of bs' cur' = items_of bs cur ++ l.
  Proof.
    intros D. induction D as [|c s l N1 N2 D IH|c x s l IC D IH|c s l N1 N2 D IH| |b d ds s l V DG DS NS D IH|s l D IH|s l D IH|s l D IH|s l D IH|s l NS D IH];
      intros f pre size bs cur st CS PL RL RA A Q TL SZ F; (destruct f as [|f]; [cbn in F; lia|]).
    - exists st, bs, cur. rewrite !app_nil_r. split; [|auto]. cbn [replacement_loop]. destruct A as [_ [P _]]. rewrite P.
      replace (length pre <? length pre) with false by (symmetry; apply Nat.ltb_ge; lia). reflexivity.
    - inversion PL as [|? ? PI PL']; subst. cbn [length] in *.
      destruct (@loop_plain f pre c s st _ bs cur A Q) as [st1 [E [A1 Q1]]]; [lia|exact N1|exact N2|]. rewrite E.
      replace (pre ++ c :: s) with ((pre ++ [c]) ++ s) by (rewrite <- app_assoc; reflexivity).
      destruct (IH f (pre ++ [c]) (S (length pre + S (length s))) bs (cur ++ [c]) st1) as [st2 [bs' [cur' [E2 [A2 I2]]]]]; auto.
      { apply (cstr_tail CS). } { exact (refs_ascii_cons RA). } { rewrite app_length. exact A1. }
      { rewrite !app_length in *. cbn [length]. lia. } { rewrite app_length. cbn [length]. lia. } { lia. }
      exists st2, bs', cur'. split; [exact E2|]. split; [exact A2|]. rewrite I2, items_lit, <- app_assoc. reflexivity.
    - inversion PL as [|? ? PI PL']; subst. cbn [length plain_item] in *.
      assert (E : exists st1, replacement_loop (S f) (pre ++ BSLASH :: c :: s) captures st = replacement_loop f (pre ++ BSLASH :: c :: s) captures st1 /\
        at_item st1 (S (length pre + S (S (length s)))) (length pre + 2) bs (cur ++ [x]) /\ quoted st1 = false).
      { destruct (@put_item st _ (length pre) bs cur x 2 A) as [st1 [E1 [A1 Q1]]]; [lia|]. exists st1. split; [|auto].
        pose proof A as [_ [P _]]. here P. cbn in IC. rewrite Q.
        repeat (destruct IC as [IC|IC]; [injection IC as <- <-; first [ exfalso; apply PI; reflexivity | cbn in E1 |- *; rewrite E1; reflexivity ]|]). contradiction. }
      destruct E as [st1 [E [A1 Q1]]]. rewrite E.
      replace (pre ++ BSLASH :: c :: s) with ((pre ++ [BSLASH; c]) ++ s) by (rewrite <- app_assoc; reflexivity).
      destruct (IH f (pre ++ [BSLASH; c]) (S (length pre + S (S (length s)))) bs (cur ++ [x]) st1) as [st2 [bs' [cur' [E2 [A2 I2]]]]]; auto.
      { apply (@cstr_tails [BSLASH; c] s CS). } { exact (@refs_ascii_tail [BSLASH; c] s RA). } { rewrite app_length. exact A1. }
      { rewrite !app_length in *. cbn [length]. lia. } { rewrite app_length. cbn [length]. lia. } { lia. }
      exists st2, bs', cur'. split; [exact E2|]. split; [exact A2|]. rewrite I2, items_lit, <- app_assoc. reflexivity.
    - inversion PL as [|? ? PI PL']; subst. cbn [length plain_item] in *.
      assert (E : replacement_loop (S f) (pre ++ BSLASH :: c :: s) captures st = replacement_loop f (pre ++ BSLASH :: c :: s) captures
          (mkR (textpos st) true (S (length pre)) (refnum st) (sub st) (badref st))).
      { pose proof A as [_ [P _]]. here P. replace (beq BSLASH "\") with true by reflexivity. cbn [andb].
        assert (CN : c <> NUL) by (destruct (cstr_tail CS) as [CS' _]; apply (cstr_tail CS')).
        rewrite (beq_neq CN), (member_not c B_ref N2), Q. cbn [orb negb andb].
        rewrite member_not; [reflexivity|]. intros I. apply N1. cbn in I |- *. tauto. }
      rewrite E. destruct f as [|f]; [lia|].
      replace (pre ++ BSLASH :: c :: s) with ((pre ++ [BSLASH]) ++ c :: s) by (rewrite <- app_assoc; reflexivity).
      destruct (@loop_quoted f (pre ++ [BSLASH]) c s (mkR (textpos st) true (S (length pre)) (refnum st) (sub st) (badref st)) (S (length pre + S (S (length s)))) bs cur) as [st1 [E1 [A1 Q1]]].
      { destruct A as [C [P [R T]]]. unfold at_item. cbn. rewrite app_length. cbn [length]. split; [exact C|]. split; [lia|]. auto. } { reflexivity. } { lia. }
      rewrite E1. replace ((pre ++ [BSLASH]) ++ c :: s) with ((pre ++ [BSLASH; c]) ++ s) by (rewrite <- !app_assoc; reflexivity).
      destruct (IH f (pre ++ [BSLASH; c]) (S (length pre + S (S (length s)))) bs (cur ++ [c]) st1) as [st2 [bs' [cur' [E2 [A2 I2]]]]]; auto.
      { apply (@cstr_tails [BSLASH; c] s CS). } { exact (@refs_ascii_tail [BSLASH; c] s RA). }
      { replace (length (pre ++ [BSLASH; c])) with (length (pre ++ [BSLASH]) + 1) by (rewrite !app_length; cbn [length]; lia). exact A1. }
      { rewrite !app_length in *. cbn [length]. lia. } { rewrite app_length. cbn [length]. lia. } { lia. }
      exists st2, bs', cur'. split; [exact E2|]. split; [exact A2|]. rewrite I2, items_lit, <- app_assoc. reflexivity.
    - (* a backslash at the end *)
      pose proof A as [C [P [R T]]]. here P. rewrite Q. replace (beq BSLASH "\") with true by reflexivity. replace (beq NUL NUL) with true by reflexivity. cbn [andb orb negb].
      cbn [length] in F. destruct f as [|f]; [lia|]. cbn [replacement_loop sourcepos].
      replace (S (length pre) <? length (pre ++ [BSLASH])) with false by (symmetry; apply Nat.ltb_ge; rewrite app_length; cbn [length]; lia).
      eexists _, bs, cur. split; [reflexivity|]. rewrite app_nil_r. split; [|reflexivity]. unfold at_item. cbn. rewrite app_length. cbn [length]. split; [exact C|]. split; [lia|]. auto.
    - inversion PL as [|? ? PI PL']; subst. cbn [plain_item] in PI.
      assert (LS : length (b :: d :: ds ++ s) = S (S (length ds + length s))) by (cbn [length]; rewrite app_length; reflexivity). rewrite LS in *.
      unfold nrefs in RL. cbn [filter length] in RL. fold (nrefs l) in RL.
      destruct (@loop_number f pre b d ds s st _ bs cur A Q V DG DS NS) as [st1 [E [A1 Q1]]].
      { intros c r ->. apply (RA [] b (d :: ds) c r); [reflexivity| |cbn [forallb]; rewrite DG, DS; reflexivity].
        destruct V as [V|[V _]]; [left; exact V|right; split; [exact V|discriminate]]. } { lia. } { exact PI. }
      rewrite E. replace (pre ++ b :: d :: ds ++ s) with ((pre ++ b :: d :: ds) ++ s) by (rewrite <- app_assoc; reflexivity).
      destruct (IH f (pre ++ b :: d :: ds) (S (length pre + S (S (length ds + length s)))) (bs ++ [(cur, number (d :: ds))]) [] st1) as [st2 [bs' [cur' [E2 [A2 I2]]]]]; auto.
      { apply (@cstr_tails (b :: d :: ds) s CS). } { rewrite app_length. cbn [length]. lia. } { exact (@refs_ascii_tail (b :: d :: ds) s RA). }
      { rewrite app_length. exact A1. }
      { rewrite flat_snoc, app_nil_r. rewrite !app_length in *. cbn [length]. lia. } { rewrite app_length. cbn [length]. lia. } { lia. }
      exists st2, bs', cur'. split; [exact E2|]. split; [exact A2|]. rewrite I2, items_ref, <- app_assoc. reflexivity.
    - inversion PL as [|? ? PI PL']; subst. cbn [length plain_item] in *. unfold nrefs in RL. cbn [filter length] in RL. fold (nrefs l) in RL.
      destruct (@loop_symbol f pre "&"%char s st _ bs cur 0%N A Q) as [st1 [E [A1 Q1]]]; [left; auto|lia|lia|].
      rewrite E. replace (pre ++ DOLLAR :: "&"%char :: s) with ((pre ++ [DOLLAR; "&"%char]) ++ s) by (rewrite <- app_assoc; reflexivity).
      destruct (IH f (pre ++ [DOLLAR; "&"%char]) (S (length pre + S (S (length s)))) (bs ++ [(cur, 0%N)]) [] st1) as [st2 [bs' [cur' [E2 [A2 I2]]]]]; auto.
      { apply (@cstr_tails [DOLLAR; "&"%char] s CS). } { rewrite app_length. cbn [length]. lia. } { exact (@refs_ascii_tail [DOLLAR; "&"%char] s RA). }
      { rewrite app_length. exact A1. }
      { rewrite flat_snoc, app_nil_r. rewrite !app_length in *. cbn [length]. lia. } { rewrite app_length. cbn [length]. lia. } { lia. }
      exists st2, bs', cur'. split; [exact E2|]. split; [exact A2|]. rewrite I2, items_ref, <- app_assoc. reflexivity.
    - inversion PL as [|? ? PI PL']; subst. cbn [length plain_item] in *. unfold nrefs in RL. cbn [filter length] in RL. fold (nrefs l) in RL.
      destruct (@loop_symbol f pre "+"%char s st _ bs cur cc A Q) as [st1 [E [A1 Q1]]]; [right; auto|lia|lia|].
      rewrite E. replace (pre ++ DOLLAR :: "+"%char :: s) with ((pre ++ [DOLLAR; "+"%char]) ++ s) by (rewrite <- app_assoc; reflexivity).
      destruct (IH f (pre ++ [DOLLAR; "+"%char]) (S (length pre + S (S (length s)))) (bs ++ [(cur, cc)]) [] st1) as [st2 [bs' [cur' [E2 [A2 I2]]]]]; auto.
      { apply (@cstr_tails [DOLLAR; "+"%char] s CS). } { rewrite app_length. cbn [length]. lia. } { exact (@refs_ascii_tail [DOLLAR; "+"%char] s RA). }
      { rewrite app_length. exact A1. }
      { rewrite flat_snoc, app_nil_r. rewrite !app_length in *. cbn [length]. lia. } { rewrite app_length. cbn [length]. lia. } { lia. }
      exists st2, bs', cur'. split; [exact E2|]. split; [exact A2|]. rewrite I2, items_ref, <- app_assoc. reflexivity.
    - inversion PL as [|? ? PI PL']; subst. destruct PI.
    - inversion PL as [|? ? PI PL']; subst. destruct PI.
    - inversion PL as [|? ? PI PL']; subst. cbn [length] in *.
      destruct (@loop_dollar f pre s st _ bs cur A Q) as [st1 [E [A1 Q1]]]; [lia|exact NS| |].
      { intros c r ->. apply (RA [] DOLLAR [] c r); auto. } rewrite E.
      replace (pre ++ DOLLAR :: s) with ((pre ++ [DOLLAR]) ++ s) by (rewrite <- app_assoc; reflexivity).
      destruct (IH f (pre ++ [DOLLAR]) (S (length pre + S (length s))) bs (cur ++ [DOLLAR]) st1) as [st2 [bs' [cur' [E2 [A2 I2]]]]]; auto.
      { apply (cstr_tail CS). } { exact (refs_ascii_cons RA). } { rewrite app_length. exact A1. }
      { rewrite !app_length in *. cbn [length]. lia. } { rewrite app_length. cbn [length]. lia. } { lia. }
      exists st2, bs', cur'. split; [exact E2|]. split; [exact A2|]. rewrite I2, items_lit, <- app_assoc. reflexivity.
  Qed.
End Loop.
