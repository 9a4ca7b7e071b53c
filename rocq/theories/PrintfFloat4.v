(** Proofs about libcompat/snprintf.c: the floating point conversions. *)
From Coq Require Import QArith Qabs Lqa.
From Verif Require Import Prelude PreludeFacts Str StrFacts Libc LibcFacts PrintfModel PrintfSpec PrintfProofs PrintfProofs2 PrintfProofs3 PrintfFloat PrintfFloat2 PrintfFloat3.
Local Close Scope Q_scope.
Set Implicit Arguments.

Lemma rounds_bound x p n : (0 <= x)%Q -> (x < inject_Z (2 ^ 64 - 1))%Q -> rounds (x * 10 ^ Z.of_nat p)%Q n -> (0 <= n)%Z /\ (n / 10 ^ Z.of_nat p < 2 ^ 64)%Z.
Proof.
  intros P L R. assert (MP : (1 <= 10 ^ Z.of_nat p)%Z) by (pose proof (Z.pow_pos_nonneg 10 (Z.of_nat p)); lia).
  apply (@rounds_eq _ (x * inject_Z (10 ^ Z.of_nat p))%Q) in R; [|rewrite pow_Z; reflexivity]. set (M := (10 ^ Z.of_nat p)%Z) in *. clearbody M. destruct R as [A B].
  assert (MQ : (1 <= inject_Z M)%Q) by (change 1%Q with (inject_Z 1); rewrite <- Zle_Qle; lia).
  assert (V0 : (0 <= x * inject_Z M)%Q) by (apply Qmult_le_0_compat; lra).
  assert (V1 : (x * inject_Z M < inject_Z ((2 ^ 64 - 1) * M))%Q) by (rewrite inject_Z_mult; apply Qmult_lt_r; lra).
  split.
  - assert (X : (inject_Z (-1) < inject_Z n)%Q) by (change (inject_Z (-1)) with (-1)%Q; lra). rewrite <- Zlt_Qlt in X. lia.
  - assert (X : (inject_Z n < inject_Z ((2 ^ 64 - 1) * M + 1))%Q) by (rewrite inject_Z_plus; change (inject_Z 1) with 1%Q; lra). rewrite <- Zlt_Qlt in X.
    apply Z.div_lt_upper_bound; nia.
Qed.

Section P.
Variable m0 : cells byte.
Variable size : nat.
Hypothesis SZ : size <= length m0.
Local Notation W := (W m0 size).

Definition style_of (c : conv) : fstyle := match c with Ce | CE => STYLE_E | Cg | CG => STYLE_G | _ => STYLE_F end.
Lemma float_case_of c : is_float c = true -> float_case (render_conv c) = Some (style_of c, is_upper c).
Proof. destruct c; intros E; try discriminate E; reflexivity. Qed.
Lemma float_case_none c : is_float c = false -> float_case (render_conv c) = None.
Proof. destruct c; intros E; try discriminate E; reflexivity. Qed.

Definition sign_char (fl : pflags) (neg : bool) : option byte := if neg then Some "-"%char else if F_PLUS fl then Some "+"%char else if F_SPACE fl then Some " "%char else None.
(** the precision fmtflt starts with *)
Definition start_precision (c : conv) (p : option nat) : nat := match style_of c with STYLE_G => g_precision p | _ => float_precision p end.

Lemma fmtflt_spec c q w fl f prec t txt : is_float c = true -> (0 <= w)%Z ->
  F_NUM fl = f_alt f -> F_UP fl = is_upper c ->
  (if (prec =? -1)%Z then 6%Z else prec) = Z.of_nat (start_precision c (f_prec f)) ->
  supported_float c (f_prec f) (Qabs q) -> float_text c f (Qabs q) txt ->
  fmtflt size (W t) (Finite q) w prec fl (style_of c) =
  Ok (Some (W (t ++ pad (if F_MINUS fl then Left else if F_ZERO fl then Zeros else Right) (Z.to_nat w) (opt_text (sign_char fl (Qltb q 0))) txt))).
Proof.
  intros IF WD FN FU PR SUP TX. unfold fmtflt. rewrite PR. cbv zeta. fold (sign_char fl (Qltb q 0)).
  set (sg := sign_char fl (Qltb q 0)) in *. clearbody sg. unfold start_precision in *. clear PR prec.
  pose proof (Qabs_nonneg q) as X0.
  assert (OF : forall omit X n p tt, p <= 19 -> (Qabs q < inject_Z (2 ^ 64 - 1))%Q -> rounds (Qabs q * 10 ^ Z.of_nat p)%Q n -> decimal p (f_alt f) omit n tt ->
     float_out size (W t) sg w fl false omit (Z.of_nat p) (n / 10 ^ Z.of_nat p)%Z (n mod 10 ^ Z.of_nat p)%Z X =
     Ok (W (t ++ pad (if F_MINUS fl then Left else if F_ZERO fl then Zeros else Right) (Z.to_nat w) (opt_text sg) tt))).
  { intros omit X n p tt LP LX RN DT. destruct (rounds_bound _ X0 LX RN) as [B1 B2].
    rewrite (@float_out_spec m0 size SZ sg w fl false omit p n X [] t tt); auto; [now rewrite app_nil_r|]. rewrite FN. exact DT. }
  assert (OE : forall omit X n p tt es, p <= 19 -> (-99 <= X <= 99)%Z -> (0 <= n < 10 ^ Z.of_nat (p + 1))%Z -> decimal p (f_alt f) omit n tt -> exponent_text (is_upper c) X es ->
     float_out size (W t) sg w fl true omit (Z.of_nat p) (n / 10 ^ Z.of_nat p)%Z (n mod 10 ^ Z.of_nat p)%Z X =
     Ok (W (t ++ pad (if F_MINUS fl then Left else if F_ZERO fl then Zeros else Right) (Z.to_nat w) (opt_text sg) (tt ++ es)))).
  { intros omit X n p tt es LP LX NB DT ET.
    assert (MS : (10 ^ Z.of_nat (p + 1) = 10 ^ Z.of_nat p * 10)%Z) by (rewrite Nat.add_1_r, Nat2Z.inj_succ, Z.pow_succ_r by lia; lia).
    assert (MP : (0 < 10 ^ Z.of_nat p)%Z) by (apply Z.pow_pos_nonneg; lia).
    assert (B2 : (n / 10 ^ Z.of_nat p < 10)%Z) by (apply Z.div_lt_upper_bound; lia).
    rewrite (@float_out_spec m0 size SZ sg w fl true omit p n X es t tt); auto; try lia; rewrite ?FU, ?FN; auto. }
  assert (EE : style_of c = STYLE_E -> exists up, up = is_upper c /\ scientific_text (Qabs q) (float_precision (f_prec f)) (f_alt f) false up txt /\ float_precision (f_prec f) <= 19 /\ fits_exponent (Qabs q) (float_precision (f_prec f))).
  { destruct c; try discriminate IF; try discriminate; intros _; (eexists; split; [reflexivity|]); cbn [float_text supported_float is_upper] in *; tauto. }
  assert (GG : style_of c = STYLE_G -> general_text (Qabs q) (g_precision (f_prec f)) (f_alt f) (is_upper c) txt /\
      g_precision (f_prec f) <= 20 /\ fits_exponent (Qabs q) (g_precision (f_prec f) - 1) /\
      forall X n, scientific (Qabs q) (g_precision (f_prec f) - 1) X n -> (-4 <= X < Z.of_nat (g_precision (f_prec f)))%Z -> (Z.of_nat (g_precision (f_prec f)) - (X + 1) <= 19)%Z /\ (Qabs q < inject_Z (2 ^ 64 - 1))%Q).
  { destruct c; try discriminate IF; try discriminate; intros _; cbn [float_text supported_float is_upper] in *; tauto. }
  assert (FF : style_of c = STYLE_F -> fixed_text (Qabs q) (float_precision (f_prec f)) (f_alt f) false txt /\ float_precision (f_prec f) <= 19 /\ (Qabs q < inject_Z (2 ^ 64 - 1))%Q).
  { destruct c; try discriminate IF; try discriminate; intros _; cbn [float_text supported_float] in *; tauto. }
  clear SUP TX. destruct (style_of c) eqn:ST; cbn [is_G andb].
  - destruct (FF eq_refl) as ([n tt RN DT] & LP & LX). cbn [bind]. rewrite (@parts_fixed q _ 0 n LP LX RN). cbn [andb]. rewrite (@OF false 0%Z n _ tt LP LX RN DT). reflexivity.
  - destruct (EE eq_refl) as (up & -> & [X n tt es SC DT ET] & LP & [FL FH]). set (p := float_precision (f_prec f)) in *.
    destruct (@scientific_parts q _ X n SC LP FL (FH _ _ SC)) as (E & GE & FP & LX & NB). rewrite GE. cbn [bind]. rewrite FP. cbn [andb].
    rewrite (@OE false X n p tt es LP); auto. split; [exact LX|exact (FH _ _ SC)].
  - destruct (GG eq_refl) as (GT & LP & [FL FH] & FX). set (P := g_precision (f_prec f)) in *.
    assert (P1 : 1 <= P) by (subst P; unfold g_precision; destruct (f_prec f) as [[|k]|]; lia).
    replace (Z.of_nat P - 1)%Z with (Z.of_nat (P - 1)) by lia. rewrite FN.
    assert (TEST : forall X, ((Z.of_nat (P - 1) + 1 >? X)%Z && (X >=? -4)%Z)%bool = true <-> (-4 <= X < Z.of_nat P)%Z).
    { intros X. rewrite andb_true_iff, Z.gtb_ltb, Z.geb_leb, Z.ltb_lt, Z.leb_le. lia. }
    destruct GT as [X n tt SC RX [n' t' RN DT]|X n tt SC RX [X' n' t' es SC' DT ET]].
    + destruct (@scientific_parts q (P - 1) X n SC ltac:(lia) FL (FH _ _ SC)) as (E & GE & FP & LX & NB). rewrite GE. cbn [bind]. rewrite FP.
      rewrite (proj2 (TEST X) RX). destruct (FX _ _ SC RX) as [L19 LV].
      replace (Z.of_nat (P - 1) - X)%Z with (Z.of_nat (Z.to_nat (Z.of_nat P - (X + 1)))) by lia.
      rewrite (@parts_fixed q (Z.to_nat (Z.of_nat P - (X + 1))) X n' ltac:(lia) LV RN). rewrite (@OF (negb (f_alt f)) X n' (Z.to_nat (Z.of_nat P - (X + 1))) t' ltac:(lia) LV RN DT). reflexivity.
    + destruct (scientific_fun SC SC') as [<- <-].
      destruct (@scientific_parts q (P - 1) X n SC ltac:(lia) FL (FH _ _ SC)) as (E & GE & FP & LX & NB). rewrite GE. cbn [bind]. rewrite FP.
      assert (TF : ((Z.of_nat (P - 1) + 1 >? X)%Z && (X >=? -4)%Z)%bool = false).
      { destruct ((Z.of_nat (P - 1) + 1 >? X)%Z && (X >=? -4)%Z)%bool eqn:T; auto. apply TEST in T. contradiction. }
      rewrite TF. rewrite (@OE (negb (f_alt f)) X n (P - 1) t' es ltac:(lia)); auto. split; [exact LX|exact (FH _ _ SC)].
Qed.

Lemma fmtstr_block s w fl t : is_cstr s -> (Z.of_nat (length s) <= INT_MAX)%Z ->
  fmtstr size (W t) (Some (block s)) w (Some (length s)) fl = Ok (W (t ++ pad (if F_MINUS fl then Left else Right) w [] s)).
Proof.
  intros CS LS. unfold block. rewrite map_app. cbn [map].
  pose proof (@fmtstr_spec m0 size SZ s [] w (Some (length s)) fl t CS) as H. cbn [cut] in H. rewrite firstn_all in H. exact (H LS).
Qed.
Lemma float_conversion_spec d a0 a f w fl t st txt a' st1 rest :
  (forall f0 x0 a0', effective d a0 f0 (x0 :: a0') -> f0 = f /\ x0 :: a0' = a) ->
  flags_are fl (f_minus f) (f_plus f) (f_space f) (f_alt f) (f_zero f) -> f_width f = Z.to_nat w -> (0 <= w <= INT_MAX)%Z -> (-1 <= prec_int (f_prec f) <= INT_MAX)%Z ->
  supported d a0 -> effective d a0 f a -> converts d (length t) a0 txt a' st1 -> is_float (dconv d) = true ->
  float_conversion size (mkV (W t) a st PRINT_S_CONV (mod_of (dmod d)) fl w (prec_int (f_prec f)) (render_conv (dconv d) :: rest)) (style_of (dconv d)) (is_upper (dconv d)) =
  Ok (Some (W (t ++ txt), a', st ++ st1)).
Proof.
  intros DET (F1 & F2 & F3 & F4 & F5 & F6 & F7) FW RW RP SUP EFF CV IF.
  assert (NOT : forall (P : Prop), match dconv d with Cf | CF | Ce | CE | Cg | CG => False | _ => True end -> P) by (intros P H; destruct (dconv d); try discriminate IF; contradiction).
  destruct CV as [a1 f1 x z a1' ds CC E1 SA NT|a1 f1 x z a1' ds table b prefix E1 UA CC NT|a1 f1 z a1' CC E1 RZ|a1 f1 m a1' s CC E1 SC LS|a1 f1 a1' CC E1|a1 f1 p a1' ds CC E1 RPT NT|a1 f1 a1' CC E1|a1 f1 a1' n CC E1 EN BN NLD|a1 f1 q a1' ds CC E1 TX|a1 f1 a1' ds CC E1 TX|a1 f1 neg a1' CC E1|a1 f1 a1' CC E1];
    try (apply NOT; destruct CC as [-> | ->]; exact I); try (apply NOT; rewrite CC; exact I); try (apply NOT; destruct (dconv d); try contradiction; exact I);
    destruct (DET _ _ _ E1) as [-> <-]; specialize (SUP _ _ _ E1); rewrite ?app_nil_r;
    try (exfalso; destruct (dconv d); try discriminate IF; exact SUP).
  all: unfold float_conversion; cbn [v_flags v_mod v_args v_prec v_out v_width v_stores].
  2,3: match goal with |- context [va_float _ (AFloat _ ?x :: _)] => assert (VA : va_float (mod_of (dmod d)) (AFloat (is_long (dmod d)) x :: a1') = Ok (x, a1')) by (destruct (dmod d); reflexivity) end;
    rewrite VA; cbn [bind]; clear VA; set (fl' := if is_upper (dconv d) then set_up fl else fl);
    assert (FF : F_MINUS fl' = f_minus f /\ F_UP fl' = is_upper (dconv d) /\ F_PLUS fl' = f_plus f /\ F_SPACE fl' = f_space f)
      by (subst fl'; destruct (is_upper (dconv d)); cbn [set_up F_MINUS F_ZERO F_NUM F_UP F_PLUS F_SPACE]; auto 10);
    destruct FF as (G1 & G4 & G5 & G6); clearbody fl'; unfold fmtflt; cbv zeta; rewrite G4, G5, G6;
    match goal with |- context [fmtstr _ _ (Some (block ?s)) _ _ _] =>
      assert (CS : is_cstr s) by (destruct (is_upper (dconv d)), (f_plus f), (f_space f); try destruct neg; unfold is_cstr, NUL; cbn; intuition discriminate);
      assert (LS : (Z.of_nat (length s) <= INT_MAX)%Z) by (destruct (is_upper (dconv d)), (f_plus f), (f_space f); try destruct neg; vm_compute; discriminate);
      rewrite (@fmtstr_block s (Z.to_nat w) fl' t CS LS)
    end; cbn [bind]; do 6 f_equal; rewrite G1, FW; unfold str_justify, float_sign, sign_text;
    destruct (f_minus f), (is_upper (dconv d)), (f_plus f), (f_space f); try destruct neg; reflexivity.
  assert (SF : supported_float (dconv d) (f_prec f) (Qabs q)) by (destruct (dconv d); try discriminate IF; exact SUP). clear SUP.
  assert (VA : va_float (mod_of (dmod d)) (AFloat (is_long (dmod d)) (Finite q) :: a1') = Ok (Finite q, a1')) by (destruct (dmod d); reflexivity).
  rewrite VA. cbn [bind]. set (fl' := if is_upper (dconv d) then set_up fl else fl).
  assert (FF : F_MINUS fl' = f_minus f /\ F_ZERO fl' = f_zero f /\ F_NUM fl' = f_alt f /\ F_UP fl' = is_upper (dconv d) /\ F_PLUS fl' = f_plus f /\ F_SPACE fl' = f_space f).
  { subst fl'. destruct (is_upper (dconv d)); cbn [set_up F_MINUS F_ZERO F_NUM F_UP F_PLUS F_SPACE]; auto 10. }
  destruct FF as (G1 & G2 & G3 & G4 & G5 & G6).
  rewrite (@fmtflt_spec (dconv d) q w fl' f _ t ds IF); auto; try lia.
  - cbn [bind]. do 6 f_equal. rewrite G1, G2, FW. unfold float_justify. f_equal.
    unfold sign_char, float_sign, sign_text. rewrite G5, G6. destruct (Qltb q 0), (f_plus f), (f_space f); reflexivity.
  - unfold start_precision, g_precision, float_precision. destruct (style_of (dconv d)); cbn [is_G andb]; destruct (f_prec f) as [[|k]|]; cbn [prec_int]; reflexivity.
Qed.

(** what is written by a supported directive *)
Lemma any_conversion_spec d a0 a f w fl t st txt a' st1 rest :
  (forall f0 x0 a0', effective d a0 f0 (x0 :: a0') -> f0 = f /\ x0 :: a0' = a) ->
  flags_are fl (f_minus f) (f_plus f) (f_space f) (f_alt f) (f_zero f) -> f_width f = Z.to_nat w -> (0 <= w <= INT_MAX)%Z -> (-1 <= prec_int (f_prec f) <= INT_MAX)%Z ->
  supported d a0 -> effective d a0 f a -> converts d (length t) a0 txt a' st1 ->
  (let v := mkV (W t) a st PRINT_S_CONV (mod_of (dmod d)) fl w (prec_int (f_prec f)) (render_conv (dconv d) :: rest) in
   match float_case (render_conv (dconv d)) with
   | Some (style, up) => float_conversion size v style up
   | None => let* r := conversion size v (render_conv (dconv d)) in Ok (Some r)
   end) = Ok (Some (W (t ++ txt), a', st ++ st1)).
Proof.
  intros. cbv zeta. destruct (is_float (dconv d)) eqn:IF.
  - rewrite (float_case_of _ IF). eapply float_conversion_spec; eauto.
  - rewrite (float_case_none _ IF). rewrite (@conversion_spec m0 size SZ d a0 a f w fl t st txt a' st1 rest); auto.
Qed.
End P.
