(** Proofs about libcompat/snprintf.c: conversions, formats, rpl_vsnprintf and rpl_vasprintf. *)
From Verif Require Import Prelude PreludeFacts Str StrFacts Libc LibcFacts MemSpec PrintfModel PrintfSpec PrintfProofs PrintfProofs2.
Set Implicit Arguments.

Lemma signed_of_eq b z v : (1 <= b)%Z -> (- 2 ^ (b - 1) <= v < 2 ^ (b - 1))%Z -> (exists k, z = v + k * 2 ^ b)%Z -> signed_of b z = v.
Proof.
  intros B R [k ->]. unfold signed_of. assert (E : (2 ^ b = 2 * 2 ^ (b - 1))%Z) by (rewrite <- Z.pow_succ_r by lia; f_equal; lia).
  replace (v + k * 2 ^ b + 2 ^ (b - 1))%Z with (v + 2 ^ (b - 1) + k * 2 ^ b)%Z by lia. rewrite Z.mod_add by lia. rewrite Z.mod_small; lia.
Qed.
Lemma unsigned_of_eq b z v : (0 <= v < 2 ^ b)%Z -> (exists k, z = v + k * 2 ^ b)%Z -> unsigned_of b z = v.
Proof. intros R [k ->]. unfold unsigned_of. rewrite Z.mod_add by lia. apply Z.mod_small; lia. Qed.

Lemma signed_arg_value m x z a : signed_arg m x z -> signed_value (mod_of m) (x :: a) = Ok (z, a) /\ (- 2 ^ 63 <= z < 2 ^ 63)%Z.
Proof.
  intros S. destruct S as [m z v M R V K|m z M R].
  - assert (VB : (- 2 ^ 63 <= v < 2 ^ 63)%Z) by (destruct m; try contradiction; cbn [bits] in V; cbn in V; lia). split; auto.
    destruct m; try contradiction; cbn [mod_of signed_value va_int bind]; (rewrite (@signed_of_eq _ z v); [reflexivity|lia|exact V|exact K]).
  - split; auto. destruct m; try contradiction; cbn [mod_of signed_value va_long bind]; (rewrite (@signed_of_eq 64 z z); [reflexivity|lia|exact R|exists 0%Z; lia]).
Qed.
Lemma unsigned_arg_value m x z a : unsigned_arg m x z -> exists v, unsigned_value (mod_of m) (x :: a) = Ok (v, a) /\ unsigned_of 64 v = z /\ (0 <= z < 2 ^ 64)%Z.
Proof.
  intros S. destruct S as [m z v M R V K|m z M R].
  - assert (VB : (0 <= v < 2 ^ 64)%Z) by (destruct m; try contradiction; cbn [bits] in V; cbn in V; lia). exists v.
    split; [|split; [apply unsigned_of_eq; [auto|exists 0%Z; lia]|auto]].
    destruct m; try contradiction; cbn [mod_of unsigned_value va_int bind]; (rewrite (@unsigned_of_eq _ z v); [reflexivity|exact V|exact K]).
  - exists (signed_of 64 z). split; [destruct m; try contradiction; reflexivity|]. split; auto.
    unfold signed_of, unsigned_of. change (64 - 1)%Z with 63%Z.
    assert (C : (z < 2 ^ 63 \/ 2 ^ 63 <= z)%Z) by lia. destruct C as [C|C].
    + rewrite (Z.mod_small (z + 2 ^ 63)) by lia. replace (z + 2 ^ 63 - 2 ^ 63)%Z with z by lia. apply Z.mod_small; lia.
    + replace (z + 2 ^ 63)%Z with (z - 2 ^ 63 + 1 * 2 ^ 64)%Z by lia. rewrite Z.mod_add by lia. rewrite (Z.mod_small (z - 2 ^ 63)) by lia.
      replace (z - 2 ^ 63 - 2 ^ 63)%Z with (z + (-1) * 2 ^ 64)%Z by lia. rewrite Z.mod_add by lia. apply Z.mod_small; lia.
Qed.
Lemma cut_string m p s : string_chars m p s -> (exists s0, holds m s0) -> exists s0 r, m = map Some s0 ++ Some NUL :: r /\ is_cstr s0 /\ s = cut p s0.
Proof.
  intros SC [s0 [CS0 [r0 E0]]]. destruct SC as [p s rest E CS|n s rest E CS LN].
  - exists s, rest. auto.
  - exists s0, r0. split; auto. split; auto. cbn [cut]. subst n. rewrite E in E0. clear E m.
    revert s0 CS0 E0. induction s as [|c s IH]; intros s0 CS0 E0; [reflexivity|]. destruct s0 as [|c0 s0].
    + exfalso. cbn in E0. injection E0 as -> _. apply CS. now left.
    + cbn [map app] in E0. injection E0 as -> E0. cbn [length firstn]. f_equal. apply IH; auto.
      * intros I. apply CS. now right.
      * intros I. apply CS0. now right.
Qed.
Lemma prec_opt_int p : prec_opt (prec_int p) = p.
Proof. unfold prec_opt. destruct p as [n|]; cbn [prec_int]; [|reflexivity]. replace (Z.of_nat n =? -1)%Z with false by (symmetry; apply Z.eqb_neq; lia). now rewrite Nat2Z.id. Qed.
Lemma null_block s : block s = map Some s ++ [Some NUL].
Proof. unfold block. now rewrite map_app. Qed.

Section P.
Variable m0 : cells byte.
Variable size : nat.
Hypothesis SZ : size <= length m0.
Local Notation W := (W m0 size).
(** between directives *)
Definition at_item (t : list byte) (a : list arg) (st : list Z) (rest : list byte) : vars :=
  mkV (W t) a st PRINT_S_DEFAULT PRINT_C_NONE no_flags 0%Z (-1)%Z rest.

(** a conversion *)
Lemma conversion_spec d a0 a f w fl t st txt a' st1 rest :
  (forall f0 x0 a0', effective d a0 f0 (x0 :: a0') -> f0 = f /\ x0 :: a0' = a) ->
  flags_are fl (f_minus f) (f_plus f) (f_space f) (f_alt f) (f_zero f) -> f_width f = Z.to_nat w -> (0 <= w <= INT_MAX)%Z -> (-1 <= prec_int (f_prec f) <= INT_MAX)%Z ->
  supported d a0 -> effective d a0 f a -> converts d (length t) a0 txt a' st1 -> is_float (dconv d) = false ->
  conversion size (mkV (W t) a st PRINT_S_CONV (mod_of (dmod d)) fl w (prec_int (f_prec f)) (render_conv (dconv d) :: rest)) (render_conv (dconv d)) =
  Ok (W (t ++ txt), a', st ++ st1).
Proof.
  intros DET (F1 & F2 & F3 & F4 & F5 & F6 & F7) FW RW RP SUP EFF CV NF.
  assert (JU : int_justify f = if F_MINUS fl then Left else if F_ZERO fl && (prec_int (f_prec f) =? -1)%Z then Zeros else Right).
  { unfold int_justify. rewrite F1, F5. destruct (f_prec f) as [n|]; cbn [prec_int]; [|reflexivity].
    replace (Z.of_nat n =? -1)%Z with false by (symmetry; apply Z.eqb_neq; lia). reflexivity. }
  assert (PI : forall n, f_prec f = Some n -> prec_int (f_prec f) = Z.of_nat n) by (intros n ->; reflexivity).
  assert (PMAX : prec_int (f_prec f) = INT_MAX -> f_prec f = Some (Z.to_nat INT_MAX)).
  { destruct (f_prec f) as [n|]; cbn [prec_int]; intros E; [|discriminate]. f_equal. rewrite <- E. now rewrite Nat2Z.id. }
  destruct CV as [a1 f1 x z a1' ds CC E1 SA NT|a1 f1 x z a1' ds table b prefix E1 UA CC NT|a1 f1 z a1' CC E1 RZ|a1 f1 m a1' s CC E1 SC LS|a1 f1 a1' CC E1|a1 f1 p a1' ds CC E1 RPT NT|a1 f1 a1' CC E1|a1 f1 a1' n CC E1 EN BN NLD|a1 f1 q a1' ds CC|a1 f1 a1' ds CC|a1 f1 neg a1' CC|a1 f1 a1' CC];
    try (rewrite CC in NF; discriminate NF);
    destruct (DET _ _ _ E1) as [-> <-]; specialize (SUP _ _ _ E1); rewrite ?app_nil_r.
  - (* d, i *)
    destruct (signed_arg_value a1' SA) as [SV RZ].
    assert (SUP' : (f_prec f = Some 0 -> ~ signed_arg (dmod d) x 0) /\ x <> ALong (- 2 ^ 63)) by (destruct CC as [CC|CC]; rewrite CC in SUP; exact SUP). destruct SUP' as [S1 S2].
    assert (NM : (z <> - 2 ^ 63)%Z).
    { intros EZ. destruct SA as [m z v M R V K|m z M R]; [destruct m; try contradiction; cbn in V; lia|congruence]. }
    destruct (number_form NT) as (ds0 & N0 & EDS); [now left|auto|lia|intros E Z0; exfalso; apply (S1 E); assert (z = 0%Z) by lia; subst z; exact SA|].
    assert (RC : render_conv (dconv d) = "d"%char \/ render_conv (dconv d) = "i"%char) by (destruct CC as [-> | ->]; auto).
    assert (CN : conversion size (mkV (W t) (x :: a1') st PRINT_S_CONV (mod_of (dmod d)) fl w (prec_int (f_prec f)) (render_conv (dconv d) :: rest)) (render_conv (dconv d)) =
                 let* ' (value, a) := signed_value (mod_of (dmod d)) (x :: a1') in
                 let* o := fmtint size (W t) value 10 w (prec_int (f_prec f)) fl in Ok (o, a, st)) by (destruct RC as [-> | ->]; reflexivity).
    rewrite CN, SV. cbn [bind].
    rewrite (@fmtint_spec m0 size SZ fl z 10 w (prec_int (f_prec f)) (Z.abs z) (sign_text (f_plus f) (f_space f) z) ds0 t).
    + cbn [bind]. f_equal. f_equal. f_equal. rewrite JU, FW, F4. f_equal. f_equal. unfold hex_text. cbn [Z.eqb Pos.eqb]. rewrite andb_false_r, app_nil_r.
      f_equal. rewrite EDS. f_equal. f_equal. unfold zeros. cbn [Z.eqb Pos.eqb]. now rewrite !andb_false_r.
    + rewrite F7, F2, F3. repeat split; lia.
    + rewrite F6. exact N0.
    + auto.
    + lia.
    + exact RP.
    + exact RW.
    + intros _. unfold hex_text. cbn [Z.eqb Pos.eqb]. now rewrite andb_false_r.
  - (* u, o, x, X *)
    destruct (unsigned_arg_value a1' UA) as (v & UV & UZ & RZ).
    set (up := match dconv d with CX => true | _ => false end).
    assert (TB : table = (if up then digits_upper else digits_lower) /\ (b = 8 \/ b = 10 \/ b = 16)%Z /\ prefix = hex_text (f_alt f) up b z /\ (b = 8%Z -> dconv d = Co)).
    { subst up. destruct (dconv d); try contradiction; destruct CC as (-> & -> & ->); repeat split; auto; try discriminate; unfold hex_text; cbn [Z.eqb Pos.eqb]; rewrite ?andb_false_r, ?andb_true_r; auto. }
    destruct TB as (TB & RB & PF & B8).
    destruct (number_form NT) as (ds0 & N0 & EDS).
    { rewrite TB. destruct up; auto. }
    { exact RB. }
    { lia. }
    { intros E Z0. subst z. destruct (dconv d) eqn:DC; try contradiction; try (exfalso; apply SUP; auto; fail); try (exfalso; apply (proj1 SUP E); rewrite Z0 in UA; exact UA); try (exfalso; apply (SUP E); rewrite Z0 in UA; exact UA).
      destruct CC as (_ & -> & _). split; auto. destruct (f_alt f) eqn:FA; auto. exfalso. apply (SUP E eq_refl). rewrite Z0 in UA. exact UA. }
    assert (CN : conversion size (mkV (W t) (x :: a1') st PRINT_S_CONV (mod_of (dmod d)) fl w (prec_int (f_prec f)) (render_conv (dconv d) :: rest)) (render_conv (dconv d)) =
                 let* ' (value, a) := unsigned_value (mod_of (dmod d)) (x :: a1') in
                 let* o := fmtint size (W t) value b w (prec_int (f_prec f)) (set_unsigned (if up then set_up fl else fl)) in Ok (o, a, st)).
    { subst up. destruct (dconv d); try contradiction; destruct CC as (_ & -> & _); reflexivity. }
    rewrite CN, UV. cbn [bind].
    set (fl' := set_unsigned (if up then set_up fl else fl)).
    assert (FF : F_MINUS fl' = F_MINUS fl /\ F_ZERO fl' = F_ZERO fl /\ F_NUM fl' = f_alt f /\ F_UP fl' = up /\ F_UNSIGNED fl' = true).
    { subst fl'. destruct up; cbn; auto 10. }
    destruct FF as (G1 & G2 & G3 & G4 & G5).
    rewrite (@fmtint_spec m0 size SZ fl' v b w (prec_int (f_prec f)) z [] ds0 t).
    + cbn [bind]. f_equal. f_equal. f_equal. rewrite JU, FW, G1, G2, G3, G4. f_equal. cbn [app]. rewrite PF, EDS. reflexivity.
    + rewrite G5. auto.
    + rewrite G4, <- TB. exact N0.
    + exact RB.
    + exact RZ.
    + exact RP.
    + exact RW.
    + intros E. apply PMAX in E. rewrite G3, G4, <- PF. destruct (dconv d); try contradiction; try (destruct SUP as [_ SUP]; congruence); destruct CC as (_ & _ & ->); auto; congruence.
  - (* c *)
    rewrite CC in *. cbn [render_conv]. unfold conversion. cbn [v_out v_args v_flags].
    change (beq "c" "d" || beq "c" "i") with false. cbv iota. cbn. rewrite (@outchar m0 size SZ). cbn [bind]. f_equal. f_equal. f_equal.
    unfold pad. cbn [app length]. replace (f_width f - 1) with 0 by lia. cbn [repeat app].
    destruct (str_justify f); reflexivity.
  - (* s *)
    rewrite CC in *. cbn [render_conv]. destruct (cut_string SC SUP) as (s0 & r & -> & CS & ->).
    transitivity (let* o := fmtstr size (W t) (Some (map Some s0 ++ Some NUL :: r)) (Z.to_nat w) (prec_opt (prec_int (f_prec f))) fl in Ok (o, a1', st)); [reflexivity|].
    rewrite prec_opt_int. rewrite (@fmtstr_spec m0 size SZ s0 r (Z.to_nat w) (f_prec f) fl t CS LS). cbn [bind]. rewrite F1, FW. reflexivity.
  - (* s, NULL *)
    rewrite CC in *. cbn [render_conv].
    transitivity (let* o := fmtstr size (W t) (Some (map Some (lit "(null)") ++ [Some NUL])) (Z.to_nat w) (prec_opt (prec_int (f_prec f))) fl in Ok (o, a1', st)); [reflexivity|].
    rewrite prec_opt_int. rewrite (@fmtstr_spec m0 size SZ (lit "(null)") [] (Z.to_nat w) (f_prec f) fl t).
    + cbn [bind]. rewrite F1, FW. reflexivity.
    + unfold is_cstr, NUL; cbn; intuition discriminate.
    + destruct (f_prec f) as [n|]; cbn [cut]; [rewrite firstn_length|]; change (length (lit "(null)")) with 6; unfold INT_MAX; lia.
  - (* p *)
    rewrite CC in *. cbn [render_conv]. 
    transitivity (let* o := (if (p =? 0)%Z then fmtstr size (W t) (Some (block (lit "(nil)"))) (Z.to_nat w) None fl
               else fmtint size (W t) p 16 w (prec_int (f_prec f)) (set_unsigned (set_num fl))) in Ok (o, a1', st)); [reflexivity|].
    replace (p =? 0)%Z with false by (symmetry; apply Z.eqb_neq; lia).
    destruct (number_form NT) as (ds0 & N0 & EDS); [auto|auto|lia|intros _ ->; lia|].
    rewrite (@fmtint_spec m0 size SZ (set_unsigned (set_num fl)) p 16 w (prec_int (f_prec f)) p [] ds0 t).
    + cbn [bind]. f_equal. f_equal. f_equal. cbn [set_unsigned set_num F_MINUS F_ZERO F_NUM F_UP]. rewrite JU, FW, F6. f_equal. cbn [app]. rewrite EDS.
      unfold hex_text. replace (p =? 0)%Z with false by (symmetry; apply Z.eqb_neq; lia). reflexivity.
    + cbn [set_unsigned F_UNSIGNED]. split; auto. unfold unsigned_of. rewrite Z.mod_small; lia.
    + cbn [set_unsigned set_num F_UP]. rewrite F6. exact N0.
    + auto.
    + lia.
    + exact RP.
    + exact RW.
    + intros E. apply PMAX in E. congruence.
  - (* p, NULL *)
    rewrite CC in *. cbn [render_conv].
    transitivity (let* o := fmtstr size (W t) (Some (map Some (lit "(nil)") ++ [Some NUL])) (Z.to_nat w) None fl in Ok (o, a1', st)); [reflexivity|].
    rewrite (@fmtstr_spec m0 size SZ (lit "(nil)") [] (Z.to_nat w) None fl t).
    + cbn [bind]. rewrite F1, FW. reflexivity.
    + unfold is_cstr, NUL; cbn; intuition discriminate.
    + cbn [cut]. change (length (lit "(nil)")) with 5; unfold INT_MAX; lia.
  - (* n *)
    rewrite CC in *. cbn [render_conv].
    transitivity (Ok (W t, a1', st ++ [stored (mod_of (dmod d)) (length t)])); [reflexivity|]. f_equal. f_equal. f_equal. f_equal.
    rewrite EN in *. assert (E : forall b, (1 <= b)%Z -> (Z.of_nat (length t) < 2 ^ (b - 1))%Z -> signed_of b (Z.of_nat (length t)) = Z.of_nat (length t)).
    { intros b B R. apply signed_of_eq; [auto| |exists 0%Z; lia]. lia. }
    destruct (dmod d); try congruence; cbn [mod_of stored bits] in *; apply E; try lia; exact BN.
Qed.
End P.
