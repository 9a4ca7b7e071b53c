(** C31: decimal integers. *)
From Verif Require Import Prelude PreludeFacts Str StrFacts Libc LibcFacts MemSpec NumModel NumSpec NumProofs EditProofs EditProofs4.
Set Implicit Arguments.
Local Open Scope Z_scope.

(** a text reads as at most one number *)
Theorem C31_reads_unique s v r v' r' : reads s v r -> reads s v' r' -> v = v' /\ r = r'.
Proof. apply reads_unique. Qed.

(** StringToLong: no numeral gives -81; a numeral out of range ERANGE; a numeral
    followed by something else than white space or the end -83; otherwise 0 and the
    value.  The output is stored only on success. *)
Theorem C31_StringToLong s : is_cstr s ->
  ((forall v rest, ~ reads s v rest) -> StringToLong s = Ok (-81, None)) /\
  (forall v rest, reads s v rest -> ascii_next rest ->
     StringToLong s = Ok (if (v <? LONG_MIN) || (LONG_MAX <? v) then (ERANGE, None)
                          else if ends_well rest then (0, Some v) else (-83, None))).
Proof. intros C. split; [apply StringToLong_none|]. intros v rest R A. apply StringToLong_reads; auto. Qed.

Theorem C31_StringToInt64 s : is_cstr s ->
  ((forall v rest, ~ reads s v rest) -> StringToInt64 s = Ok (-81, None)) /\
  (forall v rest, reads s v rest -> ascii_next rest ->
     StringToInt64 s = Ok (if (v <? - 2 ^ 63) || (2 ^ 63 - 1 <? v) then (ERANGE, None)
                           else if ends_well rest then (0, Some v) else (-83, None))).
Proof. exact (@C31_StringToLong s). Qed.

Theorem C31_StringToUlong s : is_cstr s ->
  ((forall v rest, ~ reads s v rest) -> StringToUlong s = Ok (-81, None)) /\
  (forall v rest, reads s v rest -> ascii_next rest ->
     StringToUlong s = Ok (if (v <? 0) || (ULONG_MAX <? v) then (ERANGE, None)
                           else if ends_well rest then (0, Some v) else (-83, None))).
Proof. intros C. split; [apply StringToUlong_none|]. intros v rest R A. apply StringToUlong_reads; auto. Qed.

(** printing and reading back *)
Theorem C31_StringFromLong n : LONG_MIN <= n <= LONG_MAX ->
  exists m, StringFromLong n = Ok m /\ length m = 32%nat /\ holds m (sdec n) /\ StringToLong (sdec n) = Ok (0, Some n).
Proof.
  intros R. pose proof (sdec_length R) as L. unfold StringFromLong.
  rewrite firstn_all2 by lia.
  exists (put (calloc 32) (sdec n)). split.
  - apply (@copy_str_at [] (sdec n) (calloc 32) 0%nat eq_refl). unfold calloc. rewrite repeat_length. lia.
  - split; [rewrite put_length; [reflexivity|unfold calloc; rewrite repeat_length; lia]|]. split; [apply put_holds, sdec_cstr|].
    rewrite (@StringToLong_reads (sdec n) n [] (sdec_cstr n) (reads_sdec n) Logic.I).
    unfold LONG_MIN, LONG_MAX in *. replace (n <? - 2 ^ 63) with false by (symmetry; apply Z.ltb_ge; lia).
    replace (2 ^ 63 - 1 <? n) with false by (symmetry; apply Z.ltb_ge; lia). reflexivity.
Qed.

(** the wrappers return the value exactly if the conversion succeeds *)
Theorem C31_wrappers s d : 
  (forall v, StringToLong s = Ok (0, Some v) -> StringToLongDefaultOnError s d = Ok v /\ StringToLongExitOnError s = Ok v) /\
  (forall e, e <> 0 -> StringToLong s = Ok (e, None) -> StringToLongDefaultOnError s d = Ok d /\ StringToLongExitOnError s = Abort) /\
  (forall v, StringToInt64 s = Ok (0, Some v) -> StringToInt64DefaultOnError s d = Ok v /\ StringToInt64ExitOnError s = Ok v) /\
  (forall e, e <> 0 -> StringToInt64 s = Ok (e, None) -> StringToInt64DefaultOnError s d = Ok d /\ StringToInt64ExitOnError s = Abort) /\
  (forall v, StringToUlong s = Ok (0, Some v) -> StringToUlongDefaultOnError s d = Ok v /\ StringToUlongExitOnError s = Ok v) /\
  (forall e, e <> 0 -> StringToUlong s = Ok (e, None) -> StringToUlongDefaultOnError s d = Ok d /\ StringToUlongExitOnError s = Abort).
Proof.
  unfold StringToLongDefaultOnError, StringToLongExitOnError, StringToInt64DefaultOnError, StringToInt64ExitOnError, StringToUlongDefaultOnError, StringToUlongExitOnError.
  repeat split; intros; match goal with E : _ = Ok _ |- _ => rewrite E end; cbn [bind]; try reflexivity;
    match goal with E : ?e <> 0 |- _ => apply Z.eqb_neq in E; rewrite E end; reflexivity.
Qed.

(** StringDecimalToLong: digits, optionally followed by a dot and anything: the value
    of the digits before the dot, or -84 if there are more than 12 of them *)
Theorem C31_StringDecimalToLong ds frac : ds <> [] -> (forall c, In c ds -> isdigit c = true) ->
  is_cstr frac -> (frac = [] \/ exists f, frac = "."%char :: f) ->
  StringDecimalToLong (ds ++ frac) = Ok (if (12 <? length ds)%nat then (-84, None) else (0, Some (Z.of_N (undec ds)))).
Proof.
  intros ND D C F. unfold StringDecimalToLong. change PRINTSIZE_INT with 12%nat.
  assert (ND' : forall c, In c ds -> c <> "."%char) by (intros c I ->; specialize (D _ I); discriminate).
  assert (SP : strcspn (ds ++ frac) (lit ".") = length ds).
  { destruct (strcspn_spec (ds ++ frac) (lit ".")) as [a [b [E [La [A B]]]]]. rewrite <- La.
    assert (G : forall (x y u v : list byte), x ++ u = y ++ v -> (forall c, In c x -> c <> "."%char) -> (forall c, In c y -> c <> "."%char) ->
       (u = [] \/ exists f, u = "."%char :: f) -> (v = [] \/ exists f, v = "."%char :: f) -> length x = length y).
    { induction x as [|p x IH]; intros [|q y] u v Ex X Y U V; cbn in Ex |- *; auto.
      - subst u. destruct U as [U|[f U]]; [discriminate|]. injection U as -> _. destruct (Y "."%char); [left; reflexivity|reflexivity].
      - subst v. destruct V as [V|[f V]]; [discriminate|]. injection V as -> _. destruct (X "."%char); [left; reflexivity|reflexivity].
      - injection Ex as -> Ex. f_equal. eapply IH; eauto; intros c I; [apply X|apply Y]; right; exact I. }
    apply (G a ds b frac); auto.
    - intros c I ->. apply (A _ I). left. reflexivity.
    - destruct b as [|c b]; [auto|]. right. destruct B as [<-|[]]. eauto. }
  assert (Cd : is_cstr ds) by (intros I; specialize (D _ I); discriminate).
  rewrite SP. destruct (Nat.ltb_spec 12 (length ds)); [reflexivity|].
  assert (UL : (undec ds < 10 ^ 12)%N).
  { pose proof (@undec_lt ds (forallb_in _ _ D)) as U. eapply N.lt_le_trans; [exact U|]. apply N.pow_le_mono_r; lia. }
  assert (RES : StringToLong ds = Ok (0, Some (Z.of_N (undec ds)))).
  { assert (R : reads ds (Z.of_N (undec ds)) []).
    { exists [], [], ds. rewrite app_nil_r. split; [reflexivity|]. split; [intros c []|]. split; [exact ND|]. split; [exact D|]. split; [exact Logic.I|]. auto. }
    rewrite (@StringToLong_reads ds _ [] Cd R Logic.I). unfold LONG_MIN, LONG_MAX.
    change (10 ^ 12)%N with 1000000000000%N in UL.
    replace (_ <? - 2 ^ 63) with false by (symmetry; apply Z.ltb_ge; lia). replace (2 ^ 63 - 1 <? _) with false by (symmetry; apply Z.ltb_ge; lia). reflexivity. }
  destruct (Nat.eqb_spec (length ds) 0) as [E0|_]; [destruct ds; [congruence|discriminate]|].
  destruct F as [->|[f ->]].
  - rewrite app_nil_r, chr_end. cbn [bind]. rewrite beq_refl. exact RES.
  - rewrite chr_app_mid. cbn [bind]. change (beq "." NUL) with false. cbn [orb].
    pose proof (@copy_at [] (ds ++ "."%char :: f) (repeat None (length ds + 1)) 0%nat (length ds) eq_refl) as X.
    rewrite repeat_length, app_length in X. specialize (X ltac:(lia) ltac:(lia)). cbn [map app] in X. rewrite X. cbn [bind].
    rewrite firstn_app_le, firstn_all by lia.
    rewrite write_end by (rewrite ?skipn_length, ?repeat_length; lia). cbn [bind].
    assert (M : mstr (map Some ds ++ Some NUL :: skipn 1 (skipn (length ds) (repeat None (length ds + 1)))) = Ok ds).
    { apply mstr_holds. split; [exact Cd|]. eexists. reflexivity. }
    rewrite M. cbn [bind]. exact RES.
Qed.

Example C31_ex :
  StringToLong (lit "  -42 apples") = Ok (0, Some (-42)) /\ StringToLong (lit "42x") = Ok (-83, None) /\
  StringToLong (lit " +x") = Ok (-81, None) /\ StringToLong (lit "9223372036854775808") = Ok (ERANGE, None) /\
  StringToLong (lit "-9223372036854775808") = Ok (0, Some LONG_MIN) /\
  StringToUlong (lit "18446744073709551615") = Ok (0, Some ULONG_MAX) /\ StringToUlong (lit "-1") = Ok (ERANGE, None) /\
  StringToUlong (lit "-0") = Ok (0, Some 0) /\ StringDecimalToLong (lit "12.75") = Ok (0, Some 12) /\
  (exists m, StringFromLong (-7) = Ok m /\ firstn 3 m = [Some "-"%char; Some "7"%char; Some NUL]) /\
  reads (lit "  -42 apples") (-42) (lit " apples").
Proof.
  repeat (split; [vm_compute; reflexivity|]). split; [eexists; split; reflexivity|].
  exists (lit "  "), (lit "-"), (lit "42"). split; [reflexivity|]. split; [intros c [<-|[<-|[]]]; reflexivity|]. split; [discriminate|].
  split; [intros c [<-|[<-|[]]]; reflexivity|]. split; [reflexivity|]. right. split; reflexivity.
Qed.
(** the character after the numeral goes to isspace as a plain char: for a byte from
    128 to 254 the behaviour is undefined in C *)
Example C31_high_byte_refuted : StringToLong (lit "42" ++ [ascii_of_nat 200]) = UB.
Proof. reflexivity. Qed.
