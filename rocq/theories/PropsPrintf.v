(** C91-C93: libcompat/snprintf.c. *)
From Coq Require Import QArith Qabs.
From Verif Require Import Prelude PreludeFacts Str StrFacts Libc MemSpec PrintfModel PrintfSpec PrintfProofs PrintfProofs2 PrintfProofs3 PrintfProofs4 PrintfProofs5 PrintfFloat PrintfFloat2 PrintfFloat5 PrintfFloat6.
Local Close Scope Q_scope.
Set Implicit Arguments.

(** * C91: formatted output is what C99 says *)
(** Every number has a notation, and only one. *)
Theorem C91_notation_total up b n : (0 <= n)%Z -> b = 8%Z \/ b = 10%Z \/ b = 16%Z ->
  exists ds, notation (if up : bool then digits_upper else digits_lower) b n ds /\ forall ds', notation (if up then digits_upper else digits_lower) b n ds' -> ds' = ds.
Proof.
  intros P B. set (table := if up then digits_upper else digits_lower).
  assert (TB : forall i, (Z.of_nat i < b)%Z -> exists c, nth_error table i = Some c).
  { intros i LT. destruct (nth_error table i) eqn:E; [eauto|]. apply nth_error_None in E. assert (length table = 16) by (subst table; destruct up; reflexivity). lia. }
  induction n as [n IH] using (well_founded_induction (Z.lt_wf 0)).
  assert (UNI : forall i n', (n = b * n' + Z.of_nat i)%Z -> (Z.of_nat i < b)%Z -> (0 <= n')%Z -> n' = (n / b)%Z /\ Z.of_nat i = (n mod b)%Z).
  { intros i n' E LT P'. split; [apply Z.div_unique with (Z.of_nat i); lia|apply Z.mod_unique with n'; lia]. }
  destruct (Z.lt_ge_cases n b) as [LT|GE].
  - destruct (TB (Z.to_nat n) ltac:(lia)) as [c C]. exists [c]. split.
    + pose proof (@notation_digit table b (Z.to_nat n) c ltac:(lia) C) as H. rewrite Z2Nat.id in H by lia. exact H.
    + intros ds' H. inversion H as [i c' LT' C' EN|n' ds i c' H' POS LT' C' EN].
      * rewrite <- EN, Nat2Z.id in C. congruence.
      * exfalso. nia.
  - pose proof (Z.div_mod n b ltac:(lia)) as DM. pose proof (Z.mod_pos_bound n b ltac:(lia)) as MB.
    assert (DP : (0 < n / b)%Z) by (apply Z.div_str_pos; lia).
    destruct (IH (n / b)%Z) as (ds & H & U); [split; [lia|apply Z.div_lt; lia]|lia|].
    destruct (TB (Z.to_nat (n mod b)) ltac:(lia)) as [c C]. exists (ds ++ [c]). split.
    + replace n with (b * (n / b) + Z.of_nat (Z.to_nat (n mod b)))%Z by lia. apply notation_more; auto; lia.
    + intros ds' H'. inversion H' as [i c' LT' C' EN|n' ds1 i c' H1 POS LT' C' EN]; [lia|]. destruct (UNI i n' (eq_sym EN) LT' ltac:(lia)) as [-> EI].
      rewrite (U ds1 H1). f_equal. rewrite <- EI, Nat2Z.id in C. congruence.
Qed.
Print Assumptions C91_notation_total.

Theorem C91_vsnprintf_partial is args t st m size :
  Forall wf_item is -> expands supported 0 is args t st -> size <= length m ->
  rpl_vsnprintf (Some m) size (renders is) args = Ok (terminated size m t, printf_result t, st).
Proof. intros WF E SZ. exact (@vsnprintf_run m size SZ is t args st WF E). Qed.
Print Assumptions C91_vsnprintf_partial.
(** without a buffer, nothing but the length is computed *)
Theorem C91_length_only_partial is args t st size :
  Forall wf_item is -> expands supported 0 is args t st -> rpl_vsnprintf None size (renders is) args = Ok ([], printf_result t, st).
Proof. intros WF E. exact (@vsnprintf_run [] 0 (Nat.le_refl 0) is t args st WF E). Qed.
Print Assumptions C91_length_only_partial.

(** [-%+05d|%-6.3s|%#o%%] with 42, ["abcdef"], 8 *)
Definition d1 : directive := mkD (lit "+0") (Width (lit "5")) NoPrecision Plain Cd.
Definition d2 : directive := mkD (lit "-") (Width (lit "6")) (Precision (lit "3")) Plain Cs.
Definition d3 : directive := mkD (lit "#") NoWidth NoPrecision L Co.
Definition sample : list item :=
  [Ordinary "-"; Directive d1; Ordinary "|";
   Directive d2; Ordinary "|"; Directive d3; Percent]%char.
Definition sample_args : list arg := [AInt 42; AStr (Some (block (lit "abcdef"))); ALong 8].
Ltac not_any := intros; repeat match goal with H : _ \/ _ |- _ => destruct H | H : ?x = ?y |- _ => (discriminate H || fail 1) end.
Lemma eff1 : effective d1 sample_args (mkField false true false false true 5 None) sample_args.
Proof. exact (@effective_intro d1 sample_args false 5%Z sample_args None sample_args (conj eq_refl (conj eq_refl eq_refl)) (conj eq_refl eq_refl)). Qed.
Lemma eff2 a : effective d2 a (mkField true false false false false 6 (Some 3)) a.
Proof. exact (@effective_intro d2 a false 6%Z a (Some 3) a (conj eq_refl (conj eq_refl eq_refl)) (conj eq_refl eq_refl)). Qed.
Lemma eff3 a : effective d3 a (mkField false false false true false 0 None) a.
Proof. exact (@effective_intro d3 a false 0%Z a None a (conj eq_refl (conj eq_refl eq_refl)) (conj eq_refl eq_refl)). Qed.
Lemma digit table b i c : (Z.of_nat i < b)%Z -> nth_error table i = Some c -> notation table b (Z.of_nat i) [c].
Proof. apply notation_digit. Qed.
Example C91_instance :
  Forall wf_item sample /\ expands supported 0 sample sample_args (lit "-+0042|abc   |010%") [] /\ renders sample = lit "-%+05d|%-6.3s|%#lo%%" /\
  rpl_vsnprintf (Some (repeat None 10)) 10 (renders sample) sample_args = Ok (map Some (lit "-+0042|ab" ++ [NUL]), 18%Z, []).
Proof.
  split; [|split; [|split; reflexivity]].
  - assert (FA : forall P (l : list byte), forallb P l = true -> Forall (fun c => P c = true) l) by (intros P l E; apply Forall_forall; now apply forallb_forall).
    assert (FL : forall l, forallb (fun c => existsb (beq c) (lit "-+ #0'")) l = true -> Forall (fun c => In c (lit "-+ #0'")) l).
    { intros l E. apply FA in E. eapply Forall_impl; [|exact E]. intros c X. apply existsb_exists in X as (y & I & Y). apply beq_true in Y as ->. exact I. }
    unfold sample. repeat (apply Forall_cons; [cbn [wf_item dflags dwidth dprec d1 d2 d3]; repeat split; try exact I; try discriminate; try (apply FL; reflexivity); try (apply FA; reflexivity); try (vm_compute; discriminate)|]). constructor.
  - assert (N42 : notation digits_lower 10 42 (lit "42")).
    { change 42%Z with (10 * Z.of_nat 4 + Z.of_nat 2)%Z. change (lit "42") with (["4"%char] ++ ["2"%char]). apply notation_more; [apply notation_digit; [lia|reflexivity]|lia|lia|reflexivity]. }
    assert (N8 : notation digits_lower 8 8 (lit "10")).
    { change 8%Z with (8 * Z.of_nat 1 + Z.of_nat 0)%Z at 2. change (lit "10") with (["1"%char] ++ ["0"%char]). apply notation_more; [apply notation_digit; [lia|reflexivity]|lia|lia|reflexivity]. }
    unfold sample. apply expands_char.
    refine (@expands_directive supported _ _ _ _ (pad Zeros 5 (lit "+") (lit "42")) (tl sample_args) [] (lit "|abc   |010%") [] _ _ _).
    { intros f x a' E. destruct (effective_fun eff1 E) as [<- EA]. injection EA as <- <-. cbn. split; [discriminate|discriminate]. }
    { apply (@conv_signed d1 _ sample_args _ (AInt 42) 42%Z (tl sample_args) (lit "42") (or_introl eq_refl) eff1).
      - apply signed_int; [exact I|lia|vm_compute; split; [discriminate|reflexivity]|exists 0%Z; reflexivity].
      - exact (@number_text_intro digits_lower 10 false 42 None _ N42). }
    apply expands_char.
    refine (@expands_directive supported _ _ _ _ (pad Left 6 [] (lit "abc")) [ALong 8] [] (lit "|010%") [] _ _ _).
    { intros f x a' E. destruct (effective_fun (eff2 _) E) as [<- EA]. injection EA as <- <-. cbn. exists (lit "abcdef"). split; [unfold is_cstr, NUL; cbn; intuition discriminate|]. exists []. reflexivity. }
    { apply (@conv_string d2 _ _ _ (block (lit "abcdef")) [ALong 8] (lit "abc") eq_refl (eff2 _)).
      - exact (@chars_nul (block (lit "abcdef")) (Some 3) (lit "abcdef") [] eq_refl ltac:(unfold is_cstr, NUL; cbn; intuition discriminate)).
      - cbn. unfold INT_MAX. lia. }
    apply expands_char.
    refine (@expands_directive supported _ _ _ _ (pad Right 0 [] (lit "010")) [] [] (lit "%") [] _ _ _).
    { intros f x a' E. destruct (effective_fun (eff3 _) E) as [<- EA]. cbn. discriminate. }
    { apply (@conv_unsigned d3 _ [ALong 8] _ (ALong 8) 8%Z [] (lit "010") digits_lower 8%Z [] (eff3 _)).
      - constructor; [exact I|lia].
      - cbn. auto.
      - exact (@number_text_intro digits_lower 8 true 8 None _ N8). }
    apply expands_percent. apply expands_nil.
Qed.

(** ** Where the code departs from C99 *)
Definition simple (w : PrintfSpec.width) (p : precision) (m : modifier) (c : conv) : directive := mkD [] w p m c.
Lemma eff_simple c m p a q : match p with NoPrecision => q = None | Precision ds => q = Some (Z.to_nat (number ds)) | PrecisionArg => False end ->
  effective (simple NoWidth p m c) a (mkField false false false false false 0 q) a.
Proof.
  intros E. refine (@effective_intro (simple NoWidth p m c) a false 0%Z a q a (conj eq_refl (conj eq_refl eq_refl)) _). cbn. destruct p; auto. contradiction.
Qed.
Lemma one_directive d a t : converts d 0 a t [] [] -> c99 [Directive d] a t [].
Proof.
  intros C. unfold c99. rewrite <- (app_nil_r t). change (@nil Z) with (@nil Z ++ []). eapply expands_directive; [exact I|exact C|]. apply expands_nil.
Qed.
(** "The result of converting a zero value with a precision of zero is no characters" *)
Theorem C91_precision_zero_refuted :
  c99 [Directive (simple NoWidth (Precision (lit "0")) Plain Cd)] [AInt 0] [] [] /\
  rpl_vsnprintf (Some (repeat None 8)) 8 (lit "%.0d") [AInt 0] = Ok (map Some (lit "0" ++ [NUL]) ++ repeat None 6, 1%Z, []).
Proof.
  split; [|reflexivity]. apply one_directive.
  apply (@conv_signed (simple NoWidth (Precision (lit "0")) Plain Cd) 0 [AInt 0] _ (AInt 0) 0%Z [] [] (or_introl eq_refl) (@eff_simple Cd Plain (Precision (lit "0")) [AInt 0] (Some 0) eq_refl)).
  - apply signed_int; [exact I|lia|vm_compute; split; [discriminate|reflexivity]|exists 0%Z; reflexivity].
  - exact (@number_text_intro digits_lower 10 false 0 (Some 0) (lit "0") (@notation_digit digits_lower 10 0 "0"%char ltac:(lia) eq_refl)).
Qed.
Print Assumptions C91_precision_zero_refuted.
(** the field width of %c is ignored *)
Theorem C91_char_width_refuted :
  c99 [Directive (simple (Width (lit "3")) NoPrecision Plain Cc)] [AInt 65] (lit "  A") [] /\
  rpl_vsnprintf (Some (repeat None 8)) 8 (lit "%3c") [AInt 65] = Ok (map Some (lit "A" ++ [NUL]) ++ repeat None 6, 1%Z, []).
Proof.
  split; [|reflexivity]. apply one_directive.
  apply (@conv_char (simple (Width (lit "3")) NoPrecision Plain Cc) 0 [AInt 65] (mkField false false false false false 3 None) 65%Z [] eq_refl); [|lia].
  exact (@effective_intro (simple (Width (lit "3")) NoPrecision Plain Cc) [AInt 65] false 3%Z [AInt 65] None [AInt 65] (conj eq_refl (conj eq_refl eq_refl)) (conj eq_refl eq_refl)).
Qed.
Print Assumptions C91_char_width_refuted.
(** the smallest 64-bit number is negated in intmax_t: undefined *)
Theorem C91_smallest_number_refuted :
  (exists t, c99 [Directive (simple NoWidth NoPrecision L Cd)] [ALong (- 2 ^ 63)] t []) /\
  rpl_vsnprintf (Some (repeat None 32)) 32 (lit "%ld") [ALong (- 2 ^ 63)] = UB.
Proof.
  split; [|vm_compute; reflexivity].
  destruct (@C91_notation_total false 10 (2 ^ 63) ltac:(lia) ltac:(auto)) as (ds & N0 & _).
  eexists. apply one_directive.
  apply (@conv_signed (simple NoWidth NoPrecision L Cd) 0 [ALong (- 2 ^ 63)] _ (ALong (- 2 ^ 63)) (- 2 ^ 63)%Z [] ds (or_introl eq_refl) (@eff_simple Cd L NoPrecision [ALong (- 2 ^ 63)] None eq_refl)).
  - constructor; [exact I|lia].
  - exact (@number_text_intro digits_lower 10 false (2 ^ 63) None ds N0).
Qed.
Print Assumptions C91_smallest_number_refuted.
(** %.3s of an array of 3 characters without a NUL: the fourth is read *)
Theorem C91_unterminated_string_refuted :
  c99 [Directive (simple NoWidth (Precision (lit "3")) Plain Cs)] [AStr (Some (map Some (lit "abc")))] (lit "abc") [] /\
  rpl_vsnprintf (Some (repeat None 8)) 8 (lit "%.3s") [AStr (Some (map Some (lit "abc")))] = UB.
Proof.
  split; [|reflexivity]. apply one_directive.
  apply (@conv_string (simple NoWidth (Precision (lit "3")) Plain Cs) 0 _ _ (map Some (lit "abc")) [] (lit "abc") eq_refl (@eff_simple Cs Plain (Precision (lit "3")) _ (Some 3) eq_refl)).
  - apply (@chars_cut (map Some (lit "abc")) 3 (lit "abc") []); [reflexivity|unfold is_cstr, NUL; cbn; intuition discriminate|reflexivity].
  - cbn. unfold INT_MAX. lia.
Qed.
Print Assumptions C91_unterminated_string_refuted.

(** ** Floating point *)
(** Every number has a text, and only one (the rounding being upwards). *)
Theorem C91_float_text_total c f x : is_float c = true -> (0 <= x)%Q -> exists t, float_text c f x t /\ forall t', float_text c f x t' -> t' = t.
Proof. apply float_text_total. Qed.
Print Assumptions C91_float_text_total.
(** A number of absolute value 2^64 - 1 or more is an error with %f; the text before it has been written. *)
Theorem C91_too_large_for_f is t a st m size d f q a' rest :
  size <= length m -> Forall wf_item is -> (forall d, ~ In (Directive d) is) -> expands supported 0 is a t st ->
  wf_item (Directive d) -> dconv d = Cf \/ dconv d = CF -> effective d a f (AFloat (is_long (dmod d)) (Finite q) :: a') -> (inject_Z (2 ^ 64 - 1) <= Qabs q)%Q ->
  rpl_vsnprintf (Some m) size (renders is ++ render (Directive d) ++ rest) a = Ok (terminated size m t, -1, st)%Z.
Proof.
  intros SZ WF PL. apply float_overflow; auto. apply Forall_forall. intros [c| |d'] I; cbn; auto. exact (PL d' I).
Qed.
Print Assumptions C91_too_large_for_f.
(** the byte behind the characters of an infinity, which is not initialised, does not matter *)
Theorem C91_infinity_byte chars c c' r r' size o w fl :
  fmtstr size o (Some (map Some chars ++ Some c :: r)) w (Some (length chars)) fl = fmtstr size o (Some (map Some chars ++ Some c' :: r')) w (Some (length chars)) fl.
Proof. apply next_byte. Qed.
Print Assumptions C91_infinity_byte.

(** [%+08.2f] of 3.1415, [%e] of 12345.678, [%g] of 0.0001, [%-6F] of minus infinity *)
Definition f1 : directive := mkD (lit "+0") (Width (lit "8")) (Precision (lit "2")) Plain Cf.
Definition f2 : directive := mkD [] NoWidth NoPrecision LD Ce.
Definition f3 : directive := mkD [] NoWidth NoPrecision Plain Cg.
Definition f4 : directive := mkD (lit "-") (Width (lit "6")) NoPrecision Plain CF.
Definition float_sample : list item := [Directive f1; Ordinary "|"; Directive f2; Ordinary "|"; Directive f3; Ordinary "|"; Directive f4]%char.
Definition float_args : list arg := [AFloat false (Finite (31415 # 10000)); AFloat true (Finite (12345678 # 1000)); AFloat false (Finite (1 # 10000)); AFloat false (Infinite true)].
Lemma feff1 a : effective f1 a (mkField false true false false true 8 (Some 2)) a.
Proof. exact (@effective_intro f1 a false 8%Z a (Some 2) a (conj eq_refl (conj eq_refl eq_refl)) (conj eq_refl eq_refl)). Qed.
Lemma feff2 a : effective f2 a (mkField false false false false false 0 None) a.
Proof. exact (@effective_intro f2 a false 0%Z a None a (conj eq_refl (conj eq_refl eq_refl)) (conj eq_refl eq_refl)). Qed.
Lemma feff3 a : effective f3 a (mkField false false false false false 0 None) a.
Proof. exact (@effective_intro f3 a false 0%Z a None a (conj eq_refl (conj eq_refl eq_refl)) (conj eq_refl eq_refl)). Qed.
Lemma feff4 a : effective f4 a (mkField true false false false false 6 None) a.
Proof. exact (@effective_intro f4 a false 6%Z a None a (conj eq_refl (conj eq_refl eq_refl)) (conj eq_refl eq_refl)). Qed.
Lemma digits_are ds : forallb isdigit ds = true -> all_digits ds.
Proof. intros E. apply Forall_forall. now apply forallb_forall. Qed.
Lemma notation_lit ds : forallb isdigit ds = true -> ds <> [] -> hd NUL ds <> "0"%char -> notation lower_digits 10 (number ds) ds.
Proof. intros E. apply notation_digits. now apply digits_are. Qed.
Lemma notation_zero : notation lower_digits 10 0 (lit "0").
Proof. exact (@notation_digit lower_digits 10 0 "0"%char ltac:(lia) eq_refl). Qed.
Lemma rounded q n : (Qle_bool (inject_Z n - (1 # 2)) q && Qltb q (inject_Z n + (1 # 2)))%bool = true -> rounds q n.
Proof. intros E. apply andb_true_iff in E as [A B]. split; [now apply Qle_bool_iff|now apply Qltb_lt]. Qed.
Lemma decade q X : (Qle_bool (10 ^ X) q && Qltb q (10 ^ (X + 1)))%bool = true -> (10 ^ X <= q < 10 ^ (X + 1))%Q.
Proof. intros E. apply andb_true_iff in E as [A B]. split; [now apply Qle_bool_iff|now apply Qltb_lt]. Qed.
Definition good_notation (ds : list byte) : bool := forallb isdigit ds && match ds with [] => false | [c] => true | c :: _ => negb (beq c "0") end.
Lemma notation_good ds : good_notation ds = true -> notation lower_digits 10 (number ds) ds.
Proof.
  unfold good_notation. intros E. apply andb_true_iff in E as [D E]. destruct ds as [|c [|c' ds]]; [discriminate| |].
  - cbn in D. rewrite andb_true_r in D. destruct c as [[] [] [] [] [] [] [] []]; try discriminate D; try (apply notation_lit; [reflexivity|discriminate|discriminate]). exact notation_zero.
  - apply notation_lit; auto; [discriminate|]. cbn [hd]. intros ->. discriminate E.
Qed.
Lemma decimal_lit p alt n ds fs : (good_notation ds && forallb isdigit fs && (length fs =? p)%nat && (number ds =? n / 10 ^ Z.of_nat p)%Z && (number fs =? n mod 10 ^ Z.of_nat p)%Z)%bool = true ->
  decimal p alt false n (ds ++ (if alt || negb (length fs =? 0)%nat then lit "." else []) ++ fs).
Proof.
  intros E. rewrite !andb_true_iff in E. destruct E as ((((G & D) & L1) & N1) & N2). apply Z.eqb_eq in N1, N2. apply Nat.eqb_eq in L1.
  apply (@decimal_intro p alt false n ds fs fs 0); auto; [rewrite <- N1; now apply notation_good|now apply digits_are].
Qed.
Lemma decimal_strip p n ds fs k : last fs "1"%char <> "0"%char ->
  (good_notation ds && forallb isdigit (fs ++ repeat "0"%char k) && (length (fs ++ repeat "0"%char k) =? p)%nat && (number ds =? n / 10 ^ Z.of_nat p)%Z && (number (fs ++ repeat "0"%char k) =? n mod 10 ^ Z.of_nat p)%Z)%bool = true ->
  decimal p false true n (ds ++ (if negb (length fs =? 0)%nat then lit "." else []) ++ fs).
Proof.
  intros L E. rewrite !andb_true_iff in E. destruct E as ((((G & D) & L1) & N1) & N2). apply Z.eqb_eq in N1, N2. apply Nat.eqb_eq in L1.
  apply (@decimal_intro p false true n ds (fs ++ repeat "0"%char k) fs k); auto; [rewrite <- N1; now apply notation_good|now apply digits_are].
Qed.
Lemma text1 : float_text Cf (mkField false true false false true 8 (Some 2)) (31415 # 10000) (lit "3.14").
Proof.
  apply (@fixed_intro _ 2 false false 314); [apply rounded; vm_compute; reflexivity|].
  exact (@decimal_lit 2 false 314 (lit "3") (lit "14") ltac:(vm_compute; reflexivity)).
Qed.
Lemma sci2 : scientific (12345678 # 1000) 6 4 1234568.
Proof. apply scientific_digits; [apply decade; vm_compute; reflexivity|apply rounded; vm_compute; reflexivity|reflexivity]. Qed.
Lemma text2 : float_text Ce (mkField false false false false false 0 None) (12345678 # 1000) (lit "1.234568e+04").
Proof.
  apply (@scientific_intro _ 6 false false false 4 1234568 (lit "1.234568") (lit "e+04") sci2).
  - exact (@decimal_lit 6 false 1234568 (lit "1") (lit "234568") ltac:(vm_compute; reflexivity)).
  - exact (@exponent_intro false 4 (lit "4") (@notation_lit (lit "4") eq_refl ltac:(discriminate) ltac:(discriminate))).
Qed.
Lemma sci3 : scientific (1 # 10000) 5 (-4) 100000.
Proof. apply scientific_digits; [apply decade; vm_compute; reflexivity|apply rounded; vm_compute; reflexivity|reflexivity]. Qed.
Lemma text3 : float_text Cg (mkField false false false false false 0 None) (1 # 10000) (lit "0.0001").
Proof.
  apply (@general_fixed _ 6 false false (-4) 100000 _ sci3 ltac:(cbn; lia)). apply (@fixed_intro _ 9 false true 100000); [apply rounded; vm_compute; reflexivity|].
  exact (@decimal_strip 9 100000 (lit "0") (lit "0001") 5 ltac:(discriminate) ltac:(vm_compute; reflexivity)).
Qed.
Example C91_float_instance :
  Forall wf_item float_sample /\ expands supported 0 float_sample float_args (lit "+0003.14|1.234568e+04|0.0001|-INF  ") [] /\
  renders float_sample = lit "%+08.2f|%Le|%g|%-6F" /\
  rpl_vsnprintf (Some (repeat None 18)) 18 (renders float_sample) float_args = Ok (map Some (lit "+0003.14|1.234568" ++ [NUL]), 35%Z, []).
Proof.
  split; [|split; [|split; vm_compute; reflexivity]].
  - assert (FL : forall l, forallb (fun c => existsb (beq c) (lit "-+ #0'")) l = true -> Forall (fun c => In c (lit "-+ #0'")) l).
    { intros l E. apply Forall_forall. intros c I. rewrite forallb_forall in E. apply E in I. apply existsb_exists in I as (y & J & Y). apply beq_true in Y as ->. exact J. }
    unfold float_sample. repeat (apply Forall_cons; [cbn [wf_item dflags dwidth dprec f1 f2 f3 f4]; repeat split; try exact I; try discriminate; try (apply FL; reflexivity); try (apply digits_are; reflexivity); try (vm_compute; discriminate)|]). constructor.
  - unfold float_sample, float_args.
    refine (@expands_directive supported _ _ _ _ (pad Zeros 8 (lit "+") (lit "3.14")) (tl float_args) [] (lit "|1.234568e+04|0.0001|-INF  ") [] _ _ _).
    { intros f x a' E. destruct (effective_fun (feff1 _) E) as [<- EA]. injection EA as <- <-. split; [cbn; lia|reflexivity]. }
    { exact (@conv_float f1 0 float_args _ (31415 # 10000) (tl float_args) (lit "3.14") eq_refl (feff1 _) text1). }
    apply expands_char.
    refine (@expands_directive supported _ _ _ _ (pad Right 0 [] (lit "1.234568e+04")) (tl (tl float_args)) [] (lit "|0.0001|-INF  ") [] _ _ _).
    { intros f x a' E. destruct (effective_fun (feff2 _) E) as [<- EA]. injection EA as <- <-. split; [cbn; lia|]. split; [right; apply Qle_bool_iff; vm_compute; reflexivity|].
      intros X n S. destruct (scientific_fun sci2 S) as [<- _]. lia. }
    { exact (@conv_float f2 _ (tl float_args) _ (12345678 # 1000) (tl (tl float_args)) (lit "1.234568e+04") eq_refl (feff2 _) text2). }
    apply expands_char.
    refine (@expands_directive supported _ _ _ _ (pad Right 0 [] (lit "0.0001")) (tl (tl (tl float_args))) [] (lit "|-INF  ") [] _ _ _).
    { intros f x a' E. destruct (effective_fun (feff3 _) E) as [<- EA]. injection EA as <- <-. split; [cbn; lia|]. split; [split; [right; apply Qle_bool_iff; vm_compute; reflexivity|]|].
      - intros X n S. destruct (scientific_fun sci3 S) as [<- _]. lia.
      - intros X n S _. destruct (scientific_fun sci3 S) as [<- _]. split; [cbn; lia|reflexivity]. }
    { exact (@conv_float f3 _ (tl (tl float_args)) _ (1 # 10000) (tl (tl (tl float_args))) (lit "0.0001") eq_refl (feff3 _) text3). }
    apply expands_char.
    refine (@expands_directive supported _ _ _ _ (pad Left 6 (lit "-") (lit "INF")) [] [] [] [] _ _ _).
    { intros f x a' E. destruct (effective_fun (feff4 _) E) as [<- EA]. injection EA as <- <-. exact I. }
    { exact (@conv_infinite f4 _ (tl (tl (tl float_args))) _ true [] eq_refl (feff4 _)). }
    apply expands_nil.
Qed.
Lemma simple_float c ds x t : is_float c = true -> float_text c (mkField false false false false false 0 (Some (Z.to_nat (number ds)))) (Qabs x) t -> Qltb x 0 = false ->
  c99 [Directive (simple NoWidth (Precision ds) Plain c)] [AFloat false (Finite x)] t [].
Proof.
  intros IF TX NN. apply one_directive.
  pose proof (@conv_float (simple NoWidth (Precision ds) Plain c) 0 [AFloat false (Finite x)] _ x [] t IF (@eff_simple c Plain (Precision ds) _ _ eq_refl) TX) as H.
  rewrite NN in H. exact H.
Qed.
(** more than 19 digits after the decimal point are not printed *)
Theorem C91_float_precision_refuted :
  c99 [Directive (simple NoWidth (Precision (lit "21")) Plain Cf)] [AFloat false (Finite 1)] (lit "1.000000000000000000000") [] /\
  rpl_vsnprintf (Some (repeat None 22)) 22 (lit "%.21f") [AFloat false (Finite 1)] = Ok (map Some (lit "1.0000000000000000000" ++ [NUL]), 21%Z, []).
Proof.
  split; [|vm_compute; reflexivity]. apply simple_float; auto.
  apply (@fixed_intro _ 21 false false (10 ^ 21)); [apply rounded; vm_compute; reflexivity|].
  exact (@decimal_lit 21 false (10 ^ 21) (lit "1") (repeat "0"%char 21) ltac:(vm_compute; reflexivity)).
Qed.
Print Assumptions C91_float_precision_refuted.
(** numbers from 2^64 - 1 on are not printed by %f *)
Theorem C91_float_large_refuted :
  c99 [Directive (simple NoWidth (Precision (lit "0")) Plain Cf)] [AFloat false (Finite (inject_Z (10 ^ 20)))] (lit "100000000000000000000") [] /\
  rpl_vsnprintf (Some (repeat None 2)) 2 (lit "%.0f") [AFloat false (Finite (inject_Z (10 ^ 20)))] = Ok ([Some NUL; None], -1, [])%Z.
Proof.
  split; [|vm_compute; reflexivity]. apply simple_float; auto.
  apply (@fixed_intro _ 0 false false (10 ^ 20)); [apply rounded; vm_compute; reflexivity|].
  exact (@decimal_lit 0 false (10 ^ 20) (lit "100000000000000000000") [] ltac:(vm_compute; reflexivity)).
Qed.
Print Assumptions C91_float_large_refuted.
(** exponents of three digits: the digits are wrong *)
Theorem C91_float_exponent_refuted :
  c99 [Directive (simple NoWidth (Precision (lit "0")) Plain Ce)] [AFloat false (Finite (inject_Z (10 ^ 100)))] (lit "1e+100") [] /\
  rpl_vsnprintf (Some (repeat None 7)) 7 (lit "%.0e") [AFloat false (Finite (inject_Z (10 ^ 100)))] = Ok (map Some (lit "10e+99" ++ [NUL]), 6%Z, []).
Proof.
  split; [|vm_compute; reflexivity]. apply simple_float; auto.
  apply (@scientific_intro _ 0 false false false 100 1 (lit "1") (lit "e+100")).
  - apply scientific_digits; [apply decade; vm_compute; reflexivity|apply rounded; vm_compute; reflexivity|reflexivity].
  - exact (@decimal_lit 0 false 1 (lit "1") [] ltac:(vm_compute; reflexivity)).
  - exact (@exponent_intro false 100 (lit "100") (@notation_lit (lit "100") eq_refl ltac:(discriminate) ltac:(discriminate))).
Qed.
Print Assumptions C91_float_exponent_refuted.
(** -0 loses its sign *)
Theorem C91_minus_zero_refuted :
  c99 [Directive (simple NoWidth (Precision (lit "1")) Plain Cf)] [AFloat false MinusZero] (lit "-0.0") [] /\
  rpl_vsnprintf (Some (repeat None 4)) 4 (lit "%.1f") [AFloat false MinusZero] = Ok (map Some (lit "0.0" ++ [NUL]), 3%Z, []).
Proof.
  split; [|vm_compute; reflexivity]. apply one_directive.
  apply (@conv_minus_zero (simple NoWidth (Precision (lit "1")) Plain Cf) 0 [AFloat false MinusZero] _ [] (lit "0.0") eq_refl (@eff_simple Cf Plain (Precision (lit "1")) _ _ eq_refl)).
  apply (@fixed_intro _ 1 false false 0); [apply rounded; vm_compute; reflexivity|].
  exact (@decimal_lit 1 false 0 (lit "0") (lit "0") ltac:(vm_compute; reflexivity)).
Qed.
Print Assumptions C91_minus_zero_refuted.

(** * C92: whatever the format and the arguments, nothing is written outside the buffer *)
Theorem C92_never_outside m size format args : size <= length m ->
  rpl_vsnprintf (Some m) size format args <> Fuel /\
  forall m' r st, rpl_vsnprintf (Some m) size format args = Ok (m', r, st) ->
    length m' = length m /\ skipn size m' = skipn size m /\ (0 < size -> exists i, i < size /\ nth_error m' i = Some (Some NUL)) /\ (-1 <= r < INT_MAX)%Z.
Proof. exact (@vsnprintf_safe m size format args). Qed.
Print Assumptions C92_never_outside.
(** unknown conversions and a format that breaks off *)
Example C92_instance :
  rpl_vsnprintf (Some (map Some (lit "xxxxxxxx"))) 4 (lit "ab%yc%-5") [] = Ok (map Some (lit "abc" ++ [NUL] ++ lit "xxxx"), 3%Z, []).
Proof. reflexivity. Qed.
(** a width or a precision larger than INT_MAX is an error; the text before it has been written *)
Theorem C92_width_too_large is t a st m size flags ds rest :
  size <= length m -> Forall wf_item is -> expands supported 0 is a t st ->
  Forall (fun c => In c (lit "-+ #0'")) flags -> all_digits ds -> ds <> [] -> hd NUL ds <> "0"%char -> (INT_MAX < number ds)%Z ->
  rpl_vsnprintf (Some m) size (renders is ++ "%"%char :: flags ++ ds ++ rest) a = Ok (terminated size m t, -1, st)%Z.
Proof. apply vsnprintf_overflow. Qed.
Print Assumptions C92_width_too_large.
Theorem C92_precision_too_large is t a st m size flags ds rest :
  size <= length m -> Forall wf_item is -> expands supported 0 is a t st ->
  Forall (fun c => In c (lit "-+ #0'")) flags -> all_digits ds -> (INT_MAX < number ds)%Z ->
  rpl_vsnprintf (Some m) size (renders is ++ "%"%char :: flags ++ "."%char :: ds ++ rest) a = Ok (terminated size m t, -1, st)%Z.
Proof. apply vsnprintf_overflow_prec. Qed.
Print Assumptions C92_precision_too_large.
Example C92_too_large_instance :
  rpl_vsnprintf (Some (repeat None 4)) 4 (lit "a%-2147483648d") [] = Ok (map Some ["a"%char; NUL] ++ [None; None], -1, [])%Z /\
  rpl_vsnprintf (Some (repeat None 4)) 4 (lit "a%.99999999999s") [] = Ok (map Some ["a"%char; NUL] ++ [None; None], -1, [])%Z.
Proof. split; vm_compute; reflexivity. Qed.

(** * C93: rpl_vasprintf allocates a string with the whole text *)
Theorem C93_vasprintf_partial malloc is args t st :
  (forall n m, malloc n = Some m -> length m = n) ->
  Forall wf_item is -> expands supported 0 is args t st ->
  rpl_vasprintf malloc (renders is) args = Ok (
    if (INT_MAX <=? Z.of_nat (length t))%Z then (None, -1)%Z
    else match malloc (length t + 1) with
         | None => (Some None, -1)%Z
         | Some _ => (Some (Some (map Some (t ++ [NUL]))), Z.of_nat (length t))
         end).
Proof.
  intros ML WF E. unfold rpl_vasprintf. rewrite (C91_length_only_partial 0 WF E). cbn [bind]. unfold printf_result.
  destruct (Z.leb_spec INT_MAX (Z.of_nat (length t))) as [C|C]; [reflexivity|].
  replace (Z.of_nat (length t) <? 0)%Z with false by (symmetry; apply Z.ltb_ge; lia). cbv zeta.
  replace (Z.to_nat (Z.of_nat (length t) + 1)) with (S (length t)) by lia. replace (length t + 1) with (S (length t)) by lia.
  destruct (malloc (S (length t))) as [m|] eqn:M; [|reflexivity]. apply ML in M.
  assert (LE : S (length t) <= length m) by (rewrite M; lia).
  pose proof (@C91_vsnprintf_partial is args t st m (S (length t)) WF E LE) as V.
  unfold cells in V |- *. rewrite V. cbn [bind].
  unfold printf_result, terminated. rewrite (proj2 (Z.leb_gt _ _) C). do 4 f_equal.
  rewrite firstn_all, Nat.min_id, map_app. cbn [map]. do 2 f_equal. apply skipn_all2. lia.
Qed.
Print Assumptions C93_vasprintf_partial.
(** whatever the format and the arguments: a result of 0 or more comes with a string of its own, whose
    memory has exactly one byte more than the length only measured *)
Theorem C93_any_format malloc format args o r : (forall n m, malloc n = Some m -> length m = n) ->
  rpl_vasprintf malloc format args = Ok (o, r) ->
  (-1 <= r < INT_MAX)%Z /\ (r <> (-1)%Z -> exists m i, o = Some (Some m) /\ nth_error m i = Some (Some NUL) /\
    exists m0 len st, rpl_vsnprintf None 0 format args = Ok (m0, len, st) /\ length m = Z.to_nat len + 1).
Proof.
  unfold rpl_vasprintf. intros ML H. destruct (rpl_vsnprintf None 0 format args) as [[[m0 len] st0]| | |] eqn:E; try discriminate. cbn [bind] in H.
  destruct (Z.ltb_spec len 0) as [C|C]; [injection H as <- <-; split; [split; [lia|reflexivity]|congruence]|]. cbv zeta in H.
  destruct (malloc (Z.to_nat (len + 1))) as [m|] eqn:M; [|injection H as <- <-; split; [split; [lia|reflexivity]|congruence]]. apply ML in M.
  unfold cells in *. destruct (rpl_vsnprintf (Some m) (Z.to_nat (len + 1)) format args) as [[[m1 r1] st1]| | |] eqn:E1; try discriminate. cbn [bind] in H. injection H as <- <-.
  destruct (@C92_never_outside m (Z.to_nat (len + 1)) format args (ltac:(rewrite M; lia))) as [_ X].
  destruct (X _ _ _ E1) as (L & _ & N & R). split; [exact R|]. intros _. destruct N as (i & I & N); [lia|]. exists m1, i. split; [reflexivity|]. split; [exact N|].
  exists m0, len, st0. split; [reflexivity|]. rewrite L, M. lia.
Qed.
Print Assumptions C93_any_format.
Example C93_instance : rpl_vasprintf (fun n => Some (repeat None n)) (lit "%s=%04x") [AStr (Some (block (lit "n"))); AInt 255] = Ok (Some (Some (map Some (lit "n=00ff" ++ [NUL]))), 6%Z).
Proof. reflexivity. Qed.
