(** Facts about the C library specifications of Libc.v *)
From Verif Require Import Prelude PreludeFacts Str StrFacts Libc MemSpec.
Set Implicit Arguments.

(** * C strings in buffers *)
Lemma mstr_holds m s : mstr m = Ok s <-> holds m s.
Proof.
  revert s; induction m as [|[c|] m IH]; intros s; cbn.
  - split; [discriminate|]. intros [_ [r H]]. destruct s; discriminate.
  - destruct (beq_spec c NUL) as [->|N].
    + split.
      * intros H; injection H as <-. split; [intros []|]. exists m. reflexivity.
      * intros [C [r H]]. destruct s as [|d s]; [reflexivity|]. cbn in H. injection H as <- _.
        exfalso. apply C. left; reflexivity.
    + destruct (mstr m) as [t| | |] eqn:E; cbn.
      * split.
        -- intros H; injection H as <-. destruct (proj1 (IH t) eq_refl) as [C [r ->]].
           split; [apply is_cstr_cons; auto|]. exists r. reflexivity.
        -- intros [C [r H]]. destruct s as [|d s]; cbn in H; [injection H as -> _; congruence|].
           injection H as <- H. apply is_cstr_cons in C as [_ C].
           assert (X : Ok t = Ok s) by (apply IH; split; eauto). injection X as ->; reflexivity.
      * split; [discriminate|]. intros [C [r H]]. destruct s as [|d s]; cbn in H; [injection H as -> _; congruence|].
           injection H as <- H. apply is_cstr_cons in C as [_ C].
           assert (X : @UB (list byte) = Ok s) by (apply IH; split; eauto). discriminate.
      * split; [discriminate|]. intros [C [r H]]. destruct s as [|d s]; cbn in H; [injection H as -> _; congruence|].
           injection H as <- H. apply is_cstr_cons in C as [_ C].
           assert (X : @Abort (list byte) = Ok s) by (apply IH; split; eauto). discriminate.
      * split; [discriminate|]. intros [C [r H]]. destruct s as [|d s]; cbn in H; [injection H as -> _; congruence|].
           injection H as <- H. apply is_cstr_cons in C as [_ C].
           assert (X : @Fuel (list byte) = Ok s) by (apply IH; split; eauto). discriminate.
  - split; [discriminate|]. intros [_ [r H]]. destruct s; discriminate.
Qed.

Lemma holds_unique m s t : holds m s -> holds m t -> s = t.
Proof. rewrite <- !mstr_holds. congruence. Qed.

Lemma holds_length m s : holds m s -> length s < length m.
Proof. intros [_ [r ->]]. rewrite app_length, map_length. cbn. lia. Qed.

Lemma mstrnlen_holds m s max : holds m s -> mstrnlen m max = Ok (Nat.min max (length s)).
Proof.
  intros [C [r ->]]. revert max C. induction s as [|c s IH]; intros [|max] C; cbn; try reflexivity.
  apply is_cstr_cons in C as [N C]. apply beq_false in N. rewrite N, IH; auto.
Qed.

Lemma length_block s : length (block s) = S (length s).
Proof. unfold block. rewrite map_length, app_length. cbn. lia. Qed.
Lemma block_holds s : is_cstr s -> holds (block s) s.
Proof. intros C; split; [exact C|]. exists []. unfold block. rewrite map_app. reflexivity. Qed.
Lemma block_eq s : block s = map Some s ++ [Some NUL].
Proof. unfold block. rewrite map_app. reflexivity. Qed.

(** reading a cell of a buffer that holds a string *)
Lemma holds_aget m s i : holds m s -> i <= length s -> aget m i = Ok (nth i s NUL).
Proof.
  intros [_ [r ->]] L. unfold aget.
  destruct (Nat.eq_dec i (length s)) as [->|N].
  - rewrite nth_error_app2; rewrite map_length; [|lia]. rewrite Nat.sub_diag. cbn.
    rewrite nth_overflow; [reflexivity|lia].
  - rewrite nth_error_app1; [|rewrite map_length; lia].
    rewrite nth_error_map, (nth_error_nth' s NUL); [reflexivity|lia].
Qed.

Lemma nth_cstr s i : is_cstr s -> i < length s -> nth i s NUL <> NUL.
Proof. intros C L E. apply C. rewrite <- E. apply nth_In, L. Qed.

(** * memcpy from a string into a buffer *)
Lemma acopy_Ok A (d : list A) dst s src n :
  dst + n <= length d -> src + n <= length s ->
  acopy d dst s src n = Ok (firstn dst d ++ firstn n (skipn src s) ++ skipn (dst + n) d).
Proof.
  intros H1 H2. unfold acopy. apply Nat.leb_le in H1, H2. rewrite H1, H2. reflexivity.
Qed.

Lemma acopy_length A (d : list A) dst s src n d' : acopy d dst s src n = Ok d' -> length d' = length d.
Proof.
  unfold acopy. destruct (_ && _) eqn:E; [|discriminate]. intros H; injection H as <-.
  apply andb_true_iff in E as [H1 H2]. apply Nat.leb_le in H1, H2.
  rewrite !app_length, !firstn_length, !skipn_length. lia.
Qed.

Lemma aset_Ok A (d : cells A) i x : i < length d -> aset d i x = Ok (upd d i (Some x)).
Proof. intros H. unfold aset. apply Nat.ltb_lt in H. rewrite H. reflexivity. Qed.

(** * span *)
Lemma span_eq p s a b : span p s = (a, b) ->
  s = a ++ b /\ forallb p a = true /\ match b with [] => True | c :: _ => p c = false end.
Proof.
  revert a b; induction s as [|c s IH]; intros a b H; cbn in H.
  - injection H as <- <-. auto.
  - destruct (p c) eqn:P.
    + destruct (span p s) as [a' b'] eqn:E. injection H as <- <-.
      destruct (IH a' b' eq_refl) as [-> [F B]]. cbn. rewrite P. auto.
    + injection H as <- <-. cbn. auto.
Qed.

Lemma span_app p a b : forallb p a = true -> match b with [] => True | c :: _ => p c = false end ->
  span p (a ++ b) = (a, b).
Proof.
  intros F B. induction a as [|c a IH]; cbn in *.
  - destruct b as [|c b]; [reflexivity|]. cbn. rewrite B. reflexivity.
  - apply andb_true_iff in F as [P F]. rewrite P, (IH F). reflexivity.
Qed.

(** * strstr *)
Lemma prefixb_spec p s : prefixb p s = true <-> exists b, s = p ++ b.
Proof.
  revert s; induction p as [|x p IH]; intros [|y s]; cbn.
  - split; eauto.
  - split; eauto.
  - split; [discriminate|]. intros [b H]; discriminate.
  - rewrite andb_true_iff, beq_true, IH. split.
    + intros [-> [b ->]]. eauto.
    + intros [b H]. injection H as -> ->. eauto.
Qed.

Lemma strstr_Some s f i : strstr s f = Some i -> first_occurrence f s i.
Proof.
  revert i; induction s as [|c s IH]; intros i H; cbn [strstr] in H.
  - destruct (prefixb f []) eqn:P; [|discriminate]. injection H as <-.
    apply prefixb_spec in P as [b E]. split; [exists [], b; auto|intros; lia].
  - destruct (prefixb f (c :: s)) eqn:P.
    + injection H as <-. apply prefixb_spec in P as [b E]. split; [exists [], b; auto|intros; lia].
    + destruct (strstr s f) as [j|]; [|discriminate]. injection H as <-.
      destruct (IH j eq_refl) as [[a [b [E L]]] M]. split.
      * exists (c :: a), b. rewrite E; cbn; auto.
      * intros k [a' [b' [E' L']]]. destruct a' as [|d a'].
        -- cbn in E'. assert (prefixb f (c :: s) = true) by (apply prefixb_spec; eauto). congruence.
        -- cbn in E', L'. injection E' as <- E'. assert (j <= length a') by (apply M; exists a', b'; auto). lia.
Qed.

Lemma strstr_None s f : strstr s f = None -> absent f s.
Proof.
  intros H i [a [b [E _]]]. revert s H E. induction a as [|d a IH]; intros s H E.
  - cbn in E. assert (P : prefixb f s = true) by (apply prefixb_spec; eauto).
    destruct s; cbn [strstr] in H; rewrite P in H; discriminate.
  - subst s. cbn [strstr app] in H.
    destruct (prefixb f (d :: a ++ f ++ b)); [discriminate|].
    destruct (strstr (a ++ f ++ b) f) eqn:X; [discriminate|]. eapply IH; eauto.
Qed.

Lemma strstr_first s f i : first_occurrence f s i -> strstr s f = Some i.
Proof.
  intros [O M]. destruct (strstr s f) as [j|] eqn:E.
  - apply strstr_Some in E as [O' M']. f_equal. apply Nat.le_antisymm; auto.
  - apply strstr_None in E. destruct (E _ O).
Qed.
Lemma strstr_absent s f : absent f s -> strstr s f = None.
Proof.
  intros A. destruct (strstr s f) as [j|] eqn:E; [|reflexivity].
  apply strstr_Some in E as [O _]. destruct (A _ O).
Qed.

(** * strchr / strcspn *)
Lemma strchr_cases s c : is_cstr s -> c <> NUL ->
  match strchr s c with
  | Some i => exists a b, s = a ++ c :: b /\ length a = i /\ ~ In c a
  | None => ~ In c s
  end.
Proof.
  intros C N. induction s as [|x s IH]; cbn.
  - apply beq_false in N. rewrite N. auto.
  - apply is_cstr_cons in C as [_ C]. destruct (beq_spec x c) as [->|NE].
    + exists [], s. auto.
    + specialize (IH C). destruct (strchr s c) as [i|]; cbn.
      * destruct IH as [a [b [-> [L NI]]]]. exists (x :: a), b. cbn. repeat split; auto. intros [?|?]; auto.
      * intros [?|?]; auto.
Qed.

Lemma strcspn_spec s set :
  exists a b, s = a ++ b /\ length a = strcspn s set /\ (forall c, In c a -> ~ In c set) /\
              match b with [] => True | c :: _ => In c set end.
Proof.
  induction s as [|x s IH]; cbn.
  - exists [], []. repeat split; intros c [].
  - destruct (existsb (beq x) set) eqn:E.
    + exists [], (x :: s). repeat split; [intros c []|].
      apply existsb_exists in E as [y [I Y]]. apply beq_true in Y. subst. exact I.
    + destruct IH as [a [b [-> [L [NI B]]]]]. exists (x :: a), b. cbn. rewrite L. repeat split; auto.
      intros c [<-|I]; [|auto]. intros I. assert (existsb (beq x) set = true) by (apply existsb_exists; exists x; split; [exact I|apply beq_refl]). congruence.
Qed.

(** * ctype *)
Lemma code_ascii n : (n < 256)%N -> code (ascii_of_N n) = n.
Proof. apply N_ascii_embedding. Qed.
Lemma isdigit_code c : isdigit c = true <-> (48 <= code c <= 57)%N.
Proof. unfold isdigit, in_range. rewrite andb_true_iff, !N.leb_le. reflexivity. Qed.
Lemma isdigit_not_space c : isdigit c = true -> isspace c = false.
Proof.
  rewrite isdigit_code. intros H. unfold isspace, in_range.
  destruct (N.leb_spec 9 (code c)); destruct (N.leb_spec (code c) 13); destruct (N.eqb_spec (code c) 32); cbn; lia.
Qed.

(** * decimal numerals *)
Lemma digit_char_code d : (d < 10)%N -> code (digit_char d) = (48 + d)%N.
Proof. intros H. apply code_ascii. lia. Qed.
Lemma digit_char_isdigit d : (d < 10)%N -> isdigit (digit_char d) = true.
Proof. intros H. apply isdigit_code. rewrite digit_char_code; lia. Qed.
Lemma digit_val_char d : (d < 10)%N -> digit_val (digit_char d) = d.
Proof. intros H. unfold digit_val. rewrite digit_char_code; lia. Qed.
Lemma digit_val_lt c : isdigit c = true -> (digit_val c < 10)%N.
Proof. rewrite isdigit_code. unfold digit_val. lia. Qed.
Lemma digit_char_val c : isdigit c = true -> digit_char (digit_val c) = c.
Proof.
  intros H. apply code_inj. pose proof (digit_val_lt c H). rewrite digit_char_code by lia.
  apply isdigit_code in H. unfold digit_val. lia.
Qed.

Lemma undec_acc s a :
  fold_left (fun a c => (10 * a + digit_val c)%N) s a = (a * 10 ^ N.of_nat (length s) + undec s)%N.
Proof.
  unfold undec. revert a. induction s as [|c s IH]; intros a; cbn [fold_left length].
  - cbn. lia.
  - rewrite IH, (IH (10 * 0 + digit_val c)%N). rewrite Nat2N.inj_succ, N.pow_succ_r'. lia.
Qed.
Lemma undec_app a b : undec (a ++ b) = (undec a * 10 ^ N.of_nat (length b) + undec b)%N.
Proof. unfold undec at 1. rewrite fold_left_app. fold (undec a). apply undec_acc. Qed.
Lemma undec_snoc a c : undec (a ++ [c]) = (10 * undec a + digit_val c)%N.
Proof. unfold undec. rewrite fold_left_app. reflexivity. Qed.
Lemma undec_lt s : forallb isdigit s = true -> (undec s < 10 ^ N.of_nat (length s))%N.
Proof.
  induction s as [|c s IH] using rev_ind; intros F.
  - cbn. lia.
  - rewrite forallb_app in F. apply andb_true_iff in F as [F1 F2]. cbn in F2. rewrite andb_true_r in F2.
    rewrite undec_snoc, app_length, Nat.add_comm. cbn [length Nat.add].
    rewrite Nat2N.inj_succ, N.pow_succ_r'. specialize (IH F1). apply digit_val_lt in F2. lia.
Qed.

(** udec_aux with enough fuel *)
Lemma udec_aux_spec fuel : forall n acc, (n < 10 ^ N.of_nat fuel)%N -> 0 < fuel ->
  exists ds, udec_aux fuel n acc = ds ++ acc /\ undec ds = n /\ forallb isdigit ds = true /\
    ds <> [] /\ (hd NUL ds = "0"%char -> n = 0%N) /\ (n = 0%N -> ds = ["0"%char]).
Proof.
  induction fuel as [|f IH]; intros n acc H P; [lia|].
  cbn [udec_aux]. assert (M : (n mod 10 < 10)%N) by (apply N.mod_lt; lia).
  destruct (N.ltb_spec n 10) as [L|G].
  - exists [digit_char (n mod 10)]. rewrite N.mod_small by lia.
    repeat split.
    + cbn. rewrite digit_val_char by lia. lia.
    + cbn. rewrite digit_char_isdigit by lia. reflexivity.
    + discriminate.
    + cbn. intros E. apply (f_equal code) in E. rewrite digit_char_code in E by lia. change (code "0"%char) with 48%N in E. lia.
    + intros ->. reflexivity.
  - assert (0 < f). { destruct f; [|lia]. cbn in H. lia. }
    assert (B : (n / 10 < 10 ^ N.of_nat f)%N).
    { rewrite Nat2N.inj_succ, N.pow_succ_r' in H. apply N.div_lt_upper_bound; lia. }
    destruct (IH (n / 10)%N (digit_char (n mod 10) :: acc) B) as [ds [E [U [F [NE [Z Z0]]]]]]; [lia|].
    exists (ds ++ [digit_char (n mod 10)]).
    rewrite E, <- app_assoc. repeat split.
    + rewrite undec_snoc, U, digit_val_char by lia. rewrite (N.div_mod n 10) at 3 by lia. lia.
    + rewrite forallb_app, F. cbn. rewrite digit_char_isdigit by lia. reflexivity.
    + destruct ds; discriminate.
    + destruct ds as [|d ds]; [congruence|]. cbn. intros X. specialize (Z X). 
      assert (1 <= n / 10)%N by (apply N.div_le_lower_bound; lia). lia.
    + intros ->. lia.
Qed.

Lemma size_pow10 n : (n < 10 ^ N.of_nat (S (N.size_nat n)))%N.
Proof.
  assert (H : (n < 2 ^ N.of_nat (N.size_nat n))%N).
  { destruct n as [|p]; [cbn; lia|]. cbn [N.size_nat].
    assert (G : N.of_nat (Pos.size_nat p) = N.size (Npos p)).
    { induction p; cbn [Pos.size_nat]; rewrite ?Nat2N.inj_succ, ?IHp; cbn; lia. }
    rewrite G. apply N.size_gt. }
  eapply N.lt_le_trans; [exact H|]. rewrite Nat2N.inj_succ, N.pow_succ_r'.
  transitivity (10 ^ N.of_nat (N.size_nat n))%N; [|lia].
  apply N.pow_le_mono_l. lia.
Qed.

Lemma udec_spec n : undec (udec n) = n /\ forallb isdigit (udec n) = true /\ udec n <> [] /\
  (hd NUL (udec n) = "0"%char -> udec n = ["0"%char]).
Proof.
  unfold udec. destruct (@udec_aux_spec (S (N.size_nat n)) n [] (size_pow10 n)) as [ds [-> [U [F [NE [Z Z0]]]]]]; [lia|].
  rewrite app_nil_r. split; [auto|split; [auto|split; [auto|]]]. intros X. apply Z0, Z, X.
Qed.
Lemma udec_undec n : undec (udec n) = n. Proof. apply udec_spec. Qed.
Lemma udec_digits n : forallb isdigit (udec n) = true. Proof. apply udec_spec. Qed.
Lemma udec_nonempty n : udec n <> []. Proof. apply udec_spec. Qed.
Lemma udec_inj n m : udec n = udec m -> n = m.
Proof. intros H. rewrite <- (udec_undec n), <- (udec_undec m), H. reflexivity. Qed.

Lemma isdigit_nonNUL c : isdigit c = true -> c <> NUL.
Proof. intros H ->. discriminate. Qed.
Lemma digits_cstr s : forallb isdigit s = true -> is_cstr s.
Proof. intros F I. apply forallb_forall with (x := NUL) in F; [discriminate|exact I]. Qed.
Lemma udec_cstr n : is_cstr (udec n).
Proof. apply digits_cstr, udec_digits. Qed.

(** numerals without leading zeros are canonical *)
Lemma undec_lead c s : isdigit c = true -> c <> "0"%char -> (10 ^ N.of_nat (length s) <= undec (c :: s))%N.
Proof.
  intros D N. change (c :: s) with ([c] ++ s). rewrite undec_app.
  assert (1 <= undec [c])%N.
  { cbn. apply isdigit_code in D. unfold digit_val. assert (code c <> 48%N); [|lia].
    intros E. apply N. apply code_inj. exact E. }
  nia.
Qed.

Lemma udec_length n k : (n < 10 ^ N.of_nat k)%N -> 0 < k -> length (udec n) <= k.
Proof.
  intros H K. destruct (udec_spec n) as [U [F [NE Z]]].
  destruct (udec n) as [|c s] eqn:E; [congruence|].
  destruct (ascii_dec c "0"%char) as [->|N].
  - specialize (Z eq_refl). rewrite Z. cbn. lia.
  - cbn in F. apply andb_true_iff in F as [D F].
    pose proof (@undec_lead c s D N). rewrite U in H0.
    assert (10 ^ N.of_nat (length s) < 10 ^ N.of_nat k)%N by lia.
    apply N.pow_lt_mono_r_iff in H1; [|lia]. cbn. lia.
Qed.
