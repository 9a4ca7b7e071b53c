(** C35 (trimming), C36 (tokens), C55 (hexadecimal and canonical names), C61
    (character scanning and replacing helpers). *)
From Verif Require Import Prelude PreludeFacts Str StrFacts Libc LibcFacts MemSpec EditSpec CmpModel EditModel.
From Verif Require Import EditProofs EditProofs2 EditProofs3 EditProofs4 EditProofs5.
Set Implicit Arguments.

(** * C35 *)

(** the result, at the returned offset, is the string without leading and trailing
    white space; only bytes of the string and its terminator are touched *)
Theorem C35_TrimWhitespace m s : holds m s ->
  exists m' off t, TrimWhitespace m = Ok (m', off) /\ stripped isspace s t /\ holds (skipn off m') t /\
    same_from (S (length s)) m m' /\ firstn off m' = firstn off m /\ off <= length s.
Proof. apply TrimWhitespace_spec. Qed.

(** StripTrailingNewline and Chop: -1 and untouched for a string longer than the given
    maximum, otherwise the string without its trailing newlines / white space *)
Theorem C35_StripTrailingNewline m s max : holds m s ->
  (max < length s -> StripTrailingNewline (Some m) max = Ok (Some m, (-1)%Z)) /\
  (length s <= max -> exists t, stripped_right (fun c => beq c (ascii_of_nat 10)) s t /\
     StripTrailingNewline (Some m) max = Ok (Some (put m t), 0%Z)).
Proof.
  intros H. destruct (@strip_trailing_spec (fun c => beq c (ascii_of_nat 10)) m s max eq_refl H) as [m' [r [E [A B]]]].
  unfold StripTrailingNewline. rewrite E. split.
  - intros L. destruct (B L) as [-> ->]. reflexivity.
  - intros L. destruct (A L) as [-> [t [St ->]]]. exists t. auto.
Qed.
Theorem C35_Chop m s max : holds m s ->
  (max < length s -> Chop (Some m) max = Ok (Some m, (-1)%Z)) /\
  (length s <= max -> exists t, stripped_right isspace s t /\ Chop (Some m) max = Ok (Some (put m t), 0%Z)).
Proof.
  intros H. destruct (@strip_trailing_spec isspace m s max eq_refl H) as [m' [r [E [A B]]]].
  unfold Chop. rewrite E. split.
  - intros L. destruct (B L) as [-> ->]. reflexivity.
  - intros L. destruct (A L) as [-> [t [St ->]]]. exists t. auto.
Qed.
(** [stripped_right] determines the result *)
Theorem C35_stripped_right_unique p s t1 t2 : stripped_right p s t1 -> stripped_right p s t2 -> t1 = t2.
Proof. apply stripped_right_unique. Qed.

Theorem C35_TrimCSVLineCRLF m s : holds m s ->
  (forall t, s = t ++ [ascii_of_nat 13; ascii_of_nat 10] ->
     exists m', TrimCSVLineCRLF m = Ok (m', length t) /\ holds m' t /\ same_from (length t + 2) m m') /\
  ((forall t, s <> t ++ [ascii_of_nat 13; ascii_of_nat 10]) -> TrimCSVLineCRLF m = Ok (m, length s)).
Proof.
  intros H. split.
  - intros t ->. exact (@TrimCSVLineCRLF_crlf m t H).
  - apply TrimCSVLineCRLF_other, H.
Qed.

Example C35_ex :
  (exists m, TrimWhitespace (block (lit "  a b  ")) = Ok (m, 2) /\ firstn 4 (skipn 2 m) = map Some (lit "a b") ++ [Some NUL]) /\
  Chop (Some (block (lit "ab  "))) 10 = Ok (Some (put (block (lit "ab  ")) (lit "ab")), 0%Z) /\
  Chop (Some (block (lit "ab  "))) 3 = Ok (Some (block (lit "ab  ")), (-1)%Z) /\
  TrimCSVLineCRLF (block (lit "x" ++ [ascii_of_nat 13; ascii_of_nat 10])) = Ok ([Some "x"%char; Some NUL; Some NUL; Some NUL], 1).
Proof. split; [eexists; split; reflexivity|]. repeat split. Qed.

(** * C36 *)

(** separators are the given characters, and NUL *)
Definition sepset (seps : list byte) (c : byte) : bool := existsb (beq c) (NUL :: seps).

Lemma is_sep_sepset seps : is_cstr seps -> forall c, is_sep seps c = sepset seps c.
Proof.
  intros C c. unfold sepset. assert (X : existsb (beq c) (NUL :: seps) = true <-> c = NUL \/ In c seps).
  { rewrite existsb_exists. split.
    - intros [x [I E]]. apply beq_true in E as ->. destruct I as [->|I]; auto.
    - intros [-> |I]; [exists NUL; split; [left; reflexivity|apply beq_refl]|exists c; split; [right; exact I|apply beq_refl]]. }
  rewrite <- is_sep_spec in X by exact C. destruct (is_sep seps c), (existsb (beq c) (NUL :: seps)); try reflexivity.
  - destruct X as [_ X]. discriminate (X eq_refl).
  - destruct X as [X _]. discriminate (X eq_refl).
Qed.

(** every text is cut into its maximal runs of non-separators in one way *)
Theorem C36_tokens_exist_uniquely seps s : exists ts, runs (sepset seps) 0 s ts /\ forall ts', runs (sepset seps) 0 s ts' -> ts' = ts.
Proof.
  destruct (@runs_exists (sepset seps) (S (length s)) 0 s ltac:(lia)) as [ts R]. exists ts. split; [exact R|].
  intros ts' R'. eapply runs_unique; eauto.
Qed.

(** StringCountTokens counts them and StringGetToken gives the position and length of
    the one asked for, or none; [j] is whatever follows the given length in memory *)
Theorem C36_tokens seps s j ts : is_cstr seps -> runs (sepset seps) 0 s ts ->
  StringCountTokens (map Some s ++ j) (length s) seps = Ok (length ts) /\
  forall i, StringGetToken (map Some s ++ j) (length s) i seps
    = Ok (match nth_error ts i with Some (off, t) => Some (off, length t) | None => None end).
Proof.
  intros C R. assert (R' : runs (is_sep seps) 0 s ts) by (eapply runs_ext; [|exact R]; intros c; symmetry; apply is_sep_sepset, C).
  split.
  - unfold StringCountTokens. rewrite <- (runs_count R'). exact (@count_tokens_loop_spec seps (S (length s)) [] s j 0 false ltac:(lia)).
  - intros i. rewrite (StringGetToken_spec j i R'). destruct (nth_error ts i) as [[off t]|]; reflexivity.
Qed.

(** each token is the text at its position *)
Theorem C36_tokens_are_where_they_say seps s ts : runs (sepset seps) 0 s ts ->
  forall off t, In (off, t) ts -> firstn (length t) (skipn off s) = t /\ off + length t <= length s.
Proof.
  assert (G : forall p o s ts, runs p o s ts -> forall off t, In (off, t) ts -> o <= off /\ firstn (length t) (skipn (off - o) s) = t /\ off + length t <= o + length s).
  { clear. intros p o s ts R. induction R as [o|o c s ts Sc R IH|o t0 s ts N A B R IH]; intros off t I.
    - destruct I.
    - destruct (IH off t I) as [L [E B]]. split; [lia|]. replace (off - o) with (S (off - S o)) by lia. cbn [skipn length]. split; [exact E|lia].
    - destruct I as [X|I].
      + injection X as -> ->. split; [lia|]. rewrite Nat.sub_diag. cbn [skipn]. rewrite firstn_app_le, firstn_all by lia. rewrite app_length. split; [reflexivity|lia].
      + destruct (IH off t I) as [L [E B']]. split; [lia|]. rewrite skipn_app_ge by lia. replace (off - o - length t0) with (off - (o + length t0)) by lia.
        rewrite app_length. split; [exact E|lia]. }
  intros R off t I. destruct (G _ _ _ _ R _ _ I) as [_ [E B]]. rewrite Nat.sub_0_r in E. auto.
Qed.

(** String2StringArray: the pieces between separators, then a NULL *)
Theorem C36_String2StringArray s sep : sep <> NUL -> is_cstr s ->
  exists ps, pieces_of sep s ps /\ (forall ps', pieces_of sep s ps' -> ps' = ps) /\
    String2StringArray (Some s) sep = Ok (Some (map (fun p => Some (Some (block p))) ps ++ [Some None])).
Proof.
  intros NS C. destruct (@s2a_loop_spec sep (S (length s)) NS s [] (count_sep s sep + 2) C ltac:(lia)) as [ps [P [LP E]]].
  exists ps. split; [exact P|]. split; [intros ps' P'; eapply pieces_unique; eauto|].
  unfold String2StringArray. cbn [length map app] in E. rewrite E by lia. cbn [bind]. rewrite map_map.
  replace (count_sep s sep + 2 - length ps) with 1 by lia. reflexivity.
Qed.

Example C36_ex :
  StringCountTokens (block (lit " aa, b,,c ")) 10 (lit " ,") = Ok 3 /\
  StringGetToken (block (lit " aa, b,,c ")) 10 1 (lit " ,") = Ok (Some (5, 1)) /\
  StringGetToken (block (lit " aa, b,,c ")) 10 3 (lit " ,") = Ok None /\
  String2StringArray (Some (lit "a::b")) ":"%char = Ok (Some (map (fun p => Some (Some (block p))) [lit "a"; []; lit "b"] ++ [Some None])).
Proof. repeat split. Qed.

(** * C55 *)

(** two lower-case digits per byte, as many bytes as fit with the terminator *)
Theorem C55_StringBytesToHex m dst_size src src_len : 0 < dst_size <= length m -> src_len <= length src ->
  let k := Nat.min src_len ((dst_size - 1) / 2) in
  StringBytesToHex m dst_size src src_len = Ok (put m (hex (firstn k src)), 2 * k).
Proof. apply StringBytesToHex_spec. Qed.
Theorem C55_hex_injective a b : hex a = hex b -> a = b.
Proof. apply hex_inj. Qed.
(** so different byte strings that fit give different texts *)
Theorem C55_StringBytesToHex_injective m size a b ma mb na nb : size <= length m -> 2 * length a < size -> 2 * length b < size ->
  StringBytesToHex m size a (length a) = Ok (ma, na) -> StringBytesToHex m size b (length b) = Ok (mb, nb) ->
  holds ma (hex a) /\ holds mb (hex b) /\ na = length (hex a) /\ (a <> b -> hex a <> hex b).
Proof.
  intros L La Lb Ea Eb.
  assert (K : forall x : list byte, 2 * length x < size -> Nat.min (length x) ((size - 1) / 2) = length x).
  { intros x Lx. apply Nat.min_l. apply Nat.div_le_lower_bound; lia. }
  rewrite StringBytesToHex_spec in Ea by lia. rewrite StringBytesToHex_spec in Eb by lia.
  rewrite K, firstn_all in Ea by lia. rewrite K, firstn_all in Eb by lia. injection Ea as <- <-. injection Eb as <- _.
  split; [apply put_holds, hex_cstr|]. split; [apply put_holds, hex_cstr|]. split; [rewrite hex_length; reflexivity|].
  intros N E. apply N, hex_inj, E.
Qed.

(** letters and digits are kept, every other byte becomes an underscore *)
Definition canonical (c : byte) : byte :=
  let n := code c in
  if ((48 <=? n) && (n <=? 57) || (65 <=? n) && (n <=? 90) || (97 <=? n) && (n <=? 122))%N then c else "_"%char.
Lemma canonical_isalnum c : canonical c = if isalnum c then c else "_"%char.
Proof. destruct c as [[] [] [] [] [] [] [] []]; reflexivity. Qed.

Theorem C55_StringCanonify m src : is_cstr src -> length src < length m ->
  StringCanonify m src = Ok (put m (map canonical src), length src).
Proof.
  intros C L. rewrite StringCanonify_spec by auto. do 3 f_equal. apply map_ext. intros c. rewrite canonical_isalnum. reflexivity.
Qed.
Theorem C55_CanonifyNameInPlace m s : holds m s -> CanonifyNameInPlace m = Ok (put m (map canonical s)).
Proof.
  intros H. unfold CanonifyNameInPlace. rewrite (map_loop_whole _ H). do 2 f_equal. apply map_ext. intros c. rewrite canonical_isalnum.
  destruct (isalnum c); reflexivity.
Qed.
Example C55_ex :
  StringBytesToHex (repeat None 7) 7 [ascii_of_nat 0; ascii_of_nat 255; ascii_of_nat 26; "x"%char] 4 = Ok (block (lit "00ff1a"), 6) /\
  CanonifyNameInPlace (block (lit "a-b c_9.")) = Ok (block (lit "a_b_c_9_")).
Proof. split; reflexivity. Qed.

(** * C61 *)

Theorem C61_ReplaceChar inp m n from to : is_cstr inp -> 0 < n <= length m -> to <> NUL ->
  exists m', ReplaceChar inp m n from to = Ok m' /\
    holds m' (map (fun c => if beq c from then to else c) (firstn (n - 1) inp)) /\ same_from n m m'.
Proof. apply ReplaceChar_spec. Qed.

Theorem C61_ReplaceTrailingChar m s from to : holds m s ->
  (forall t, s = t ++ [from] -> ReplaceTrailingChar m from to = Ok (map Some (t ++ [to]) ++ skipn (length s) m)) /\
  ((forall t, s <> t ++ [from]) -> ReplaceTrailingChar m from to = Ok m).
Proof.
  intros H. destruct (ReplaceTrailingChar_spec from to H) as [m' [E [[t [Es ->]]|[N ->]]]]; rewrite E; split.
  - intros t' E'. rewrite Es in E'. apply app_inj_tail in E' as [-> _]. reflexivity.
  - intros N. destruct (N t Es).
  - intros t Es. destruct (N t Es).
  - reflexivity.
Qed.

(** StringCloseHole removes the characters from [a] up to [b] *)
Theorem C61_StringCloseHole m s a b : holds m s -> a <= b <= length s ->
  exists m', StringCloseHole m a b = Ok m' /\ holds m' (firstn a s ++ skipn b s) /\ same_from (S (length s)) m m'.
Proof. apply StringCloseHole_spec. Qed.

(** memcchr: the first of [n] bytes different from [c] *)
Theorem C61_memcchr (l : list byte) j c : exists r, memcchr (map Some l ++ j) c (length l) = Ok r /\
  match r with
  | Some i => i < length l /\ nth i l NUL <> c /\ forall k, k < i -> nth k l NUL = c
  | None => forall x, In x l -> x = c
  end.
Proof.
  unfold memcchr. pose proof (@memcchr_loop_spec (S (length l)) 0 l j c (length l) eq_refl ltac:(lia) ltac:(lia)) as X. rewrite Nat.sub_0_r in X.
  eexists. split; [exact X|].
  assert (F : forall p n a, match find p (seq a n) with Some k => a <= k < a + n /\ p k = true /\ (forall i, a <= i < k -> p i = false) | None => forall i, a <= i < a + n -> p i = false end).
  { clear. intros p n. induction n as [|n IH]; intros a; cbn; [intros; lia|]. destruct (p a) eqn:E; [split; [lia|split; [exact E|lia]]|].
    specialize (IH (S a)). destruct (find p (seq (S a) n)) as [k|].
    - destruct IH as [B [P Q]]. split; [lia|]. split; [exact P|]. intros i I. destruct (Nat.eq_dec i a) as [->|]; [exact E|]. apply Q. lia.
    - intros i I. destruct (Nat.eq_dec i a) as [->|]; [exact E|]. apply IH. lia. }
  specialize (F (fun k => negb (beq (nth k l NUL) c)) (length l) 0). cbn beta in F. destruct (find _ _) as [k|].
  - destruct F as [B [P Q]]. split; [lia|]. split.
    + apply negb_true_iff, beq_false in P. exact P.
    + intros i I. specialize (Q i ltac:(lia)). apply negb_false_iff, beq_true in Q. exact Q.
  - intros x I. apply (In_nth _ _ NUL) in I as [k [Lk <-]]. specialize (F k ltac:(lia)). apply negb_false_iff, beq_true in F. exact F.
Qed.

(** predicates over all characters *)
Theorem C61_predicates s : is_cstr s ->
  (exists b, StringIsNumeric s = Ok b /\ (b = true <-> forall c, In c s -> isdigit c = true)) /\
  (exists b, StringIsPrintable s = Ok b /\ (b = true <-> forall c, In c s -> isprint c = true)) /\
  (exists b, EmptyString s = Ok b /\ (b = true <-> forall c, In c s -> isspace c = true)).
Proof.
  intros C. unfold StringIsNumeric, StringIsPrintable, EmptyString.
  split; [|split]; (eexists; split; [exact (@all_loop_spec _ (S (length s)) [] s ltac:(lia) C)|apply forallb_forall]).
Qed.

(** the leading characters not in [exclude], as many as fit; true if they filled the
    buffer *)
Theorem C61_StringNotMatchingSetCapped isp limit exclude m : is_cstr isp -> is_cstr exclude -> 0 < limit <= length m ->
  exists v w, isp = v ++ w /\ (forall c, In c v -> ~ In c exclude) /\ match w with [] => True | c :: _ => In c exclude end /\
  StringNotMatchingSetCapped isp limit exclude m = Ok (put m (firstn (limit - 1) v), limit - 1 <=? length v).
Proof.
  intros C Ce L. pose proof (@StringNotMatching_spec isp limit exclude m C L) as X. cbv zeta in X.
  exists (firstn (strcspn isp exclude) isp), (skipn (strcspn isp exclude) isp). rewrite firstn_skipn.
  split; [reflexivity|].
  assert (S1 : (forall c, In c (firstn (strcspn isp exclude) isp) -> ~ In c exclude) /\ match skipn (strcspn isp exclude) isp with [] => True | c :: _ => In c exclude end).
  { destruct (strcspn_spec isp exclude) as [a [b [E [La [A B]]]]]. rewrite <- La. rewrite E.
    rewrite firstn_app_le, firstn_all, skipn_app_ge, Nat.sub_diag by lia. cbn [skipn]. auto. }
  destruct S1 as [A B]. split; [exact A|]. split; [exact B|]. exact X.
Qed.

(** ScanPastChars skips the longest prefix of characters in the set *)
Theorem C61_ScanPastChars set input : is_cstr set -> is_cstr input ->
  exists v w, input = v ++ w /\ ScanPastChars set input = Ok (length v) /\
    (forall c, In c v -> In c set) /\ match w with [] => True | c :: _ => ~ In c set end.
Proof.
  intros C Ci. destruct (@scan_past_spec set (S (length input)) [] input Ci ltac:(lia)) as [v [w [E [S1 [A B]]]]].
  exists v, w. split; [exact E|]. split; [exact S1|]. split.
  - intros c I. specialize (A c I). apply (is_sep_spec c C) in A as [->|A]; [|exact A]. exfalso. apply Ci. rewrite E. apply in_or_app. auto.
  - destruct w as [|c w]; [exact Logic.I|]. intros I. assert (is_sep set c = true) by (apply is_sep_spec; auto). congruence.
Qed.

Example C61_ex :
  (exists r, ReplaceChar (lit "a-b-c") (repeat None 9) 4 "-"%char "_"%char = Ok (map Some (lit "a_b") ++ Some NUL :: r)) /\
  StringCloseHole (block (lit "abcdef")) 1 3 = Ok (block (lit "adef") ++ [Some "f"%char; Some NUL]) /\
  memcchr (map Some (lit "aab")) "a"%char 3 = Ok (Some 2) /\
  StringIsNumeric (lit "0123x") = Ok false /\ ScanPastChars (lit " .") (lit ". .ab") = Ok 3 /\
  (exists r, StringNotMatchingSetCapped (lit "key=value") 6 (lit "=;") (repeat None 6) = Ok (map Some (lit "key") ++ Some NUL :: r, false)).
Proof. split; [eexists; reflexivity|]. do 4 (split; [reflexivity|]). eexists; reflexivity. Qed.
