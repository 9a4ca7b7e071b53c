(** C30 (search and replace), C32 (escaping), C33 (substrings), C34 (bounded
    concatenation), C59 (StringConcatenate), C60 (case mapping in place). *)
From Verif Require Import Prelude PreludeFacts Str StrFacts Libc LibcFacts MemSpec EditSpec CmpModel EditModel.
From Verif Require Import EditProofs EditProofs2 EditProofs3 EditProofs4 EditProofs5.
Set Implicit Arguments.

(** [put m x] means what MemSpec says: for a string that fits it holds the string,
    has the same size, and nothing behind the terminator has changed *)
Lemma put_means m x : is_cstr x -> length x < length m ->
  holds (put m x) x /\ same_from (S (length x)) m (put m x).
Proof. intros C L. split; [apply put_holds, C|]. apply put_same_from; lia. Qed.

(** * C30 *)

(** SearchAndReplace: every leftmost non-overlapping occurrence is replaced.  The
    relation [replaced] determines the result. *)
Theorem C30_SearchAndReplace src find rep : find <> [] ->
  exists r, SearchAndReplace (Some src) (Some find) (Some rep) = Ok r /\ replaced find rep src r /\
    forall r', replaced find rep src r' -> r' = r.
Proof.
  intros NF. destruct (@sar_loop_spec (S (length src)) src find rep [] NF ltac:(lia)) as [r [E R]].
  exists r. unfold SearchAndReplace. destruct find; [congruence|]. split; [exact E|]. split; [exact R|].
  intros r' R'. eapply replaced_unique; eauto.
Qed.

Theorem C30_SearchAndReplace_nothing_to_find src rep : SearchAndReplace (Some src) (Some []) (Some rep) = Ok src.
Proof. reflexivity. Qed.

(** StringReplace in a buffer of [size] bytes: 0 and untouched if the text does not
    occur; -1 and untouched if the result with its terminator does not fit; otherwise
    the buffer holds the result, nothing outside the [size] bytes changes, and the
    length of the result is returned *)
Theorem C30_StringReplace m s size find rep : holds m s -> length s < size <= length m ->
  find <> [] -> is_cstr find -> is_cstr rep ->
  exists R, replaced find rep s R /\ (forall R', replaced find rep s R' -> R' = R) /\
  ((absent find s /\ R = s /\ StringReplace m size find rep = Ok (m, 0%Z)) \/
   (~ absent find s /\ size <= length R /\ StringReplace m size find rep = Ok (m, (-1)%Z)) \/
   (~ absent find s /\ length R < size /\ exists m', StringReplace m size find rep = Ok (m', Z.of_nat (length R)) /\
      holds m' R /\ same_from size m m')).
Proof.
  intros H L NF Cf Cr. destruct (@sar_loop_spec (S (length s)) s find rep [] NF ltac:(lia)) as [R [_ HR]].
  exists R. split; [exact HR|]. split; [intros R' H'; eapply replaced_unique; eauto|].
  destruct (StringReplace_spec H NF Cf Cr L HR) as [[A E]|X]; [left|right; exact X].
  split; [exact A|]. split; [eapply replaced_absent; eauto|exact E].
Qed.

Example C30_ex :
  SearchAndReplace (Some (lit "aaab")) (Some (lit "aa")) (Some (lit "xyz")) = Ok (lit "xyzab") /\
  StringReplace (block (lit "one two one") ++ repeat None 3) 15 (lit "one") (lit "three") = Ok (block (lit "one two one") ++ repeat None 3, (-1)%Z) /\
  (exists r, StringReplace (block (lit "one two one") ++ repeat None 9) 16 (lit "one") (lit "three") = Ok (block (lit "three two three") ++ r, 15%Z)) /\
  StringReplace (block (lit "abc")) 4 (lit "x") (lit "y") = Ok (block (lit "abc"), 0%Z).
Proof. split; [reflexivity|]. split; [reflexivity|]. split; [exists (repeat None 5); reflexivity|reflexivity]. Qed.

(** * C32 *)

(** EscapeCharCopy is right on every string in which no backslash stands directly
    before the character to escape *)
Theorem C32_EscapeCharCopy_partial s t e : is_cstr s -> t <> NUL -> e <> NUL -> (N.of_nat (length s) <= SIZE_MAX / 2 - 1)%N ->
  (forall a b, s <> a ++ "\"%char :: t :: b) ->
  exists m, EscapeCharCopy s t e = Ok m /\ m = block (escaped t e s) /\ unescape t e (escaped t e s) = s.
Proof.
  intros C NT NE B NP. rewrite EscapeCharCopy_eq by auto.
  destruct (@cntf_le t (S (length s)) s ltac:(lia)) as [_ [_ Q]].
  rewrite Q by (intros [a [b E]]; exact (NP a b E)).
  destruct (Nat.leb_spec (length s + occ t s) (length s + occ t s + 1)); [|lia].
  replace (length s + occ t s + 1 - (length s + occ t s)) with 1 by lia.
  eexists. split; [reflexivity|]. split; [rewrite block_eq; reflexivity|apply unescape_escaped].
Qed.

(** and wrong on all the others: the result is not terminated inside its allocation,
    or the function writes past it *)
Theorem C32_EscapeCharCopy_fails s t e : is_cstr s -> t <> NUL -> e <> NUL -> (N.of_nat (length s) <= SIZE_MAX / 2 - 1)%N ->
  (exists a b, s = a ++ "\"%char :: t :: b) ->
  EscapeCharCopy s t e = UB \/ exists m, EscapeCharCopy s t e = Ok m /\ forall x, ~ holds m x.
Proof.
  intros C NT NE B [a [b E]]. rewrite EscapeCharCopy_eq by auto.
  destruct (@cntf_le t (S (length s)) s ltac:(lia)) as [LE [Q _]].
  assert (LT : cntf t s < occ t s).
  { destruct (Nat.eq_dec (cntf t s) (occ t s)) as [EQ|]; [|lia]. destruct (Q EQ). exists a, b. exact E. }
  destruct (Nat.leb_spec (length s + occ t s) (length s + cntf t s + 1)) as [L|L]; [right|left; reflexivity].
  eexists. split; [reflexivity|]. replace (length s + cntf t s + 1 - (length s + occ t s)) with 0 by lia. cbn [repeat]. rewrite app_nil_r.
  intros x [Cx [r X]]. apply (@escaped_cstr t e s C NE).
  assert (IN : In (Some NUL) (map Some (escaped t e s))) by (rewrite X; apply in_or_app; right; left; reflexivity).
  apply in_map_iff in IN as [c [Ec I]]. congruence.
Qed.

(** the second case is met by one backslash followed by a quote, the first by two of them *)
Example C32_refuted :
  EscapeCharCopy (lit "\""\""") """"%char "\"%char = UB /\
  (exists m, EscapeCharCopy (lit "\""") """"%char "\"%char = Ok m /\ m = map Some (lit "\\""")).
Proof. split; [reflexivity|]. eexists. split; reflexivity. Qed.
Example C32_ex : EscapeCharCopy (lit "say ""hi"" \o/") """"%char "\"%char = Ok (block (lit "say \""hi\"" \o/")).
Proof. reflexivity. Qed.

(** * C33 *)

(** For a start inside the string (counted from the end if negative) and a length
    counted forward from a non-negative start, or backward from the end of the string,
    the result is the slice [b, e) if that has at least two characters; shorter slices
    come out as NULL *)
Theorem C33_StringSubstring_partial s start len : s <> [] -> (Z.of_nat (length s) <= INT_MAX)%Z ->
  (INT_MIN <= len <= INT_MAX)%Z -> (- Z.of_nat (length s) <= start <= INT_MAX)%Z ->
  (0 <= start /\ 0 < len /\ start + len <= INT_MAX \/ - Z.of_nat (length s) < len < 0)%Z ->
  let n := Z.of_nat (length s) in
  let b := (if start <? 0 then n + start else start)%Z in
  let e := (if len <? 0 then n + len else Z.min n (start + len))%Z in
  StringSubstring s (length s) start len =
    Ok (if (b + 2 <=? e)%Z then Some (block (firstn (Z.to_nat (e - b)) (skipn (Z.to_nat b) s))) else None).
Proof.
  intros NE LS RL RS C n b e. unfold INT_MAX, INT_MIN in *.
  pose proof (@StringSubstring_spec s start len NE) as X. unfold INT_MAX, INT_MIN in X. cbv zeta in X. rewrite X by lia.
  assert (E : sub_end (length s) start len = e).
  { unfold sub_end, e. fold n. destruct (Z.ltb_spec len 0).
    - destruct (Z.leb_spec (n + len) 0); lia.
    - destruct (Z.leb_spec (start + len) 0); lia. }
  rewrite E. reflexivity.
Qed.

Theorem C33_zero_length s n start : StringSubstring s n start 0 = Ok (Some (block [])).
Proof. reflexivity. Qed.

(** whatever the length argument, if the start is not before the string, the string is
    not empty and the end does not overflow an int, nothing outside the source is read
    and the result, if any, is a terminated contiguous part of it *)
Theorem C33_StringSubstring_safe s start len : s <> [] -> (Z.of_nat (length s) <= INT_MAX)%Z ->
  (INT_MIN <= len <= INT_MAX)%Z -> (- Z.of_nat (length s) <= start <= INT_MAX)%Z -> (start + len <= INT_MAX)%Z ->
  StringSubstring s (length s) start len = Ok None \/
  exists v t w, s = v ++ t ++ w /\ StringSubstring s (length s) start len = Ok (Some (block t)).
Proof.
  intros NE LS RL RS RO. destruct (Z.eq_dec len 0) as [->|NZ].
  - right. exists [], [], s. split; reflexivity.
  - pose proof (@StringSubstring_spec s start len NE LS NZ RL RS RO) as X. cbv zeta in X. rewrite X.
    match goal with |- context [if ?c then Some (block (firstn ?i (skipn ?j s))) else None] => destruct c; [right; exists (firstn j s), (firstn i (skipn j s)), (skipn i (skipn j s)) | left; reflexivity] end.
    rewrite firstn_skipn, firstn_skipn. split; reflexivity.
Qed.

Example C33_ex :
  StringSubstring (lit "abcdef") 6 2 3 = Ok (Some (block (lit "cde"))) /\
  StringSubstring (lit "abcdef") 6 (-3) (-1) = Ok (Some (block (lit "de"))) /\
  StringSubstring (lit "abcdef") 6 0 10 = Ok (Some (block (lit "abcdef"))).
Proof. split; [|split]; reflexivity. Qed.
(** outside: a slice of one character is NULL; a length reaching back to the start of
    the string gives the whole string instead of nothing; a positive length with a
    negative start is counted from the wrong place; a start before the string and the
    empty string are read out of bounds *)
Example C33_refuted :
  StringSubstring (lit "abcdef") 6 2 1 = Ok None /\
  StringSubstring (lit "abcdef") 6 0 (-6) = Ok (Some (block (lit "abcdef"))) /\
  StringSubstring (lit "abcdef") 6 (-3) 2 = Ok (Some (block (lit "def"))) /\
  StringSubstring (lit "abcdef") 6 (-8) (-1) = UB /\
  StringSubstring [] 0 0 5 = UB.
Proof. repeat (split; [reflexivity|]); reflexivity. Qed.

(** * C34 *)

Theorem C34_StringAppend m d src n : holds m d -> is_cstr src -> length d < n <= length m ->
  StringAppend m src n = Ok (put m (firstn (n - 1) (d ++ src)), length (d ++ src) <? n).
Proof. apply StringAppend_spec. Qed.

Theorem C34_strlcpy m src size : is_cstr src -> 0 < size <= length m ->
  strlcpy m src size = Ok (put m (firstn (size - 1) src), length src).
Proof. intros C L. rewrite strlcpy_spec by (auto; lia). destruct (Nat.eqb_spec size 0); [lia|reflexivity]. Qed.
Theorem C34_strlcpy_size_0 m src : is_cstr src -> strlcpy m src 0 = Ok (m, length src).
Proof. intros C. rewrite strlcpy_spec by (auto; lia). reflexivity. Qed.

Theorem C34_strlcat m d src size : holds m d -> is_cstr src -> length d < size <= length m ->
  strlcat m src size = Ok (put m (firstn (size - 1) (d ++ src)), length (d ++ src)).
Proof.
  intros H C L. rewrite strlcat_spec with (d := d) by (auto; lia). destruct (Nat.ltb_spec (length d) size); [|lia].
  rewrite app_length, Nat.min_r by lia. reflexivity.
Qed.
Theorem C34_strlcat_full m d src size : holds m d -> is_cstr src -> size <= length d -> strlcat m src size = Ok (m, size + length src).
Proof.
  intros H C L. pose proof (holds_length H). rewrite strlcat_spec with (d := d) by (auto; lia). destruct (Nat.ltb_spec (length d) size); [lia|].
  rewrite Nat.min_l by lia. reflexivity.
Qed.

Theorem C34_StringCopy from m n : is_cstr from -> 0 < n <= length m ->
  exists m', StringCopy from m n = Ok (m', if length from <? n then length from else n) /\
    holds m' (firstn (n - 1) from) /\ same_from n m m'.
Proof. apply StringCopy_spec. Qed.

(** PathAppend: one separator between the path (without a trailing separator) and the
    leaf, or nothing written *)
Theorem C34_PathAppend m d path_size leaf sep : holds m d -> is_cstr leaf -> path_size <= length m ->
  forall base, (d = base ++ [sep] \/ (base = d /\ forall p, d <> p ++ [sep])) ->
  PathAppend m path_size leaf sep =
    Ok (if length (base ++ sep :: leaf) <? path_size then (put m (base ++ sep :: leaf), true) else (m, false)).
Proof. intros H C L base B. exact (@PathAppend_spec m d path_size leaf sep H C L base B). Qed.

(** a single StrCat, with or without the in-out length, and with or without an explicit
    source length *)
Theorem C34_StrCat m d dst_size dst_len src src_len : holds m d -> length d < dst_size <= length m ->
  (dst_len = None \/ dst_len = Some (length d)) -> src_len <= length src ->
  let s := if src_len =? 0 then src else firstn src_len src in
  StrCat m dst_size dst_len src src_len
   = Ok (put m (firstn (dst_size - 1) (d ++ s)), option_map (fun _ => length (d ++ s)) dst_len).
Proof. intros H L D S. apply StrCat_spec; auto. destruct D as [-> | ->]; cbn; auto. Qed.

(** Any number of StrCat calls passing the same length variable: the buffer holds the
    concatenation cut to what fits, and the length is that of the whole concatenation,
    so truncation happened exactly if it is at least the size.  Calls are written as a
    fold. *)
Theorem C34_StrCat_history m dst_size srcs : holds m [] -> 0 < dst_size <= length m -> Forall is_cstr srcs ->
  fold_left (fun r s => let* ' (m, n) := r in StrCat m dst_size n s 0) srcs (Ok (m, Some 0))
   = Ok (put m (firstn (dst_size - 1) (concat srcs)), Some (length (concat srcs))).
Proof.
  intros H L F.
  assert (G : forall srcs m n, fold_left (fun r s => let* ' (m, n) := r in StrCat m dst_size n s 0) srcs (Ok (m, n)) = StrCat_chain m dst_size n srcs).
  { clear. induction srcs as [|s srcs IH]; intros m n; cbn [fold_left StrCat_chain]; [reflexivity|]. cbn [bind].
    destruct (StrCat m dst_size n s 0) as [[m1 n1]| | |]; cbn [bind]; [apply IH| | |]; clear; induction srcs; cbn; auto. }
  rewrite G. pose proof (@StrCat_chain_spec dst_size srcs m [] L (fun f => f) F) as X.
  rewrite firstn_nil in X. rewrite (put_self H) in X. exact X.
Qed.

(** the same for StrCatDelim: the buffer holds the longest prefix of the arguments
    that fits, joined by the separator; the length is that of all of them joined *)
Theorem C34_StrCatDelim_history m dst_size sep srcs : holds m [] -> 0 < dst_size <= length m -> sep <> NUL -> Forall is_cstr srcs ->
  exists k, k <= length srcs /\
    fold_left (fun r s => let* ' (m, n) := r in StrCatDelim m dst_size n s sep) srcs (Ok (m, Some 0))
      = Ok (put m (fold_left (delim sep) (firstn k srcs) []), Some (length (fold_left (delim sep) srcs []))) /\
    length (fold_left (delim sep) (firstn k srcs) []) < dst_size /\
    (k < length srcs -> dst_size <= length (fold_left (delim sep) (firstn (S k) srcs) [])).
Proof.
  intros H L NS F.
  assert (G : forall srcs m n, fold_left (fun r s => let* ' (m, n) := r in StrCatDelim m dst_size n s sep) srcs (Ok (m, n)) = StrCatDelim_chain m dst_size n srcs sep).
  { clear. induction srcs as [|s srcs IH]; intros m n; cbn [fold_left StrCatDelim_chain]; [reflexivity|]. cbn [bind].
    destruct (StrCatDelim m dst_size n s sep) as [[m1 n1]| | |]; cbn [bind]; [apply IH| | |]; clear; induction srcs; cbn; auto. }
  rewrite G. destruct (@StrCatDelim_chain_spec dst_size sep srcs m [] NS H L F) as [k [m' [E [-> [K1 [K2 K3]]]]]].
  exists k. split; [exact K1|]. split; [exact E|]. split; [exact K2|exact K3].
Qed.

Theorem C34_StrCatDelim m d dst_size dst_len src sep : holds m d -> is_cstr src -> sep <> NUL -> length d < dst_size <= length m ->
  (dst_len = None \/ dst_len = Some (length d)) ->
  StrCatDelim m dst_size dst_len src sep
   = Ok (if length (delim sep d src) <? dst_size then put m (delim sep d src) else m, option_map (fun _ => length (delim sep d src)) dst_len).
Proof. intros H C N L D. apply (@StrCatDelim_spec m d dst_size dst_len src sep); auto. destruct D as [-> | ->]; cbn; auto. Qed.

Example C34_ex :
  let m := block [] ++ repeat None 7 in
  (exists r, fold_left (fun r s => let* ' (m, n) := r in StrCat m 8 n s 0) [lit "abc"; lit "def"; lit "ghi"; lit "j"] (Ok (m, Some 0))
    = Ok (map Some (lit "abcdefg") ++ Some NUL :: r, Some 10)) /\
  (exists r, fold_left (fun r s => let* ' (m, n) := r in StrCatDelim m 8 n s ","%char) [lit "ab"; lit "cd"; lit "efg"; lit ""] (Ok (m, Some 0))
    = Ok (map Some (lit "ab,cd") ++ Some NUL :: r, Some 10)) /\
  (exists r, PathAppend (block (lit "/a/") ++ repeat None 5) 9 (lit "bcd") "/"%char = Ok (map Some (lit "/a/bcd") ++ Some NUL :: r, true)) /\
  (exists r, StringAppend (block (lit "abc") ++ repeat None 2) (lit "defg") 6 = Ok (map Some (lit "abcde") ++ Some NUL :: r, false)).
Proof. cbv zeta. split; [exists []; reflexivity|]. split; [exists [None; None]; reflexivity|]. split; [exists [None; None]; reflexivity|exists []; reflexivity]. Qed.

(** * C59 *)
Theorem C59_StringConcatenate count args : 0 < count <= length args ->
  Forall (fun a => match a with Some s => is_cstr s | None => True end) (firstn count args) ->
  StringConcatenate count args =
    Ok (Some (block (concat (map (fun a => match a with Some s => s | None => [] end) (firstn count args))))).
Proof.
  intros L F. apply StringConcatenate_spec; [lia|]. eapply Forall_impl; [|exact F]. intros [s|] H; cbn; [exact H|intros []].
Qed.
Example C59_ex : StringConcatenate 3 [Some (lit "ab"); None; Some (lit "c")] = Ok (Some (block (lit "abc"))).
Proof. reflexivity. Qed.

(** * C60 *)
Theorem C60_ToLowerStrInplace m s : holds m s -> ToLowerStrInplace m = Ok (put m (map tolower s)).
Proof.
  intros H. unfold ToLowerStrInplace. rewrite (map_loop_whole ToLower H). do 2 f_equal. apply map_ext.
  intros c. unfold ToLower, tolower. destruct (isupper c) eqn:U; [|reflexivity]. f_equal.
  unfold isupper, in_range in U. apply andb_true_iff in U as [U _]. apply N.leb_le in U. lia.
Qed.

(** the upper case of an ASCII letter *)
Definition upper (c : byte) : byte := if islower c then ascii_of_N (code c - 32) else c.

Lemma upper_printable c : ((33 <=? code c) && (code c <=? 126))%N = true -> ToUpper c = upper c.
Proof. destruct c as [[] [] [] [] [] [] [] []]; vm_compute; intros H; first [discriminate H | reflexivity]. Qed.

(** ToUpperStrInplace is right on printable text without blanks *)
Theorem C60_ToUpperStrInplace_partial m s : holds m s -> (forall c, In c s -> (33 <= code c <= 126)%N) ->
  ToUpperStrInplace m = Ok (put m (map upper s)).
Proof.
  intros H P. unfold ToUpperStrInplace. rewrite (map_loop_whole ToUpper H). do 2 f_equal. apply map_ext_in.
  intros c I. apply P in I. apply upper_printable. destruct I. apply andb_true_intro. split; apply N.leb_le; assumption.
Qed.
(** on a blank it writes a terminator, cutting the string there *)
Example C60_ToUpper_refuted : ToUpperStrInplace (block (lit "a b")) = Ok [Some "A"%char; Some NUL; Some "B"%char; Some NUL].
Proof. reflexivity. Qed.
Example C60_ex : ToUpperStrInplace (block (lit "abC-9")) = Ok (block (lit "ABC-9")) /\ ToLowerStrInplace (block (lit "AbC Z")) = Ok (block (lit "abc z")).
Proof. split; reflexivity. Qed.
