(** C70 (substring search), C71 (strrstr), C72 (scanning and duplicating), C73
    (case-insensitive comparison), C74 (strsep), C75 (getline): the replacement
    functions of libcompat/. *)
From Verif Require Import Prelude PreludeFacts Str StrFacts Libc LibcFacts MemSpec CmpSpec CompatModel.
From Verif Require Import CompatProofs CompatProofs2.
Set Implicit Arguments.

(** what a search for [find] in [s] has to return *)
Definition search_result (find s : list byte) (r : option nat) : Prop :=
  match r with Some i => first_occurrence find s i | None => absent find s end.

(** * C70 *)

(** memmem looks only at the bytes of the two areas (whatever lies behind them) and
    finds the first occurrence, unless both areas are empty *)
Theorem C70_memmem_partial h n r r' : h <> [] \/ n <> [] ->
  exists x, memmem (map Some h ++ r) (length h) (map Some n ++ r') (length n) = Ok x /\ search_result n h x.
Proof.
  intros NE. exists (Libc.strstr h n). split; [apply memmem_spec; exact NE|]. unfold search_result.
  destruct (Libc.strstr h n) eqn:E; [apply strstr_Some; exact E|apply strstr_None; exact E].
Qed.
(** an empty needle occurs in an empty haystack, at 0; memmem returns NULL *)
Theorem C70_memmem_refuted :
  ~ (forall h n r r', exists x, memmem (map Some h ++ r) (length h) (map Some n ++ r') (length n) = Ok x /\ search_result n h x).
Proof.
  intros H. destruct (H [] [] [] []) as [x [E S]]. cbn in E. injection E as <-. apply (S 0). exists [], []. auto.
Qed.
Theorem C70_strstr_partial h n : is_cstr h -> is_cstr n -> h <> [] \/ n <> [] ->
  exists x, strstr_compat h n = Ok x /\ search_result n h x.
Proof.
  intros C _ NE. exists (Libc.strstr h n). split; [apply strstr_compat_spec; assumption|]. unfold search_result.
  destruct (Libc.strstr h n) eqn:E; [apply strstr_Some; exact E|apply strstr_None; exact E].
Qed.
Theorem C70_strstr_refuted :
  ~ (forall h n, is_cstr h -> is_cstr n -> exists x, strstr_compat h n = Ok x /\ search_result n h x).
Proof.
  intros H. destruct (H [] [] (fun x => x) (fun x => x)) as [x [E S]]. cbn in E. injection E as <-. apply (S 0). exists [], []. auto.
Qed.
(** strcasestr: the same on the lower-case texts, for 7-bit strings *)
Theorem C70_strcasestr_partial h n : is_cstr h -> is_cstr n -> ascii7 h -> ascii7 n -> h <> [] \/ n <> [] ->
  exists x, strcasestr h n = Ok x /\ search_result (map tolower n) (map tolower h) x.
Proof.
  intros C Cn A An NE. exists (Libc.strstr (map tolower h) (map tolower n)). split.
  - unfold strcasestr. rewrite strcasestr_loop_spec; try assumption; try lia.
    + cbn [skipn]. destruct (Libc.strstr _ _); reflexivity.
    + destruct NE as [NE|NE]; [left; destruct h; [congruence|cbn; lia]|right; exact NE].
  - unfold search_result. destruct (Libc.strstr _ _) eqn:E; [apply strstr_Some; exact E|apply strstr_None; exact E].
Qed.
(** a byte above 127 makes it call tolower() outside its domain *)
Theorem C70_strcasestr_refuted :
  ~ (forall h n, is_cstr h -> is_cstr n -> h <> [] \/ n <> [] ->
       exists x, strcasestr h n = Ok x /\ search_result (map tolower n) (map tolower h) x).
Proof.
  intros H. destruct (H [ascii_of_nat 228] [ascii_of_nat 228]) as [x [E _]]; try (unfold is_cstr, NUL; cbn; intuition discriminate); vm_compute in E; discriminate.
Qed.
Example C70_ex :
  memmem (map Some (lit "xxabab") ++ [None]) 6 (map Some (lit "ab")) 2 = Ok (Some 2) /\
  memmem (map Some (lit "xxa") ++ [Some "b"%char]) 3 (map Some (lit "ab")) 2 = Ok None /\
  strstr_compat (lit "hello") (lit "l") = Ok (Some 2) /\ strstr_compat (lit "hello") [] = Ok (Some 0) /\
  strcasestr (lit "Hello World") (lit "WORLD") = Ok (Some 6).
Proof. repeat split. Qed.

(** * C71 *)

(** strrstr returns the last occurrence, except that it overlooks one at the very
    beginning *)
Theorem C71_strrstr_partial str pat : is_cstr str -> is_cstr pat ->
  exists r, strrstr str pat = Ok r /\
  match r with
  | Some i => occurs_at pat str i /\ forall j, occurs_at pat str j -> j <= i
  | None => forall j, 0 < j -> ~ occurs_at pat str j
  end.
Proof.
  intros C _. destruct (strrstr_spec pat C) as [r [E H]]. exists r. split; [exact E|]. destruct r; [|exact H]. split; apply H.
Qed.
Theorem C71_strrstr_refuted :
  ~ (forall str pat, is_cstr str -> is_cstr pat -> exists r, strrstr str pat = Ok r /\
       match r with
       | Some i => occurs_at pat str i /\ forall j, occurs_at pat str j -> j <= i
       | None => absent pat str
       end).
Proof.
  intros H. destruct (H (lit "abc") (lit "ab")) as [r [E X]]; try (unfold is_cstr, NUL; cbn; intuition discriminate).
  cbn in E. injection E as <-. apply (X 0). exists [], (lit "c"). split; reflexivity.
Qed.
Example C71_ex : strrstr (lit "a/b/c") (lit "/") = Ok (Some 3) /\ strrstr (lit "ab") (lit "x") = Ok None /\ strrstr (lit "ab") [] = Ok (Some 2).
Proof. repeat split. Qed.

(** * C72 *)

(** memrchr: the last byte equal to [c] among the first [n] *)
Theorem C72_memrchr s r c n : n <= length s ->
  exists x, memrchr (map Some s ++ r) c n = Ok x /\
  match x with
  | Some i => i < n /\ nth_error s i = Some c /\ forall j, i < j -> j < n -> nth_error s j <> Some c
  | None => ~ In c (firstn n s)
  end.
Proof.
  intros L. destruct (@memrchr_spec s r c n L) as [x [E X]]. exists x. split; [exact E|]. destruct x as [i|].
  - destruct X as [X1 [X2 X3]]. split; [exact X1|]. split.
    + rewrite (@nth_error_nth' _ s i NUL) by lia. congruence.
    + intros j J1 J2 Q. apply (X3 j J1 J2). apply nth_error_nth. exact Q.
  - intros IN. apply (@In_nth _ _ _ NUL) in IN. destruct IN as [j [J Q]]. rewrite firstn_length in J.
    rewrite nth_firstn in Q by lia. apply (X j); [lia|exact Q].
Qed.
(** strnlen: the length, or [max] if that is smaller; the string need not be terminated
    when it has [max] bytes *)
Theorem C72_strnlen s max r : is_cstr s -> max <= length s \/ (exists r', r = Some NUL :: r') ->
  strnlen (map Some s ++ r) max = Ok (Nat.min max (length s)).
Proof. apply strnlen_spec. Qed.
(** strndup, strdup: a block of exactly the right size with the (cut) string and its
    terminator; memdup: a block with exactly these bytes; NULL when memory runs out *)
Theorem C72_strndup s max r : is_cstr s -> max <= length s \/ (exists r', r = Some NUL :: r') ->
  strndup true (map Some s ++ r) max = Ok (Some (map Some (firstn max s) ++ [Some NUL])) /\
  strndup false (map Some s ++ r) max = Ok None.
Proof.
  intros C H. rewrite (strndup_spec C H), block_eq. split; [reflexivity|]. unfold strndup. rewrite (strnlen_spec C H). reflexivity.
Qed.
Theorem C72_strdup m s : holds m s ->
  strdup true m = Ok (Some (map Some s ++ [Some NUL])) /\ strdup false m = Ok None.
Proof.
  intros H. rewrite (strdup_spec H), block_eq. split; [reflexivity|]. unfold strdup. rewrite (proj2 (mstr_holds m s) H). reflexivity.
Qed.
Theorem C72_memdup data size : size <= length data ->
  memdup true data size = Ok (Some (firstn size data)) /\ memdup false data size = Ok None.
Proof. intros L. unfold memdup. rewrite acopy_fresh by exact L. split; reflexivity. Qed.
(** strchrnul: the offset of the first [c], or of the terminator *)
Theorem C72_strchrnul s c : is_cstr s ->
  exists a b, s = a ++ b /\ length a = strchrnul s c /\ ~ In c a /\ (b = [] \/ exists t, b = c :: t).
Proof. apply strchrnul_spec. Qed.
(** stpncpy: exactly [len] bytes are written, the string padded with NULs (or cut without
    terminator), and the result is the offset of the terminator, or [len] *)
Theorem C72_stpncpy_partial s sr d r : is_cstr s -> (Z.of_nat (length d) <= INT_MAX)%Z ->
  length d <= length s \/ (exists r', sr = Some NUL :: r') ->
  stpncpy (d ++ r) (map Some s ++ sr) (length d) =
    Ok (map Some (firstn (length d) s) ++ repeat (Some NUL) (length d - length s) ++ r, Nat.min (length d) (length s)).
Proof.
  intros C B H. unfold stpncpy. exact (@stpncpy_loop_spec (length d) sr B s [] d r (S (length d)) C eq_refl H (Nat.lt_succ_diag_r _)).
Qed.
Example C72_ex :
  memrchr (map Some (lit "a/b/c")) "/" 5 = Ok (Some 3) /\ memrchr (map Some (lit "a/b/c")) "/" 3 = Ok (Some 1) /\
  strnlen (map Some (lit "abc")) 2 = Ok 2 /\ strnlen (block (lit "abc")) 9 = Ok 3 /\
  strndup true (map Some (lit "abc")) 2 = Ok (Some (block (lit "ab"))) /\
  strdup true (block (lit "ab") ++ [None]) = Ok (Some (block (lit "ab"))) /\
  strchrnul (lit "a=b") "=" = 1 /\ strchrnul (lit "ab") "=" = 2 /\
  stpncpy (repeat None 5) (block (lit "ab")) 4 = Ok ([Some "a"; Some "b"; Some NUL; Some NUL; None]%char, 2) /\
  stpncpy (repeat None 2) (block (lit "abc")) 2 = Ok ([Some "a"; Some "b"]%char, 2).
Proof. repeat split. Qed.

(** * C73 *)

(** strcasecmp and strncasecmp order 7-bit strings by their lower-case forms *)
Theorem C73_strcasecmp_partial a b : is_cstr a -> is_cstr b -> ascii7 a -> ascii7 b ->
  exists r, strcasecmp a b = Ok r /\ compares r (map tolower a) (map tolower b).
Proof.
  intros. eexists. split; [unfold strcasecmp; apply strcasecmp_loop_spec; try assumption; lia|]. cbn [skipn]. apply sign_compares.
Qed.
Theorem C73_strncasecmp_partial a b n : is_cstr a -> is_cstr b -> ascii7 a -> ascii7 b ->
  exists r, strncasecmp a b n = Ok r /\ compares r (map tolower (firstn n a)) (map tolower (firstn n b)).
Proof.
  intros. eexists. split; [unfold strncasecmp; apply strncasecmp_loop_spec; try assumption; lia|]. cbn [skipn]. apply sign_compares.
Qed.
(** with other bytes tolower() is called with a negative argument, and 0xFF is passed as EOF *)
Theorem C73_strcasecmp_refuted :
  ~ (forall a b, is_cstr a -> is_cstr b -> exists r, strcasecmp a b = Ok r /\ compares r (map tolower a) (map tolower b)).
Proof.
  intros H. destruct (H [ascii_of_nat 228] [ascii_of_nat 228]) as [x [E _]]; try (unfold is_cstr, NUL; cbn; intuition discriminate); vm_compute in E; discriminate.
Qed.
Example C73_ex :
  strcasecmp (lit "Abc") (lit "aBC") = Ok 0%Z /\ strcasecmp (lit "ab") (lit "ABC") = Ok (-1)%Z /\
  strncasecmp (lit "HELLO") (lit "help") 3 = Ok 0%Z /\ strncasecmp (lit "HELLO") (lit "help") 4 = Ok (-1)%Z.
Proof. repeat split. Qed.

(** * C74 *)

(** one call of strsep on the string at offset [length p]: the token is the part before
    the first delimiter, which is overwritten by NUL, and the next call continues behind
    it; the last token ends the sequence; nothing else is written *)
Theorem C74_strsep_token delim p t c u r : is_cstr delim -> In c delim -> is_cstr t -> nodelim delim t ->
  strsep (p ++ map Some (t ++ c :: u) ++ r) (Some (length p)) delim =
    Ok (p ++ map Some t ++ Some NUL :: map Some u ++ r, Some (length p + length t + 1), Some (length p)).
Proof.
  intros Cd I C N. unfold strsep. rewrite (@strsep_loop_hit delim c u r Cd I t p); [reflexivity|exact C|exact N|].
  rewrite !app_length, map_length, app_length. lia.
Qed.
Theorem C74_strsep_last delim p t r : is_cstr delim -> is_cstr t -> nodelim delim t ->
  strsep (p ++ map Some t ++ Some NUL :: r) (Some (length p)) delim =
    Ok (p ++ map Some t ++ Some NUL :: r, None, Some (length p)) /\
  strsep (p ++ map Some t ++ Some NUL :: r) None delim = Ok (p ++ map Some t ++ Some NUL :: r, None, None).
Proof.
  intros Cd C N. split; [|reflexivity]. unfold strsep. rewrite (@strsep_loop_end delim r Cd t p); [reflexivity|exact C|exact N|].
  rewrite !app_length, map_length. lia.
Qed.
(** calling strsep until it returns NULL gives exactly the pieces of the string between
    delimiters (empty ones included), each stored as a string at the returned place *)
Theorem C74_strsep_splits delim s r : is_cstr delim -> is_cstr s ->
  exists m offs toks, strsep_all (length s + 3) (map Some s ++ Some NUL :: r) (Some 0) delim = Ok (m, offs) /\
    separated delim s toks /\ Forall2 (fun o t => holds (skipn o m) t) offs toks /\
    m = concat (map (fun t => map Some (t ++ [NUL])) toks) ++ r.
Proof.
  intros Cd C. destruct (separated_exists delim s) as [toks SP].
  assert (LT : length toks <= S (length s)).
  { clear C. induction SP as [t N|t c u ts N I SP IH]; cbn [length]; [lia|]. rewrite app_length. cbn [length]. lia. }
  assert (CT : Forall is_cstr toks).
  { clear LT. induction SP as [t N|t c u ts N I SP IH]; [constructor; [exact C|constructor]|].
    apply is_cstr_app in C. destruct C as [C1 C2]. apply is_cstr_cons in C2. constructor; [exact C1|apply IH, C2]. }
  destruct (@strsep_all_spec delim s toks Cd SP C [] r (length s + 3)) as [offs [E O]]; [lia|].
  cbn [app length] in E, O. exists (concat (map block toks) ++ r), offs, toks. split; [exact E|]. split; [exact SP|]. split; [|reflexivity].
  clear E SP LT. assert (G : forall offs toks', Forall2 (fun o t => o <= 0 + length (concat (map block toks)) /\ 0 <= o /\
      (exists r', skipn (o - 0) (concat (map block toks)) = block t ++ r')) offs toks' -> Forall is_cstr toks' ->
      Forall2 (fun o t => holds (skipn o (concat (map block toks) ++ r)) t) offs toks').
  { clear O offs. intros offs toks' F CF. induction F as [|o t os ts [H1 [_ [r' H2]]] F IH]; constructor.
    - pose proof (Forall_inv CF) as CT0. rewrite Nat.sub_0_r in H2. rewrite skipn_app_le by lia. rewrite H2, block_eq, <- !app_assoc.
      split; [exact CT0|]. eexists. reflexivity.
    - apply IH. exact (Forall_inv_tail CF). }
  apply G; assumption.
Qed.
(** [separated] determines the pieces *)
Theorem C74_separated_unique delim s ts ts' : separated delim s ts -> separated delim s ts' -> ts = ts'.
Proof. apply separated_unique. Qed.
Example C74_ex :
  (exists m, strsep_all 9 (block (lit "a,,b")) (Some 0) (lit ",;") = Ok (m, [0; 2; 3])) /\
  separated (lit ",;") (lit "a,,b") [lit "a"; []; lit "b"].
Proof.
  split; [eexists; vm_compute; reflexivity|].
  apply (@sep_more (lit ",;") (lit "a") "," (lit ",b")); [intros x [<-|[]]; cbn; intuition discriminate|left; reflexivity|].
  apply (@sep_more (lit ",;") [] "," (lit "b")); [intros x []|left; reflexivity|].
  constructor. intros x [<-|[]]; cbn; intuition discriminate.
Qed.

(** * C75 *)
Definition LF : byte := ascii_of_nat 10.

(** [*n] never exceeds the size of the buffer [*lineptr] points to (NULL: any [*n]) *)
Definition buffer_ok (lineptr : option (cells byte)) (n : nat) : Prop := forall b, lineptr = Some b -> n <= length b.

(** whatever the stream and the allocator do, getline stays inside its buffer and leaves
    a buffer that can be passed to the next call; it either fails for one of the reasons
    listed or delivers a line: the bytes up to and including the next newline (or the end
    of the file), terminated by NUL, and their number *)
Theorem C75_getline mem smax lineptr n s : buffer_ok lineptr n ->
  exists lp n' s' ret, getline mem smax lineptr n s = Ok (lp, n', s', ret) /\ buffer_ok lp n' /\
    ((ret = (-1)%Z /\ ((exists k, mem k = false) \/ (smax <= N.of_nat (length (rest s)))%N \/ (err s' = true /\ (err s = true \/ bad s = true)) \/
                       (rest s = [] /\ rest s' = [] /\ eof s' = true))) \/
     exists l b, rest s = l ++ rest s' /\ l <> [] /\ bad s' = bad s /\ err s = false /\ err s' = false /\
       ret = Z.of_nat (length l) /\ lp = Some b /\ firstn (S (length l)) b = map Some l ++ [Some NUL] /\
       ((exists l0, l = l0 ++ [LF] /\ ~ In LF l0 /\ eof s' = eof s) \/ (~ In LF l /\ rest s' = [] /\ bad s = false /\ eof s' = true))).
Proof. apply getdelim_spec. Qed.

(** the lines of a file *)
Inductive file_lines : list byte -> list (list byte) -> Prop :=
| fl_end : file_lines [] []
| fl_last l : l <> [] -> ~ In LF l -> file_lines l [l]
| fl_line l t ls : ~ In LF l -> file_lines t ls -> file_lines (l ++ LF :: t) ((l ++ [LF]) :: ls).

Lemma read_cells_firstn b l : forall x, firstn (S (length l)) b = map Some l ++ [x] -> read_cells (length l) b = Ok l.
Proof.
  revert b. induction l as [|c l IH]; intros b x E; [reflexivity|]. destruct b as [|y b]; [discriminate|].
  cbn [length firstn map app] in E. injection E as -> E. cbn [length read_cells]. rewrite (IH b x E). reflexivity.
Qed.

Lemma getline_all_spec mem smax : (forall k, mem k = true) -> forall fuel lp n s,
  buffer_ok lp n -> bad s = false -> err s = false -> (N.of_nat (length (rest s)) < smax)%N -> length (rest s) < fuel ->
  exists ls, getline_all mem smax fuel lp n s = Ok ls /\ file_lines (rest s) ls.
Proof.
  intros M. induction fuel as [|f IH]; intros lp n s V B ER SM F; [lia|]. cbn [getline_all].
  destruct (@C75_getline mem smax lp n s V) as [lp' [n' [s' [ret [E [V' H]]]]]]. rewrite E. cbn [bind]. destruct H as [[-> H]|H].
  - cbn. exists []. split; [reflexivity|]. destruct H as [[k K]|[H|[H|[-> _]]]]; [rewrite M in K; discriminate|lia| |constructor].
    destruct H as [_ [H|H]]; congruence.
  - destruct H as [l [b [R [NE [B' [_ [ER' [-> [-> [FB L]]]]]]]]]].
    replace (Z.of_nat (length l) =? -1)%Z with false by (symmetry; apply Z.eqb_neq; lia). rewrite Nat2Z.id.
    rewrite (@read_cells_firstn b l _ FB). cbn [bind].
    assert (LL : 0 < length l) by (destruct l; [congruence|cbn; lia]).
    pose proof (f_equal (@length _) R) as RL. rewrite app_length in RL.
    destruct (IH (Some b) n' s' V') as [ls [E2 FL]]; [congruence|exact ER'|lia|lia|].
    rewrite E2. cbn [bind]. exists (l :: ls). split; [reflexivity|]. rewrite R.
    destruct L as [[l0 [-> [N _]]]|[N [R' _]]].
    + rewrite <- app_assoc. cbn [app]. constructor; assumption.
    + rewrite R' in *. rewrite app_nil_r. assert (ls = []) as -> by (inversion FL as [|q ? ? Q|q ? ? ? ? Q]; [reflexivity|congruence|destruct q; discriminate]).
      constructor; assumption.
Qed.

(** reading a whole file line by line gives its lines: nothing lost, nothing added, and
    each with its newline *)
Theorem C75_all_lines mem smax content lp n e : (forall k, mem k = true) -> buffer_ok lp n ->
  (N.of_nat (length content) < smax)%N ->
  exists ls, getline_all mem smax (S (length content)) lp n (Stream content false e false) = Ok ls /\
    file_lines content ls /\ concat ls = content.
Proof.
  intros M V SM. destruct (@getline_all_spec mem smax M (S (length content)) lp n (Stream content false e false)) as [ls [E F]];
    try assumption; try reflexivity; [cbn; lia|]. exists ls. split; [exact E|]. split; [exact F|]. cbn [rest] in F. clear - F.
  induction F as [|l NE N|l t ls N F IH]; cbn; [reflexivity|apply app_nil_r|]. rewrite IH, <- app_assoc. reflexivity.
Qed.

(** [file_lines] determines the lines *)
Theorem C75_lines_unique t ls ls' : file_lines t ls -> file_lines t ls' -> ls = ls'.
Proof.
  intros F. revert ls'. induction F as [|l NE N|l t ls N F IH]; intros ls' F'.
  - inversion F'; subst; [reflexivity|congruence|]. destruct l; discriminate.
  - inversion F' as [|l' NE' N'|l' t' ls2 N' F2 E]; subst; [congruence|reflexivity|]. exfalso. apply N. apply in_or_app. right. left. reflexivity.
  - inversion F' as [E|l' NE' N' E|l' t' ls2 N' F2 E]; subst.
    + destruct l; discriminate.
    + exfalso. apply N'. apply in_or_app. right. left. reflexivity.
    + destruct (@split_unique [LF] l' l LF LF t' t) as [-> ->]; try (left; reflexivity); try exact E.
      * intros c H [<-|[]]. contradiction.
      * intros c H [<-|[]]. contradiction.
      * f_equal. apply IH. exact F2.
Qed.

Example C75_ex :
  getline_all (fun _ => true) 1000 10 None 0 (Stream (lit "ab" ++ [LF; LF] ++ lit "c") false false false) =
    Ok [lit "ab" ++ [LF]; [LF]; lit "c"].
Proof. vm_compute. reflexivity. Qed.

Print Assumptions C70_memmem_partial.
Print Assumptions C70_memmem_refuted.
Print Assumptions C70_strstr_partial.
Print Assumptions C70_strstr_refuted.
Print Assumptions C70_strcasestr_partial.
Print Assumptions C70_strcasestr_refuted.
Print Assumptions C71_strrstr_partial.
Print Assumptions C71_strrstr_refuted.
Print Assumptions C72_memrchr.
Print Assumptions C72_strnlen.
Print Assumptions C72_strndup.
Print Assumptions C72_strdup.
Print Assumptions C72_memdup.
Print Assumptions C72_strchrnul.
Print Assumptions C72_stpncpy_partial.
Print Assumptions C73_strcasecmp_partial.
Print Assumptions C73_strncasecmp_partial.
Print Assumptions C73_strcasecmp_refuted.
Print Assumptions C74_strsep_token.
Print Assumptions C74_strsep_last.
Print Assumptions C74_strsep_splits.
Print Assumptions C74_separated_unique.
Print Assumptions C75_getline.
Print Assumptions C75_all_lines.
Print Assumptions C75_lines_unique.
