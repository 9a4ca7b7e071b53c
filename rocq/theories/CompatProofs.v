(** Proofs about CompatModel.v: searching, scanning and copying. *)
From Verif Require Import Prelude PreludeFacts Str StrFacts Libc LibcFacts MemSpec CmpSpec CmpFacts CompatModel.
Set Implicit Arguments.

(** * memmem *)
Lemma memmem_match_spec h ns r r' hl : forall fuel len start,
  len <= length ns -> firstn len ns = firstn len (skipn start h) -> length h = hl -> start + len <= hl ->
  length ns - len < fuel ->
  exists k, memmem_match fuel len start (map Some h ++ r) hl (map Some ns ++ r') (length ns) = Ok k /\
    (k = length ns <-> prefixb ns (skipn start h) = true).
Proof.
  induction fuel as [|f IH]; intros len start L E H B F; [lia|]. cbn [memmem_match].
  assert (T : skipn start h = firstn len ns ++ skipn (start + len) h).
  { rewrite E, (Nat.add_comm start len), <- (@skipn_skipn _ h len start). symmetry. apply firstn_skipn. }
  destruct (Nat.ltb_spec len (length ns)) as [A|A]; cbn [andb].
  - destruct (Nat.ltb_spec (start + len) hl) as [A2|A2].
    + rewrite (@aget_rep _ h r (start + len) NUL) by lia. rewrite (@aget_rep _ ns r' len NUL) by lia.
      cbn [bind]. destruct (beq_spec (nth (start + len) h NUL) (nth len ns NUL)) as [X|X].
      * apply IH; try lia. rewrite (@firstn_S_nth _ ns len NUL) by lia. rewrite (@firstn_S_nth _ _ len NUL) by (rewrite skipn_length; lia).
        rewrite nth_skipn, X, E. reflexivity.
      * exists len. split; [reflexivity|]. split; [lia|]. intros P. exfalso. apply prefixb_spec in P. destruct P as [b P].
        apply X. rewrite <- nth_skipn, P, app_nth1 by lia. reflexivity.
    + exists len. split; [reflexivity|]. split; [lia|]. intros P. apply prefixb_spec in P. destruct P as [b P].
      apply (f_equal (@length _)) in P. rewrite skipn_length, app_length in P. lia.
  - exists len. split; [reflexivity|]. split; [|lia]. intros _. apply prefixb_spec. rewrite T. exists (skipn (start + len) h).
    f_equal. apply firstn_all2. lia.
Qed.

Lemma memmem_loop_spec h ns r r' : (h <> [] \/ ns <> []) -> forall fuel start, start <= length h -> length h - start < fuel -> (start < length h \/ ns <> []) ->
  memmem_loop fuel start (map Some h ++ r) (length h) (map Some ns ++ r') (length ns) =
  Ok (option_map (fun i => start + i) (Libc.strstr (skipn start h) ns)).
Proof.
  intros NE. induction fuel as [|f IH]; intros start L F X; [lia|]. cbn [memmem_loop].
  destruct (Nat.ltb_spec start (length h)) as [A|A].
  - destruct (@memmem_match_spec h ns r r' (length h) (S (length ns)) 0 start) as [k [E K]]; try lia; [reflexivity|].
    rewrite E. cbn [bind]. rewrite (@skipn_cons_nth _ h start NUL) by lia. cbn [Libc.strstr].
    rewrite (@skipn_cons_nth _ h start NUL) in K by lia.
    destruct (Nat.eqb_spec k (length ns)) as [Q|Q].
    + replace (prefixb ns (nth start h NUL :: skipn (S start) h)) with true by (symmetry; apply K; exact Q).
      cbn. f_equal. f_equal. lia.
    + destruct (prefixb ns (nth start h NUL :: skipn (S start) h)) eqn:P; [exfalso; apply Q, K; reflexivity|].
      assert (NS : ns <> []) by (intros ->; discriminate).
      rewrite IH by (try lia; right; exact NS). destruct (Libc.strstr (skipn (S start) h) ns) as [i|]; cbn; [f_equal; f_equal; lia|reflexivity].
  - destruct X as [X|X]; [lia|]. rewrite skipn_all2 by lia. destruct ns as [|c ns]; [congruence|]. reflexivity.
Qed.

Lemma memmem_spec h ns r r' : (h <> [] \/ ns <> []) ->
  memmem (map Some h ++ r) (length h) (map Some ns ++ r') (length ns) = Ok (Libc.strstr h ns).
Proof.
  intros NE. unfold memmem. rewrite (memmem_loop_spec _ _ NE); try lia.
  - cbn [skipn]. destruct (Libc.strstr h ns); reflexivity.
  - destruct NE as [NE|NE]; [left; destruct h; [congruence|cbn; lia]|right; exact NE].
Qed.

(** * strstr *)
Lemma strncmp_eq_prefix a b : strncmp_eq a b (length b) = prefixb b a.
Proof.
  unfold strncmp_eq. rewrite firstn_all. destruct (prefixb b a) eqn:P.
  - apply prefixb_spec in P. destruct P as [t ->]. apply bytes_eqb_eq. rewrite firstn_app_le by lia. apply firstn_all.
  - apply bytes_eqb_neq. intros E. assert (prefixb b a = true); [|congruence]. apply prefixb_spec. exists (skipn (length b) a).
    rewrite <- E at 1. symmetry. apply firstn_skipn.
Qed.

Lemma strstr_loop_spec h n : is_cstr h -> forall fuel sp, sp <= length h -> length h - sp < fuel -> (sp < length h \/ n <> []) ->
  strstr_loop fuel sp h n = Ok (option_map (fun i => sp + i) (Libc.strstr (skipn sp h) n)).
Proof.
  intros C. induction fuel as [|f IH]; intros sp L F X; [lia|]. cbn [strstr_loop].
  assert (CASE : sp < length h \/ sp = length h) by lia. destruct CASE as [A|A].
  - rewrite chr_lt by lia. cbn [bind]. replace (beq (nth sp h NUL) NUL) with false
      by (symmetry; apply beq_false, nth_cstr; assumption).
    rewrite strncmp_eq_prefix. rewrite (@skipn_cons_nth _ h sp NUL) by lia. cbn [Libc.strstr].
    destruct (prefixb n (nth sp h NUL :: skipn (S sp) h)) eqn:P; [cbn; f_equal; f_equal; lia|].
    assert (NS : n <> []) by (intros ->; discriminate).
    rewrite IH by (try lia; right; exact NS). destruct (Libc.strstr (skipn (S sp) h) n) as [i|]; cbn; [f_equal; f_equal; lia|reflexivity].
  - subst sp. rewrite chr_end. cbn [bind]. change (beq NUL NUL) with true. cbn iota. destruct X as [X|X]; [lia|].
    rewrite skipn_all2 by lia. destruct n as [|c n]; [congruence|]. reflexivity.
Qed.
Lemma strstr_compat_spec h n : is_cstr h -> h <> [] \/ n <> [] -> strstr_compat h n = Ok (Libc.strstr h n).
Proof.
  intros C NE. unfold strstr_compat. rewrite strstr_loop_spec; try assumption; try lia.
  - cbn [skipn]. destruct (Libc.strstr h n); reflexivity.
  - destruct NE as [NE|NE]; [left; destruct h; [congruence|cbn; lia]|right; exact NE].
Qed.

(** * strcasecmp, strncasecmp *)
Definition ascii7 (s : list byte) : Prop := Forall (fun c => (code c < 128)%N) s.

Lemma scode_small c : (code c < 128)%N -> scode c = Z.of_N (code c).
Proof. intros H. unfold scode. destruct (Z.ltb_spec (Z.of_N (code c)) 128); lia. Qed.
Lemma tolower_int_small c : (code c < 128)%N -> tolower_int (scode c) = Ok (Z.of_N (code (tolower c))).
Proof.
  intros H. rewrite scode_small by exact H. unfold tolower_int. pose proof (code_lt c).
  replace ((0 <=? Z.of_N (code c)) && (Z.of_N (code c) <? 256))%Z with true
    by (symmetry; apply andb_true_intro; split; [apply Z.leb_le|apply Z.ltb_lt]; lia).
  rewrite N2Z.id. unfold code at 2. rewrite ascii_N_embedding. reflexivity.
Qed.

Lemma chr_skip s i c t : is_cstr s -> skipn i s = c :: t -> chr s i = Ok c /\ c <> NUL /\ skipn (S i) s = t /\ i < length s.
Proof.
  intros C E. assert (L : i < length s).
  { destruct (Nat.ltb_spec i (length s)) as [A|A]; [exact A|]. rewrite skipn_all2 in E by lia. discriminate. }
  rewrite (@skipn_cons_nth _ s i NUL) in E by exact L. injection E as E1 E2.
  split; [rewrite chr_lt by exact L; congruence|]. split; [subst c; apply nth_cstr; assumption|]. auto.
Qed.
Lemma chr_skip_end s i : i <= length s -> skipn i s = [] -> chr s i = Ok NUL /\ i = length s.
Proof.
  intros L E. apply (f_equal (@length _)) in E. rewrite skipn_length in E. cbn in E. assert (i = length s) by lia. subst i.
  split; [apply chr_end|reflexivity].
Qed.

Definition sign_of (c : comparison) : Z := match c with Datatypes.Eq => 0 | Datatypes.Lt => -1 | Datatypes.Gt => 1 end.

Lemma strcasecmp_loop_spec s1 s2 : is_cstr s1 -> is_cstr s2 -> ascii7 s1 -> ascii7 s2 ->
  forall fuel i, i <= length s1 -> i <= length s2 -> length s1 - i < fuel ->
  strcasecmp_loop fuel i s1 s2 = Ok (sign_of (lexcmp (map tolower (skipn i s1)) (map tolower (skipn i s2)))).
Proof.
  intros C1 C2 A1 A2. induction fuel as [|f IH]; intros i L1 L2 F; [lia|]. cbn [strcasecmp_loop].
  destruct (skipn i s1) as [|a t] eqn:E1; destruct (skipn i s2) as [|b u] eqn:E2.
  - rewrite (proj1 (@chr_skip_end s1 i L1 E1)), (proj1 (@chr_skip_end s2 i L2 E2)). reflexivity.
  - rewrite (proj1 (@chr_skip_end s1 i L1 E1)). destruct (@chr_skip s2 i _ _ C2 E2) as [X [Y _]]. rewrite X. cbn [bind].
    apply beq_false in Y. rewrite Y. reflexivity.
  - rewrite (proj1 (@chr_skip_end s2 i L2 E2)). destruct (@chr_skip s1 i _ _ C1 E1) as [X [Y _]]. rewrite X. cbn [bind].
    apply beq_false in Y. rewrite Y. reflexivity.
  - destruct (@chr_skip s1 i _ _ C1 E1) as [X1 [Y1 [Z1 W1]]]. destruct (@chr_skip s2 i _ _ C2 E2) as [X2 [Y2 [Z2 W2]]]. rewrite X1, X2. cbn [bind].
    apply beq_false in Y1. apply beq_false in Y2. rewrite Y1, Y2. cbn [andb].
    assert (Sa : (code a < 128)%N).
    { unfold ascii7 in A1. rewrite Forall_forall in A1. apply A1. rewrite <- (firstn_skipn i s1). apply in_or_app. right. rewrite E1. left. reflexivity. }
    assert (Sb : (code b < 128)%N).
    { unfold ascii7 in A2. rewrite Forall_forall in A2. apply A2. rewrite <- (firstn_skipn i s2). apply in_or_app. right. rewrite E2. left. reflexivity. }
    rewrite (tolower_int_small _ Sa), (tolower_int_small _ Sb). cbn [bind map lexcmp].
    destruct (N.compare_spec (code (tolower a)) (code (tolower b))) as [Q|Q|Q].
    + rewrite Q, !Z.ltb_irrefl. rewrite IH by lia. rewrite Z1, Z2. reflexivity.
    + replace (Z.of_N (code (tolower a)) <? Z.of_N (code (tolower b)))%Z with true by (symmetry; apply Z.ltb_lt; lia). reflexivity.
    + replace (Z.of_N (code (tolower a)) <? Z.of_N (code (tolower b)))%Z with false by (symmetry; apply Z.ltb_ge; lia).
      replace (Z.of_N (code (tolower b)) <? Z.of_N (code (tolower a)))%Z with true by (symmetry; apply Z.ltb_lt; lia). reflexivity.
Qed.

Lemma strncasecmp_loop_spec s1 s2 : is_cstr s1 -> is_cstr s2 -> ascii7 s1 -> ascii7 s2 ->
  forall n i, i <= length s1 -> i <= length s2 ->
  strncasecmp_loop n i s1 s2 = Ok (sign_of (lexcmp (map tolower (firstn n (skipn i s1))) (map tolower (firstn n (skipn i s2))))).
Proof.
  intros C1 C2 A1 A2. induction n as [|n IH]; intros i L1 L2; [reflexivity|]. cbn [strncasecmp_loop].
  destruct (skipn i s1) as [|a t] eqn:E1; destruct (skipn i s2) as [|b u] eqn:E2.
  - rewrite (proj1 (@chr_skip_end s1 i L1 E1)), (proj1 (@chr_skip_end s2 i L2 E2)). reflexivity.
  - rewrite (proj1 (@chr_skip_end s1 i L1 E1)). destruct (@chr_skip s2 i _ _ C2 E2) as [X [Y _]]. rewrite X. cbn [bind].
    apply beq_false in Y. rewrite Y. reflexivity.
  - rewrite (proj1 (@chr_skip_end s2 i L2 E2)). destruct (@chr_skip s1 i _ _ C1 E1) as [X [Y _]]. rewrite X. cbn [bind].
    apply beq_false in Y. rewrite Y. reflexivity.
  - destruct (@chr_skip s1 i _ _ C1 E1) as [X1 [Y1 [Z1 W1]]]. destruct (@chr_skip s2 i _ _ C2 E2) as [X2 [Y2 [Z2 W2]]]. rewrite X1, X2. cbn [bind].
    apply beq_false in Y1. apply beq_false in Y2. rewrite Y1, Y2. cbn [andb].
    assert (Sa : (code a < 128)%N).
    { unfold ascii7 in A1. rewrite Forall_forall in A1. apply A1. rewrite <- (firstn_skipn i s1). apply in_or_app. right. rewrite E1. left. reflexivity. }
    assert (Sb : (code b < 128)%N).
    { unfold ascii7 in A2. rewrite Forall_forall in A2. apply A2. rewrite <- (firstn_skipn i s2). apply in_or_app. right. rewrite E2. left. reflexivity. }
    rewrite (tolower_int_small _ Sa), (tolower_int_small _ Sb). cbn [bind map lexcmp firstn].
    destruct (N.compare_spec (code (tolower a)) (code (tolower b))) as [Q|Q|Q].
    + rewrite Q, !Z.ltb_irrefl. rewrite IH by lia. rewrite Z1, Z2. reflexivity.
    + replace (Z.of_N (code (tolower a)) <? Z.of_N (code (tolower b)))%Z with true by (symmetry; apply Z.ltb_lt; lia). reflexivity.
    + replace (Z.of_N (code (tolower a)) <? Z.of_N (code (tolower b)))%Z with false by (symmetry; apply Z.ltb_ge; lia).
      replace (Z.of_N (code (tolower b)) <? Z.of_N (code (tolower a)))%Z with true by (symmetry; apply Z.ltb_lt; lia). reflexivity.
Qed.

Lemma sign_compares a b : compares (sign_of (lexcmp a b)) a b.
Proof.
  unfold compares. rewrite <- lexcmp_lt, <- lexcmp_gt, <- lexcmp_eq. destruct (lexcmp a b); cbn; repeat split; intros; try lia; try discriminate; reflexivity.
Qed.

(** * strcasestr *)
Lemma ascii7_skipn s i : ascii7 s -> ascii7 (skipn i s).
Proof. unfold ascii7. rewrite !Forall_forall. intros H x I. apply H. rewrite <- (firstn_skipn i s). apply in_or_app. right. exact I. Qed.
Lemma is_cstr_skipn s i : is_cstr s -> is_cstr (skipn i s).
Proof. intros H X. apply H. rewrite <- (firstn_skipn i s). apply in_or_app. right. exact X. Qed.
Lemma map_skipn A B (f : A -> B) l i : map f (skipn i l) = skipn i (map f l).
Proof. revert i; induction l as [|x l IH]; intros [|i]; cbn; auto. Qed.

Lemma strcasestr_loop_spec h n : is_cstr h -> is_cstr n -> ascii7 h -> ascii7 n ->
  forall fuel sp, sp <= length h -> length h - sp < fuel -> (sp < length h \/ n <> []) ->
  strcasestr_loop fuel sp h n = Ok (option_map (fun i => sp + i) (Libc.strstr (map tolower (skipn sp h)) (map tolower n))).
Proof.
  intros C Cn A7 N7. induction fuel as [|f IH]; intros sp L F X; [lia|]. cbn [strcasestr_loop].
  assert (CASE : sp < length h \/ sp = length h) by lia. destruct CASE as [A|A].
  - rewrite chr_lt by lia. cbn [bind]. replace (beq (nth sp h NUL) NUL) with false
      by (symmetry; apply beq_false, nth_cstr; assumption).
    unfold strncasecmp. rewrite strncasecmp_loop_spec; try assumption; try lia; [|apply is_cstr_skipn; exact C|apply ascii7_skipn; exact A7].
    cbn [bind skipn]. rewrite (firstn_all n).
    assert (P : (sign_of (lexcmp (map tolower (firstn (length n) (skipn sp h))) (map tolower n)) =? 0)%Z = prefixb (map tolower n) (map tolower (skipn sp h))).
    { rewrite <- strncmp_eq_prefix. unfold strncmp_eq. rewrite firstn_all, map_length, firstn_map.
      destruct (bytes_eqb _ _) eqn:B.
      - apply bytes_eqb_eq in B. rewrite B, lexcmp_refl. reflexivity.
      - apply bytes_eqb_neq in B. destruct (lexcmp _ _) eqn:Q; [apply lexcmp_eq in Q; congruence|reflexivity|reflexivity]. }
    rewrite P. rewrite (@skipn_cons_nth _ h sp NUL) by lia. cbn [map Libc.strstr].
    destruct (prefixb (map tolower n) (tolower (nth sp h NUL) :: map tolower (skipn (S sp) h))) eqn:P2; [cbn; f_equal; f_equal; lia|].
    assert (NS : n <> []) by (intros ->; discriminate).
    rewrite IH by (try lia; right; exact NS). destruct (Libc.strstr (map tolower (skipn (S sp) h)) _) as [i|]; cbn; [f_equal; f_equal; lia|reflexivity].
  - subst sp. rewrite chr_end. cbn [bind]. change (beq NUL NUL) with true. cbn iota. destruct X as [X|X]; [lia|].
    rewrite skipn_all2 by lia. destruct n as [|c n]; [congruence|]. reflexivity.
Qed.

(** * strrstr *)
Lemma occurs_prefix f s i : occurs_at f s i <-> i + length f <= length s /\ prefixb f (skipn i s) = true.
Proof.
  split.
  - intros [a [b [-> <-]]]. rewrite !app_length. split; [lia|]. apply prefixb_spec. exists b.
    rewrite skipn_app_ge by lia. rewrite Nat.sub_diag. reflexivity.
  - intros [L P]. apply prefixb_spec in P. destruct P as [b P]. exists (firstn i s), b.
    split; [rewrite <- P; symmetry; apply firstn_skipn|]. rewrite firstn_length. lia.
Qed.

Lemma strrstr_loop_spec str pat : is_cstr str -> pat <> [] -> forall p, p + length pat <= length str ->
  (forall j, p < j -> ~ occurs_at pat str j) ->
  exists r, strrstr_loop p str pat = Ok r /\
  match r with
  | Some i => 0 < i /\ occurs_at pat str i /\ forall j, occurs_at pat str j -> j <= i
  | None => forall j, 0 < j -> ~ occurs_at pat str j
  end.
Proof.
  intros C NE. induction p as [|q IH]; intros L H; cbn [strrstr_loop].
  { exists None. split; [reflexivity|]. intros j J; apply H; lia. }
  assert (LP : 0 < length pat) by (destruct pat; [congruence|cbn; lia]).
  rewrite (@chr_lt str (S q)) by lia. rewrite (@chr_lt pat 0) by lia. cbn [bind]. rewrite strncmp_eq_prefix.
  destruct (prefixb pat (skipn (S q) str)) eqn:P.
  - assert (HD : nth (S q) str NUL = nth 0 pat NUL).
    { apply prefixb_spec in P. destruct P as [b P].
      rewrite <- (Nat.add_0_r (S q)). rewrite <- nth_skipn, P. rewrite app_nth1 by lia. reflexivity. }
    rewrite HD, beq_refl. cbn [andb]. exists (Some (S q)). split; [reflexivity|]. split; [lia|].
    split; [apply occurs_prefix; split; [lia|exact P]|]. intros j O. destruct (Nat.leb_spec j (S q)) as [A|A]; [exact A|].
    exfalso. exact (H j A O).
  - rewrite andb_false_r. apply IH; [lia|]. intros j J O. assert (CASE : j = S q \/ S q < j) by lia. destruct CASE as [-> | A].
    + apply occurs_prefix in O. destruct O. congruence.
    + exact (H j A O).
Qed.

Lemma strrstr_spec str pat : is_cstr str ->
  exists r, strrstr str pat = Ok r /\
  match r with
  | Some i => 0 < i /\ occurs_at pat str i /\ forall j, occurs_at pat str j -> j <= i
  | None => forall j, 0 < j -> ~ occurs_at pat str j
  end.
Proof.
  intros C. unfold strrstr. destruct (Nat.ltb_spec (length str) (length pat)) as [A|A].
  - exists None. split; [reflexivity|]. intros j J O. apply occurs_prefix in O. lia.
  - assert (CASE : pat = [] \/ pat <> []) by (destruct pat; [left; reflexivity|right; discriminate]). destruct CASE as [-> | NE].
    + cbn [length]. rewrite Nat.sub_0_r. destruct str as [|c str]; [exists None; split; [reflexivity|]; intros j J O; apply occurs_prefix in O; cbn in O; lia|].
      cbn [length strrstr_loop]. change (S (length str)) with (length (c :: str)). rewrite chr_end. cbn [bind].
      change (chr [] 0) with (Ok NUL). cbn [bind]. rewrite strncmp_eq_prefix, beq_refl, skipn_all.
      exists (Some (length (c :: str))). split; [reflexivity|]. split; [cbn; lia|]. split.
      * apply occurs_prefix. split; [cbn; lia|]. rewrite skipn_all. reflexivity.
      * intros j O. apply occurs_prefix in O. cbn [length] in *. lia.
    + apply strrstr_loop_spec; try assumption; [lia|]. intros j J O. apply occurs_prefix in O. lia.
Qed.

(** * memrchr *)
Lemma memrchr_spec s r c : forall n, n <= length s ->
  exists x, memrchr (map Some s ++ r) c n = Ok x /\
  match x with
  | Some i => i < n /\ nth i s NUL = c /\ forall j, i < j -> j < n -> nth j s NUL <> c
  | None => forall j, j < n -> nth j s NUL <> c
  end.
Proof.
  induction n as [|p IH]; intros L; cbn [memrchr]; [exists None; split; [reflexivity|]; intros; lia|].
  rewrite (@aget_rep _ s r p NUL) by lia. cbn [bind]. destruct (beq_spec (nth p s NUL) c) as [Q|Q].
  - exists (Some p). split; [reflexivity|]. repeat split; [lia|exact Q|intros; lia].
  - destruct IH as [x [E X]]; [lia|]. exists x. split; [exact E|]. destruct x as [i|].
    + destruct X as [X1 [X2 X3]]. repeat split; [lia|exact X2|]. intros j J1 J2.
      assert (CASE : j = p \/ j < p) by lia. destruct CASE as [-> | A]; [exact Q|]. apply X3; lia.
    + intros j J. assert (CASE : j = p \/ j < p) by lia. destruct CASE as [-> | A]; [exact Q|]. apply X; lia.
Qed.

(** * strnlen, strndup, strdup, memdup *)
(** a string of at most [max] bytes is terminated inside, or [max] bytes are there *)
Lemma strnlen_loop_spec a : forall b max r, is_cstr b -> max <= length b \/ (exists r', r = Some NUL :: r') ->
  strnlen_loop max (length a) (map Some (a ++ b) ++ r) = Ok (length a + Nat.min max (length b)).
Proof.
  intros b. revert a. induction b as [|c b IH]; intros a max r C H.
  - rewrite app_nil_r. destruct max as [|p]; cbn [strnlen_loop length Nat.min]; [f_equal; lia|].
    destruct H as [H|[r' ->]]; [cbn in H; lia|]. unfold aget. rewrite nth_error_app2 by (rewrite map_length; lia).
    rewrite map_length, Nat.sub_diag. cbn. f_equal. lia.
  - apply is_cstr_cons in C. destruct C as [N C]. destruct max as [|p]; cbn [strnlen_loop length Nat.min]; [f_equal; lia|].
    rewrite (@aget_rep _ (a ++ c :: b) r (length a) NUL) by (rewrite app_length; cbn; lia). cbn [bind].
    rewrite app_nth2, Nat.sub_diag by lia. cbn [nth]. apply beq_false in N. rewrite N.
    replace (a ++ c :: b) with ((a ++ [c]) ++ b) by (rewrite <- app_assoc; reflexivity).
    replace (S (length a)) with (length (a ++ [c])) by (rewrite app_length; cbn; lia).
    rewrite IH; [|exact C|]. { rewrite app_length. cbn [length]. f_equal. lia. }
    destruct H as [H|H]; [left; cbn in H; lia|right; exact H].
Qed.
Lemma strnlen_spec s max r : is_cstr s -> max <= length s \/ (exists r', r = Some NUL :: r') ->
  strnlen (map Some s ++ r) max = Ok (Nat.min max (length s)).
Proof. intros C H. exact (@strnlen_loop_spec [] s max r C H). Qed.

Lemma upd_snoc A (l : list A) x y t : upd (l ++ x :: t) (length l) y = l ++ y :: t.
Proof. rewrite upd_app_r by lia. rewrite Nat.sub_diag. reflexivity. Qed.

Lemma upd_map_snoc A (a : list A) x (y : option A) t : upd (map Some a ++ x :: t) (length a) y = map Some a ++ y :: t.
Proof. pose proof (upd_snoc (map Some a) x y t) as H. rewrite map_length in H. exact H. Qed.

Lemma strndup_spec s max r : is_cstr s -> max <= length s \/ (exists r', r = Some NUL :: r') ->
  strndup true (map Some s ++ r) max = Ok (Some (block (firstn max s))).
Proof.
  intros C H. unfold strndup. rewrite (strnlen_spec C H). cbn [bind].
  set (k := Nat.min max (length s)). assert (K : k <= length s) by (subst k; lia).
  rewrite acopy_Ok; [|rewrite repeat_length; lia|rewrite app_length, map_length; lia].
  cbn [bind firstn app skipn]. rewrite firstn_app_le by (rewrite map_length; lia). rewrite firstn_map.
  replace (skipn (0 + k) (repeat None (k + 1))) with [@None byte].
  2: { rewrite repeat_app, skipn_app_ge by (rewrite repeat_length; lia). rewrite repeat_length. replace (0 + k - k) with 0 by lia. reflexivity. }
  rewrite aset_Ok by (rewrite app_length, map_length, firstn_length; cbn; lia). cbn [bind].
  replace k with (length (map (@Some byte) (firstn k s))) at 2 by (rewrite map_length, firstn_length; lia).
  rewrite upd_snoc. rewrite block_eq. do 4 f_equal.
  subst k. destruct (Nat.leb_spec max (length s)) as [A|A]; [rewrite Nat.min_l by lia; reflexivity|].
  rewrite Nat.min_r by lia. rewrite firstn_all, firstn_all2 by lia. reflexivity.
Qed.

Lemma acopy_fresh A (data : cells A) size : size <= length data -> acopy (repeat None size) 0 data 0 size = Ok (firstn size data).
Proof.
  intros L. rewrite acopy_Ok by (rewrite ?repeat_length; lia). cbn [firstn app skipn].
  rewrite skipn_all2 by (rewrite repeat_length; lia). rewrite app_nil_r. reflexivity.
Qed.

Lemma strdup_spec m s : holds m s -> strdup true m = Ok (Some (block s)).
Proof.
  intros H. unfold strdup. rewrite (proj2 (mstr_holds m s) H). cbn [bind]. rewrite acopy_fresh by (pose proof (holds_length H); lia).
  cbn [bind]. destruct H as [_ [r ->]]. rewrite block_eq. do 2 f_equal.
  rewrite firstn_app_ge by (rewrite map_length; lia). rewrite map_length.
  replace (length s + 1 - length s) with 1 by lia. reflexivity.
Qed.

(** * strchrnul *)
Lemma strchrnul_spec s c : is_cstr s ->
  exists a b, s = a ++ b /\ length a = strchrnul s c /\ ~ In c a /\ (b = [] \/ exists t, b = c :: t).
Proof.
  intros C. unfold strchrnul. destruct (beq_spec c NUL) as [-> | N].
  - exists s, []. rewrite app_nil_r. split; [reflexivity|]. split; [|split; [exact C|left; reflexivity]].
    assert (E : strchr s NUL = Some (length s)); [|rewrite E; reflexivity].
    induction s as [|x s IH]; [reflexivity|]. apply is_cstr_cons in C. destruct C as [X C]. cbn [strchr].
    apply beq_false in X. rewrite X, (IH C). reflexivity.
  - pose proof (@strchr_cases s c C N) as H. destruct (strchr s c) as [i|].
    + destruct H as [a [b [E [L X]]]]. exists a, (c :: b). repeat split; [exact E|exact L|exact X|right; eauto].
    + exists s, []. rewrite app_nil_r. repeat split; [exact H|left; reflexivity].
Qed.

(** * strsep *)
Lemma strsep_delim_spec delim c : is_cstr delim -> forall fuel i, i <= length delim -> length delim - i < fuel ->
  strsep_delim fuel i delim c = Ok (existsb (beq c) (skipn i delim) || beq c NUL).
Proof.
  intros C. induction fuel as [|f IH]; intros i L F; [lia|]. cbn [strsep_delim].
  assert (CASE : i < length delim \/ i = length delim) by lia. destruct CASE as [A|A].
  - rewrite chr_lt by lia. cbn [bind]. rewrite (@skipn_cons_nth _ delim i NUL) by lia. cbn [existsb].
    pose proof (@nth_cstr delim i C A) as X. set (x := nth i delim NUL) in *.
    destruct (beq_spec x c) as [Q|Q].
    + subst c. rewrite beq_refl. reflexivity.
    + replace (beq c x) with false by (symmetry; apply beq_false; congruence).
      apply beq_false in X. rewrite X. cbn [negb orb]. apply IH; lia.
  - subst i. rewrite chr_end. cbn [bind]. rewrite skipn_all. cbn [existsb orb].
    destruct (beq_spec NUL c) as [Q|Q]; [subst c; reflexivity|]. rewrite beq_refl. cbn [negb].
    replace (beq c NUL) with false by (symmetry; apply beq_false; congruence). reflexivity.
Qed.

(** [t] is the part of [s] before the first delimiter *)
Definition nodelim (delim t : list byte) : Prop := forall c, In c t -> ~ In c delim.

Lemma existsb_beq c l : existsb (beq c) l = true <-> In c l.
Proof.
  rewrite existsb_exists. split; [intros [x [H E]]; apply beq_true in E; subst; exact H|].
  intros H. exists c. split; [exact H|apply beq_refl].
Qed.
Lemma existsb_beq_false c l : existsb (beq c) l = false <-> ~ In c l.
Proof. rewrite <- existsb_beq. destruct (existsb (beq c) l); split; congruence. Qed.

Lemma strsep_loop_hit delim c u r : is_cstr delim -> In c delim -> forall t p fuel,
  is_cstr t -> nodelim delim t -> length t < fuel ->
  strsep_loop fuel (length p) (p ++ map Some (t ++ c :: u) ++ r) delim =
    Ok (p ++ map Some t ++ Some NUL :: map Some u ++ r, Some (length p + length t + 1)).
Proof.
  intros C I. induction t as [|x t IH]; intros p fuel Ct ND F; (destruct fuel as [|f]; [cbn in F; lia|]); cbn [strsep_loop].
  - cbn [app map]. unfold aget. rewrite nth_error_app2, Nat.sub_diag by lia. cbn [nth_error bind].
    rewrite (strsep_delim_spec c C) by lia. cbn [bind skipn]. rewrite (proj2 (existsb_beq c delim) I). cbn [orb].
    assert (X : c <> NUL) by (intros ->; contradiction). apply beq_false in X. rewrite X.
    rewrite aset_Ok by (rewrite app_length; cbn; lia). cbn [bind]. rewrite upd_snoc. do 3 f_equal. cbn. lia.
  - apply is_cstr_cons in Ct. destruct Ct as [X Ct]. cbn [app map]. unfold aget.
    rewrite nth_error_app2, Nat.sub_diag by lia. cbn [nth_error bind]. rewrite (strsep_delim_spec x C) by lia. cbn [bind skipn].
    assert (Nx : ~ In x delim) by (apply ND; left; reflexivity). apply existsb_beq_false in Nx. rewrite Nx. apply beq_false in X. rewrite X. cbn [orb].
    specialize (IH (p ++ [Some x]) f Ct). rewrite app_length in IH. cbn [length] in IH. rewrite Nat.add_1_r in IH.
    rewrite <- !app_assoc in IH. cbn [app] in IH. rewrite IH; [|intros y Y; apply ND; right; exact Y|cbn in F; lia].
    cbn [length]. do 3 f_equal. lia.
Qed.

Lemma strsep_loop_end delim r : is_cstr delim -> forall t p fuel,
  is_cstr t -> nodelim delim t -> length t < fuel ->
  strsep_loop fuel (length p) (p ++ map Some t ++ Some NUL :: r) delim = Ok (p ++ map Some t ++ Some NUL :: r, None).
Proof.
  intros C. induction t as [|x t IH]; intros p fuel Ct ND F; (destruct fuel as [|f]; [cbn in F; lia|]); cbn [strsep_loop].
  - cbn [app map]. unfold aget. rewrite nth_error_app2, Nat.sub_diag by lia. cbn [nth_error bind].
    rewrite (strsep_delim_spec NUL C) by lia. cbn [bind skipn]. rewrite beq_refl, orb_true_r. reflexivity.
  - apply is_cstr_cons in Ct. destruct Ct as [X Ct]. cbn [app map]. unfold aget.
    rewrite nth_error_app2, Nat.sub_diag by lia. cbn [nth_error bind]. rewrite (strsep_delim_spec x C) by lia. cbn [bind skipn].
    assert (Nx : ~ In x delim) by (apply ND; left; reflexivity). apply existsb_beq_false in Nx. rewrite Nx. apply beq_false in X. rewrite X. cbn [orb].
    specialize (IH (p ++ [Some x]) f Ct). rewrite app_length in IH. cbn [length] in IH. rewrite Nat.add_1_r in IH.
    rewrite <- !app_assoc in IH. cbn [app] in IH. apply IH; [intros y Y; apply ND; right; exact Y|cbn in F; lia].
Qed.

(** * stpncpy *)
Lemma int_succ_ok i len : i < len -> (Z.of_nat len <= INT_MAX)%Z -> int_succ i = Ok (S i).
Proof. intros L B. unfold int_succ. replace (Z.of_nat i <? INT_MAX)%Z with true by (symmetry; apply Z.ltb_lt; lia). reflexivity. Qed.

Lemma stpncpy_fill_spec len : (Z.of_nat len <= INT_MAX)%Z -> forall k fuel a d r, length a + k = len -> length d = k -> k < fuel ->
  stpncpy_fill fuel (length a) (a ++ d ++ r) len = Ok (a ++ repeat (Some NUL) k ++ r).
Proof.
  intros B. induction k as [|k IH]; intros fuel a d r L D F; (destruct fuel as [|f]; [lia|]); cbn [stpncpy_fill].
  - replace (length a <? len) with false by (symmetry; apply Nat.ltb_ge; lia). destruct d; [reflexivity|discriminate].
  - replace (length a <? len) with true by (symmetry; apply Nat.ltb_lt; lia). destruct d as [|x d]; [discriminate|].
    rewrite aset_Ok by (rewrite !app_length; cbn; lia). cbn [bind app]. rewrite upd_snoc.
    rewrite (@int_succ_ok (length a) len) by lia. cbn [bind].
    specialize (IH f (a ++ [Some NUL]) d r). rewrite app_length in IH. cbn [length] in IH. rewrite Nat.add_1_r in IH.
    rewrite <- !app_assoc in IH. cbn [app] in IH. cbn in D. rewrite IH by lia. reflexivity.
Qed.

Lemma stpncpy_loop_spec len sr : (Z.of_nat len <= INT_MAX)%Z -> forall s a d r fuel,
  is_cstr s -> length a + length d = len -> (length d <= length s \/ exists r', sr = Some NUL :: r') -> length d < fuel ->
  stpncpy_loop fuel (length a) (map Some a ++ d ++ r) (map Some (a ++ s) ++ sr) len =
    Ok (map Some a ++ map Some (firstn (length d) s) ++ repeat (Some NUL) (length d - length s) ++ r,
        length a + Nat.min (length d) (length s)).
Proof.
  intros B. induction s as [|c s IH]; intros a d r fuel C L H F; (destruct fuel as [|f]; [lia|]); cbn [stpncpy_loop].
  - destruct d as [|x d].
    + replace (length a <? len) with false by (symmetry; apply Nat.ltb_ge; cbn in L; lia). cbn. cbn in L. do 2 f_equal. lia.
    + replace (length a <? len) with true by (symmetry; apply Nat.ltb_lt; cbn in L; lia).
      destruct H as [H|[r' ->]]; [cbn in H; lia|]. rewrite app_nil_r.
      unfold aget. rewrite nth_error_app2 by (rewrite map_length; lia). rewrite map_length, Nat.sub_diag. cbn [nth_error bind].
      rewrite aset_Ok by (rewrite !app_length, map_length; cbn; lia). cbn [bind app].
      rewrite upd_map_snoc. rewrite beq_refl.
      rewrite (@int_succ_ok (length a) len) by (cbn in L; lia). cbn [bind].
      pose proof (@stpncpy_fill_spec len B (length d) (S len) (map Some a ++ [Some NUL]) d r) as Q.
      rewrite app_length, map_length in Q. cbn [length] in Q. rewrite Nat.add_1_r in Q. rewrite <- !app_assoc in Q. cbn [app] in Q.
      cbn in L. rewrite Q by lia. cbn. do 2 f_equal. lia.
  - apply is_cstr_cons in C. destruct C as [X C]. destruct d as [|x d].
    + replace (length a <? len) with false by (symmetry; apply Nat.ltb_ge; cbn in L; lia). cbn. cbn in L. do 2 f_equal. lia.
    + replace (length a <? len) with true by (symmetry; apply Nat.ltb_lt; cbn in L; lia).
      rewrite (@aget_rep _ (a ++ c :: s) sr (length a) NUL) by (rewrite app_length; cbn; lia). cbn [bind].
      rewrite app_nth2, Nat.sub_diag by lia. cbn [nth].
      rewrite aset_Ok by (rewrite !app_length, map_length; cbn; lia). cbn [bind app].
      rewrite upd_map_snoc.
      apply beq_false in X. rewrite X. rewrite (@int_succ_ok (length a) len) by (cbn in L; lia). cbn [bind].
      specialize (IH (a ++ [c]) d r f C). rewrite app_length in IH. cbn [length] in IH. rewrite Nat.add_1_r in IH.
      rewrite map_app in IH. rewrite <- !app_assoc in IH. cbn [app map] in IH. rewrite IH.
      * cbn [length firstn map app Nat.sub]. do 2 f_equal. lia.
      * cbn in L. lia.
      * destruct H as [H|H]; [left; cbn in H; lia|right; exact H].
      * cbn in F. lia.
Qed.
