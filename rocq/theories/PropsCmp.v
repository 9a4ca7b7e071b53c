(** C29: string comparison.  C58: prefixes, suffixes and options. *)
From Verif Require Import Prelude PreludeFacts Str StrFacts Libc LibcFacts CmpSpec CmpFacts CmpModel CmpProofs.
Set Implicit Arguments.
Local Open Scope Z_scope.

(** For every strcmp allowed by the C standard, StringSafeCompare returns -1, 0 or 1
    according to the order of the strings, NULL first. *)
Theorem C29_StringSafeCompare strcmp (a b : cptr) : strcmp_ok strcmp -> coherent a b ->
  exists r, StringSafeCompare strcmp a b = Ok r /\ (r = -1 \/ r = 0 \/ r = 1) /\
    (r = -1 <-> before0 (strof a) (strof b)) /\ (r = 0 <-> strof a = strof b) /\ (r = 1 <-> before0 (strof b) (strof a)).
Proof.
  intros OK Co. exists (zcmp0 (strof a) (strof b)). split; [apply safe_compare_sgn; auto|].
  split; [|apply zcmp0_spec]. destruct (strof a), (strof b); cbn; auto.
  unfold zcmp. destruct (lexcmp l l0); auto.
Qed.

(** hence comparing is a total order: antisymmetric, transitive, and equality is
    equality of strings *)
Theorem C29_order_laws strcmp (a b c : cptr) : strcmp_ok strcmp ->
  coherent a b -> coherent b a -> coherent b c -> coherent a c -> exists ab ba bc ac,
  StringSafeCompare strcmp a b = Ok ab /\ StringSafeCompare strcmp b a = Ok ba /\
  StringSafeCompare strcmp b c = Ok bc /\ StringSafeCompare strcmp a c = Ok ac /\
  ba = - ab /\ (ab <= 0 -> bc <= 0 -> ac <= 0) /\ (ab <= 0 -> bc < 0 -> ac < 0) /\ (ab < 0 -> bc <= 0 -> ac < 0).
Proof.
  intros OK H1 H2 H3 H4.
  destruct (C29_StringSafeCompare OK H1) as [ab [E1 [R1 [L1 [Q1 G1]]]]].
  destruct (C29_StringSafeCompare OK H2) as [ba [E2 [R2 [L2 [Q2 G2]]]]].
  destruct (C29_StringSafeCompare OK H3) as [bc [E3 [R3 [L3 [Q3 G3]]]]].
  destruct (C29_StringSafeCompare OK H4) as [ac [E4 [R4 [L4 [Q4 G4]]]]].
  exists ab, ba, bc, ac. repeat (split; [assumption|]).
  pose proof (@before0_trans (strof a) (strof b) (strof c)) as T.
  split.
  - destruct R1 as [-> | [-> | -> ]].
    + apply G2, L1. reflexivity.
    + apply Q2. symmetry. apply Q1. reflexivity.
    + apply L2, G1. reflexivity.
  - destruct R1 as [-> | [-> | -> ]]; [|rewrite (proj1 Q1 eq_refl) in *|split; [lia|split; lia]].
    + pose proof (proj1 L1 eq_refl) as B1. destruct R3 as [-> | [-> | -> ]]; [| |split; [lia|split; lia]].
      * assert (ac = -1) by (apply L4, T; [exact B1|apply L3; reflexivity]). lia.
      * rewrite (proj1 Q3 eq_refl) in *. assert (ac = -1) by (apply L4, B1). lia.
    + destruct R3 as [-> | [-> | -> ]]; [| |split; [lia|split; lia]].
      * assert (ac = -1) by (apply L4, L3; reflexivity). lia.
      * assert (ac = 0) by (apply Q4, Q3; reflexivity). lia.
Qed.

(** the order itself is a strict total order on strings or NULL *)
Theorem C29_before_is_strict_total_order :
  (forall a, ~ before0 a a) /\ (forall a b c, before0 a b -> before0 b c -> before0 a c) /\
  (forall a b, before0 a b \/ a = b \/ before0 b a).
Proof. split; [exact before0_irrefl|split; [exact before0_trans|exact before0_total]]. Qed.

(** the sign of [r] tells how two strings or NULLs compare *)
Definition compares0 (r : Z) (a b : option (list byte)) : Prop :=
  (r < 0 <-> before0 a b) /\ (r = 0 <-> a = b) /\ (0 < r <-> before0 b a).

Lemma compares0_intro r a b : Z.sgn r = zcmp0 a b -> compares0 r a b.
Proof.
  intros E. destruct (zcmp0_spec a b) as [H1 [H2 H3]]. unfold compares0. rewrite <- H1, <- H2, <- H3, <- E.
  destruct (Z.sgn_spec r) as [[H ->]|[[H ->]|[H ->]]]; (split; [|split]); split; lia.
Qed.

(** the bounded variant compares the first n bytes *)
Theorem C29_StringSafeCompareN strncmp (a b : cptr) n : strncmp_ok strncmp -> coherent a b ->
  exists r, StringSafeCompareN strncmp a b n = Ok r /\
    compares0 r (option_map (firstn n) (strof a)) (option_map (firstn n) (strof b)).
Proof.
  intros OK Co. destruct (@via_compare (fun s t => strncmp s t n) (firstn n) a b (fun s t => OK s t n) Co) as [r [E S]].
  exists r. split; [exact E|]. apply compares0_intro, S.
Qed.

(** the case-insensitive variants compare the lower-cased strings *)
Theorem C29_IgnoreCase strcasecmp (a b : cptr) : strcasecmp_ok strcasecmp -> coherent a b ->
  exists r, StringSafeCompare_IgnoreCase strcasecmp a b = Ok r /\
    compares0 r (option_map (map tolower) (strof a)) (option_map (map tolower) (strof b)).
Proof.
  intros OK Co. destruct (@via_compare strcasecmp (map tolower) a b) as [r [E S]]; auto.
  exists r. split; [exact E|]. apply compares0_intro, S.
Qed.

Theorem C29_N_IgnoreCase strncasecmp (a b : cptr) n : strncasecmp_ok strncasecmp -> coherent a b ->
  exists r, StringSafeCompareN_IgnoreCase strncasecmp a b n = Ok r /\
    compares0 r (option_map (fun s => map tolower (firstn n s)) (strof a)) (option_map (fun s => map tolower (firstn n s)) (strof b)).
Proof.
  intros OK Co. destruct (@via_compare (fun s t => strncasecmp s t n) (fun s => map tolower (firstn n s)) a b (fun s t => OK s t n) Co) as [r [E S]].
  exists r. split; [exact E|]. apply compares0_intro, S.
Qed.

(** the equality tests *)
Theorem C29_StringEqual strcmp strncmp strcasecmp strncasecmp (a b : cptr) n :
  strcmp_ok strcmp -> strncmp_ok strncmp -> strcasecmp_ok strcasecmp -> strncasecmp_ok strncasecmp -> coherent a b ->
  (exists e, StringEqual strcmp a b = Ok e /\ (e = true <-> strof a = strof b)) /\
  (exists e, StringEqualN strncmp a b n = Ok e /\ (e = true <-> option_map (firstn n) (strof a) = option_map (firstn n) (strof b))) /\
  (exists e, StringEqual_IgnoreCase strcasecmp a b = Ok e /\
     (e = true <-> option_map (map tolower) (strof a) = option_map (map tolower) (strof b))) /\
  (exists e, StringEqualN_IgnoreCase strncasecmp a b n = Ok e /\
     (e = true <-> option_map (fun s => map tolower (firstn n s)) (strof a) = option_map (fun s => map tolower (firstn n s)) (strof b))).
Proof.
  intros O1 O2 O3 O4 Co. split; [|split; [|split]].
  - destruct (C29_StringSafeCompare O1 Co) as [r [E [_ [_ [Q _]]]]]. unfold StringEqual. rewrite E. cbn.
    eexists; split; [reflexivity|]. rewrite Z.eqb_eq. exact Q.
  - destruct (C29_StringSafeCompareN n O2 Co) as [r [E [_ [Q _]]]]. unfold StringEqualN. rewrite E. cbn.
    eexists; split; [reflexivity|]. rewrite Z.eqb_eq. exact Q.
  - destruct (C29_IgnoreCase O3 Co) as [r [E [_ [Q _]]]]. unfold StringEqual_IgnoreCase. rewrite E. cbn.
    eexists; split; [reflexivity|]. rewrite Z.eqb_eq. exact Q.
  - destruct (C29_N_IgnoreCase n O4 Co) as [r [E [_ [Q _]]]]. unfold StringEqualN_IgnoreCase. rewrite E. cbn.
    eexists; split; [reflexivity|]. rewrite Z.eqb_eq. exact Q.
Qed.

(** non-vacuity: there are conforming libc functions, one returning -1/0/1 and one
    returning byte differences scaled by 1000 *)
Example C29_libc_exists : strcmp_ok zcmp /\ strcmp_ok (fun a b => 1000 * zcmp a b) /\
  strncmp_ok (fun a b n => zcmp (firstn n a) (firstn n b)) /\
  strcasecmp_ok (fun a b => 7 * zcmp (map tolower a) (map tolower b)) /\
  strncasecmp_ok (fun a b n => zcmp (map tolower (firstn n a)) (map tolower (firstn n b))).
Proof.
  assert (B : forall a b, -1 <= zcmp a b <= 1) by (intros; unfold zcmp; destruct (lexcmp a b); lia).
  assert (K : forall k a b, 0 < k -> compares (k * zcmp a b) a b).
  { intros k a b P. destruct (zcmp_compares a b) as [H1 [H2 H3]]. unfold compares. rewrite <- H1, <- H2, <- H3. (split; [|split]); split; nia. }
  split; [|split; [|split; [|split]]].
  - intros a b. split; [apply zcmp_compares|]. specialize (B a b). unfold INT_MIN, INT_MAX. lia.
  - intros a b. split; [apply K; lia|]. specialize (B a b). unfold INT_MIN, INT_MAX. lia.
  - intros a b n. apply zcmp_compares.
  - intros a b. apply K. lia.
  - intros a b n. apply zcmp_compares.
Qed.
Example C29_ex :
  StringSafeCompare (fun a b => 1000 * zcmp a b) (Some (8%N, lit "abc")) (Some (64%N, lit "abd")) = Ok (-1) /\
  StringSafeCompare zcmp (Some (8%N, lit "ab")) None = Ok 1 /\
  StringEqual_IgnoreCase (fun a b => zcmp (map tolower a) (map tolower b)) (Some (8%N, lit "aBc")) (Some (64%N, lit "AbC")) = Ok true.
Proof. vm_compute. auto. Qed.

(** * C58 *)

Theorem C58_StringStartsWith str prefix :
  exists b, StringStartsWith str prefix = Ok b /\ (b = true <-> exists t, str = prefix ++ t).
Proof. apply starts_with_spec. Qed.

Theorem C58_StringEndsWith str suffix :
  exists b, StringEndsWith str suffix = Ok b /\ (b = true <-> exists p, str = p ++ suffix).
Proof.
  destruct (ends_with_spec str suffix false) as [b [E H]]. exists b. split; [exact E|]. rewrite H. split.
  - intros [p [t [-> M]]]. exists p. f_equal. change (foldc false) with (fun c : byte => c) in M. rewrite !map_id in M. exact M.
  - intros [p ->]. exists p, suffix. auto.
Qed.

Theorem C58_StringEndsWithCase str suffix :
  exists b, StringEndsWithCase str suffix true = Ok b /\
    (b = true <-> exists p t, str = p ++ t /\ map tolower t = map tolower suffix).
Proof. exact (ends_with_spec str suffix true). Qed.

(** StringMatchesOption: two characters must equal the short option, anything longer
    must be a case-insensitive prefix of the long option; nothing shorter matches *)
Theorem C58_StringMatchesOption strcmp strncasecmp supplied longopt shortopt :
  strcmp_ok strcmp -> strncasecmp_ok strncasecmp ->
  coherent (Some supplied) (Some longopt) -> coherent (Some supplied) (Some shortopt) ->
  forall o l0 l, snd shortopt = ["-"; o]%char -> o <> "-"%char ->
  snd longopt = ["-"; "-"; l0]%char ++ l -> l0 <> "-"%char ->
  exists b, StringMatchesOption strcmp strncasecmp supplied longopt shortopt = Ok b /\
    (b = true <-> snd supplied = snd shortopt \/
                  (3 <= length (snd supplied) /\
                   exists t, map tolower (snd longopt) = map tolower (snd supplied) ++ t))%nat.
Proof.
  intros O1 O2 Cl Cs o l0 l Hs No Hl Nl.
  assert (E0 : forall c : byte, c <> "-"%char -> beq c "-" = false) by (intros c; apply beq_false).
  unfold StringMatchesOption. rewrite Hs, Hl. cbn [length Nat.eqb massert app Nat.leb].
  change (chr ["-"%char; o] 0) with (Ok "-"%char). change (chr ["-"%char; o] 1) with (Ok o).
  change (chr ("-" :: "-" :: l0 :: l)%char 0) with (Ok "-"%char). change (chr ("-" :: "-" :: l0 :: l)%char 1) with (Ok "-"%char).
  change (chr ("-" :: "-" :: l0 :: l)%char 2) with (Ok l0). cbn [bind]. rewrite (E0 _ No), (E0 _ Nl), beq_refl. cbn [andb negb massert].
  destruct (Nat.leb_spec (length (snd supplied)) 1).
  - exists false. split; [reflexivity|]. split; [discriminate|]. intros [E|[L _]]; [rewrite E in H; cbn in H; lia|lia].
  - destruct (Nat.eqb_spec (length (snd supplied)) 2) as [L2|N2].
    + destruct (C29_StringSafeCompare O1 Cs) as [r [E [_ [_ [Q _]]]]]. unfold StringEqual. rewrite E. cbn [bind].
      eexists; split; [reflexivity|]. rewrite Z.eqb_eq, Q. unfold strof. cbn [option_map]. rewrite Hs. split.
      * intros X; injection X as ->. auto.
      * intros [->|[L _]]; [reflexivity|lia].
    + destruct (C29_N_IgnoreCase (length (snd supplied)) O2 Cl) as [r [E [_ [Q _]]]]. unfold StringEqualN_IgnoreCase. rewrite E. cbn [bind].
      eexists; split; [reflexivity|]. rewrite Z.eqb_eq, Q. unfold strof. cbn [option_map]. rewrite firstn_all, Hl. split.
      * intros X; injection X as X. right. split; [lia|]. cbn [app] in X |- *.
        exists (map tolower (skipn (length (snd supplied)) ("-" :: "-" :: l0 :: l)%char)).
        rewrite X, <- map_app, firstn_skipn. reflexivity.
      * intros [X|[_ [t X]]]; [rewrite X in N2; cbn in N2; lia|]. f_equal. cbn [app] in X |- *.
        rewrite <- firstn_map, X. rewrite firstn_app_le by (rewrite map_length; lia).
        rewrite firstn_all2; [reflexivity|rewrite map_length; lia].
Qed.

Example C58_ex :
  StringMatchesOption zcmp (fun a b n => zcmp (map tolower (firstn n a)) (map tolower (firstn n b)))
    (1%N, lit "--DEBU") (2%N, lit "--debug") (3%N, lit "-d") = Ok true /\
  StringEndsWithCase (lit "file.CSV") (lit ".csv") true = Ok true /\ StringEndsWith (lit "file.CSV") (lit ".csv") = Ok false /\
  StringStartsWith (lit "abc") (lit "ab") = Ok true.
Proof. vm_compute. auto. Qed.
