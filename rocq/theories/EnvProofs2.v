(** Proofs about EnvModel.v: ParseEnvLine as a whole. *)
From Verif Require Import Prelude PreludeFacts Str StrFacts Libc LibcFacts MemSpec EditSpec EditModel EditProofs EditProofs3.
From Verif Require Import CompatProofs CompatProofs2 EnvModel EnvSpec EnvProofs.
Set Implicit Arguments.

Lemma stripped_unique p s t1 t2 : stripped p s t1 -> stripped p s t2 -> t1 = t2.
Proof.
  assert (X : forall v1 t1 w1 v2 t2 w2, v1 ++ t1 ++ w1 = v2 ++ t2 ++ w2 -> (forall c, In c (v1 ++ w1) -> p c = true) ->
    (forall c, In c (v2 ++ w2) -> p c = true) -> t1 <> [] -> (exists c t, t1 = c :: t /\ p c = false) -> (exists c t, t2 = c :: t /\ p c = false) ->
    v1 = v2).
  { induction v1 as [|a v1 IH]; intros u1 w1 [|b v2] u2 w2 E A1 A2 NE [c1 [s1 [-> P1]]] [c2 [s2 [-> P2]]]; [reflexivity| | |].
    - cbn in E. injection E as -> _. rewrite (A2 b) in P1 by (left; reflexivity). discriminate.
    - cbn in E. injection E as -> _. rewrite (A1 c2) in P2 by (left; reflexivity). discriminate.
    - cbn in E. injection E as -> E. f_equal. apply (IH (c1 :: s1) w1 v2 (c2 :: s2) w2); auto; try discriminate; eauto.
      + intros c I. apply A1. right. exact I.
      + intros c I. apply A2. right. exact I. }
  intros [v1 [w1 [E1 [A1 B1]]]] [v2 [w2 [E2 [A2 B2]]]].
  destruct B1 as [-> | [F1 L1]]; destruct B2 as [-> | [F2 L2]].
  - reflexivity.
  - exfalso. destruct F2 as [c [t [-> P]]]. assert (I : In c (v1 ++ w1)).
    { cbn [app] in E1. rewrite <- E1, E2. apply in_or_app. right. left. reflexivity. }
    rewrite (A1 c I) in P. discriminate.
  - exfalso. destruct F1 as [c [t [-> P]]]. assert (I : In c (v2 ++ w2)).
    { cbn [app] in E2. rewrite <- E2, E1. apply in_or_app. right. left. reflexivity. }
    rewrite (A2 c I) in P. discriminate.
  - assert (v1 = v2). { apply (X v1 t1 w1 v2 t2 w2); auto; [congruence|]. destruct F1 as [c [t [-> _]]]. discriminate. }
    subst v2. rewrite E1 in E2. apply app_inv_head in E2.
    apply (@stripped_right_unique p (t1 ++ w1)).
    + exists w1. split; [reflexivity|]. split; [intros c I; apply A1, in_or_app; right; exact I|right; exact L1].
    + exists w2. split; [exact E2|]. split; [intros c I; apply A2, in_or_app; right; exact I|right; exact L2].
Qed.

(** TrimWhitespace, with the exact contents of the buffer afterwards *)
Lemma Trim_exact s r : is_cstr s ->
  exists v t w z, s = v ++ t ++ w /\ stripped isspace s t /\ length z = length w /\
    TrimWhitespace (map Some s ++ Some NUL :: r) = Ok (map Some v ++ map Some t ++ Some NUL :: z ++ r, length v).
Proof.
  intros C. set (m := map Some s ++ Some NUL :: r).
  assert (H : holds m s) by (split; [exact C|exists r; reflexivity]).
  pose proof (holds_length H) as HL. assert (Em : m = map Some s ++ Some NUL :: r) by reflexivity. clearbody m. unfold TrimWhitespace.
  destruct (span_all isspace s) as [v [b [Es [V B]]]].
  assert (SK : skip_space (S (length m)) 0 m = Ok (length v)).
  { rewrite Em at 2. rewrite Es. refine (@skip_space_spec (S (length m)) [] v b r _ V B). rewrite Es, app_length in HL. lia. }
  rewrite SK. cbn [bind].
  assert (LV : length v <= length s) by (rewrite Es, app_length; lia).
  rewrite (@holds_aget m s) by auto. cbn [bind].
  destruct b as [|c0 b0].
  - rewrite app_nil_r in Es. subst v. rewrite nth_overflow, beq_refl by lia.
    exists s, [], [], []. rewrite app_nil_r. split; [reflexivity|]. split.
    + exists s, []. cbn [app]. rewrite app_nil_r. auto.
    + split; [reflexivity|]. rewrite Em. reflexivity.
  - set (b := c0 :: b0) in *.
    assert (X : nth (length v) s NUL = c0) by (rewrite Es, app_nth2, Nat.sub_diag by lia; reflexivity).
    rewrite X. assert (N0 : beq c0 NUL = false).
    { apply beq_false. intros ->. apply C. rewrite Es. apply in_or_app. right. left. reflexivity. }
    rewrite N0.
    assert (HB : holds (skipn (length v) m) b).
    { split; [rewrite Es in C; apply is_cstr_app in C; apply C|]. exists r.
      rewrite Em, Es, map_app, <- app_assoc, skipn_app_ge, map_length, Nat.sub_diag by (rewrite map_length; lia). reflexivity. }
    rewrite (proj2 (mstr_holds _ _) HB). cbn [bind].
    destruct (last_split isspace b) as [[t [d [w [Eb [D W]]]]]|A]; [|exfalso; specialize (A c0 ltac:(left; reflexivity)); congruence].
    assert (LB : length b = length t + S (length w)) by (rewrite Eb, app_length; reflexivity).
    assert (Ls : length s = length v + (length t + S (length w))) by (rewrite Es, app_length; lia).
    assert (BS : back_space (S (length m)) (length v + length b - 1) m = Ok (length v + length t)).
    { apply (@back_space_spec m s); auto; try lia.
      - rewrite Es, Eb, app_nth2 by lia. replace (length v + length t - length v) with (length t) by lia.
        rewrite app_nth2, Nat.sub_diag by lia. exact D.
      - intros j J. apply W. rewrite Es, Eb, app_nth2, app_nth2 by lia.
        replace (j - length v - length t) with (S (j - length v - length t - 1)) by lia. cbn [nth]. apply nth_In. lia. }
    rewrite BS. cbn [bind]. rewrite (@cut_at m s (length v + length t + 1) H) by lia. cbn [bind].
    set (k := length v + length t + 1).
    assert (FK : firstn k s = v ++ t ++ [d]).
    { rewrite Es, Eb, firstn_app_ge by lia. f_equal. replace (k - length v) with (length t + 1) by lia.
      rewrite firstn_app_ge by lia. f_equal. replace (length t + 1 - length t) with 1 by lia. reflexivity. }
    assert (Es' : s = v ++ (t ++ [d]) ++ w) by (rewrite Es, Eb, <- app_assoc; reflexivity).
    assert (Z : exists z, skipn (S k) m = z ++ r /\ length z = length w).
    { rewrite Em, Es', !map_app, <- !app_assoc. rewrite skipn_app_ge by (rewrite map_length; lia).
      rewrite skipn_app_ge by (rewrite !map_length; lia). rewrite skipn_app_ge by (rewrite !map_length; cbn [length]; lia).
      rewrite !map_length. cbn [length]. replace (S k - length v - length t - 1) with 1 by lia.
      destruct w as [|x w]; [exists []; split; reflexivity|]. exists (map Some w ++ [Some NUL]). cbn [map app skipn].
      rewrite <- app_assoc. split; [reflexivity|]. rewrite app_length, map_length. cbn. lia. }
    destruct Z as [z [Z1 Z2]].
    exists v, (t ++ [d]), w, z. split; [exact Es'|]. split; [|split; [exact Z2|]].
    + exists v, w. split; [exact Es'|]. split.
      * intros c I. apply in_app_or in I as [I|I]; auto.
      * right. split; [|exists t, d; auto]. destruct t as [|x t].
        -- exists d, []. auto.
        -- cbn in Eb. injection Eb as <- _. exists c0, (t ++ [d]). auto.
    + unfold put. rewrite FK. replace (S (length (v ++ t ++ [d]))) with (S k) by (rewrite !app_length; cbn; lia).
      rewrite Z1, map_app, <- app_assoc. reflexivity.
Qed.

Lemma Trim_at pre s r : is_cstr s ->
  exists v t w z, s = v ++ t ++ w /\ stripped isspace s t /\ length z = length w /\
    at_offset (pre ++ map Some s ++ Some NUL :: r) (length pre) TrimWhitespace =
      Ok (pre ++ map Some v ++ map Some t ++ Some NUL :: z ++ r, length pre + length v).
Proof.
  intros C. destruct (@Trim_exact s r C) as [v [t [w [z [E [S [L T]]]]]]]. exists v, t, w, z. repeat split; try assumption.
  unfold at_offset. rewrite skipn_app_ge, Nat.sub_diag by lia. cbn [skipn]. rewrite T. cbn [bind].
  rewrite firstn_app_le by lia. rewrite firstn_all. reflexivity.
Qed.

Lemma stripped_cstr s t : is_cstr s -> stripped isspace s t -> is_cstr t.
Proof. intros C [v [w [-> _]]]. apply is_cstr_app in C. destruct C as [_ C]. apply is_cstr_app in C. apply C. Qed.

Lemma holds_mid (p : cells byte) t z : is_cstr t -> holds (skipn (length p) (p ++ map Some t ++ Some NUL :: z)) t.
Proof. intros C. split; [exact C|]. exists z. rewrite skipn_app_ge, Nat.sub_diag by lia. reflexivity. Qed.

Lemma ParseEnvLine_none m line : holds m line -> no_assignment line ->
  exists m', ParseEnvLine m = Ok (m', None) /\ length m' = length m.
Proof.
  intros [C [r ->]] [t [S H]]. unfold ParseEnvLine.
  destruct (@Trim_exact line r C) as [v [t' [w [z [E [S' [L T]]]]]]]. assert (t' = t) by exact (stripped_unique S' S). subst t'.
  rewrite T. cbn [bind]. pose proof (stripped_cstr C S) as Ct.
  assert (LEN : length (map Some v ++ map Some t ++ Some NUL :: z ++ r) = length (map Some line ++ Some NUL :: r)).
  { rewrite E, !app_length, !map_length, !app_length. cbn [length]. rewrite app_length. lia. }
  assert (HT : holds (skipn (length v) (map Some v ++ map Some t ++ Some NUL :: z ++ r)) t).
  { rewrite <- (map_length (@Some byte) v). apply holds_mid. exact Ct. }
  rewrite (proj2 (mstr_holds _ _) HT). cbn [bind].
  destruct t as [|c t]; cbn [length Nat.eqb]; [eauto|].
  assert (RD : aget (map Some v ++ map Some (c :: t) ++ Some NUL :: z ++ r) (length v) = Ok c).
  { rewrite <- (map_length (@Some byte) v). apply aget_at. }
  rewrite RD. cbn [bind]. rewrite orb_false_r.
  destruct (beq_spec c "#") as [Q|Q]; [eauto|].
  destruct H as [H|[[u H]|[H|[u H]]]]; [discriminate|injection H as -> _; congruence| |].
  - destruct (strchr (c :: t) "=") as [i|] eqn:SC; [|eauto]. exfalso. apply H.
    pose proof (@strchr_cases (c :: t) "=" Ct ltac:(discriminate)) as X. rewrite SC in X. destruct X as [a [b [X _]]]. rewrite X.
    apply in_or_app. right. left. reflexivity.
  - injection H as -> ->. cbn [strchr]. change (beq EQ "=") with true. cbn [Nat.eqb]. eauto.
Qed.

(** the situation when filtered_copy is called *)
Lemma ParseEnvLine_assign m line key rhs : holds m line -> assignment line key rhs ->
  is_cstr key /\ is_cstr rhs /\
  exists p kp z, length p + length (map (@Some byte) rhs) + S (length z) = length m /\ kp + S (length key) <= length p /\
    (forall x, holds (skipn kp (p ++ x)) key) /\
    ParseEnvLine m =
      let* ' (m, ok) := filtered_copy (p ++ map Some rhs ++ Some NUL :: z) (length p) (length p) in
      if ok : bool then Ok (m, Some (kp, length p)) else Ok (m, None).
Proof.
  intros [C [rr ->]] [t [k [r [S [Et [NE [NI [NH [SK SR]]]]]]]]].
  pose proof (stripped_cstr C S) as Ct. rewrite Et in Ct. apply is_cstr_app in Ct. destruct Ct as [Ck Cr]. apply is_cstr_cons in Cr. destruct Cr as [_ Cr].
  split; [exact (stripped_cstr Ck SK)|]. split; [exact (stripped_cstr Cr SR)|].
  unfold ParseEnvLine.
  destruct (@Trim_exact line rr C) as [v [t' [w [z [E [S' [L T]]]]]]]. assert (t' = t) by exact (stripped_unique S' S). subst t'.
  rewrite T. cbn [bind]. pose proof (stripped_cstr C S) as Ct.
  assert (HT : holds (skipn (length v) (map Some v ++ map Some t ++ Some NUL :: z ++ rr)) t).
  { rewrite <- (map_length (@Some byte) v). apply holds_mid. exact Ct. }
  rewrite (proj2 (mstr_holds _ _) HT). cbn [bind].
  destruct t as [|c0 t0] eqn:ET; [destruct k; discriminate|]. rewrite <- ET in *. replace (length t =? 0) with false by (symmetry; apply Nat.eqb_neq; rewrite ET; cbn; lia).
  assert (RD : aget (map Some v ++ map Some t ++ Some NUL :: z ++ rr) (length v) = Ok c0).
  { rewrite <- (map_length (@Some byte) v), ET. apply aget_at. }
  rewrite RD. cbn [bind]. rewrite orb_false_r. replace (beq c0 "#") with false by (symmetry; apply beq_false; eapply NH; exact ET).
  assert (SC : strchr t "=" = Some (length k)).
  { pose proof (@strchr_cases t "=" Ct ltac:(discriminate)) as X. destruct (strchr t "=") as [i|].
    - destruct X as [a [b [X1 [X2 X3]]]]. rewrite Et in X1. f_equal. rewrite <- X2.
      destruct (@CompatProofs2.split_unique ["="%char] k a EQ "=" r b) as [X4 _]; try (left; reflexivity); try exact X1.
      + intros c I [<-|[]]. exact (NI I).
      + intros c I [<-|[]]. exact (X3 I).
      + rewrite X4. reflexivity.
    - exfalso. apply X. rewrite Et. apply in_or_app. right. left. reflexivity. }
  rewrite SC. replace (length k =? 0) with false by (symmetry; apply Nat.eqb_neq; destruct k; [congruence|cbn; lia]).
  (* the equal sign becomes a terminator *)
  assert (W : aset (map Some v ++ map Some t ++ Some NUL :: z ++ rr) (length v + length k) NUL =
    Ok (map Some v ++ map Some k ++ Some NUL :: map Some r ++ Some NUL :: z ++ rr)).
  { rewrite Et, map_app, <- app_assoc. cbn [map app]. rewrite app_assoc.
    replace (length v + length k) with (length (map (@Some byte) v ++ map Some k)) by (rewrite app_length, !map_length; reflexivity).
    rewrite aset_at, <- app_assoc. reflexivity. }
  rewrite W. cbn [bind].
  destruct (@Trim_at (map Some v) k (map Some r ++ Some NUL :: z ++ rr) Ck) as [v1 [t1 [w1 [z1 [E1 [S1 [L1 T1]]]]]]].
  rewrite map_length in T1. rewrite T1. cbn [bind]. assert (t1 = key) by exact (stripped_unique S1 SK). subst t1.
  set (P := map Some v ++ map Some v1 ++ map Some key ++ Some NUL :: z1).
  assert (LP : length P = length v + length k + 1).
  { unfold P. rewrite !app_length, !map_length. cbn [length]. rewrite E1, !app_length. lia. }
  replace (map Some v ++ map Some v1 ++ map Some key ++ Some NUL :: z1 ++ map Some r ++ Some NUL :: z ++ rr)
    with (P ++ map Some r ++ Some NUL :: z ++ rr) by (unfold P; rewrite <- !app_assoc; cbn [app]; rewrite <- ?app_assoc; reflexivity).
  destruct (@Trim_at P r (z ++ rr) Cr) as [v2 [t2 [w2 [z2 [E2 [S2 [L2 T2]]]]]]].
  rewrite LP in T2. rewrite T2. cbn [bind]. assert (t2 = rhs) by exact (stripped_unique S2 SR). subst t2.
  exists (P ++ map Some v2), (length v + length v1), (z2 ++ z ++ rr).
  rewrite (app_length P), LP, (map_length _ v2). split; [|split; [|split]].
  - rewrite E, !app_length, !map_length, !app_length. cbn [length]. rewrite ?app_length, Et, app_length. cbn [length]. rewrite E2, E1, !app_length. lia.
  - rewrite E1, !app_length. lia.
  - intros x. replace (skipn (length v + length v1) ((P ++ map Some v2) ++ x)) with (map Some key ++ Some NUL :: z1 ++ map Some v2 ++ x).
    + split; [exact (stripped_cstr Ck SK)|]. eexists. reflexivity.
    + unfold P. rewrite <- !app_assoc. rewrite skipn_app_ge by (rewrite map_length; lia). rewrite skipn_app_ge by (rewrite !map_length; lia).
      rewrite !map_length. replace (length v + length v1 - length v - length v1) with 0 by lia. cbn [skipn app]. rewrite <- ?app_assoc. reflexivity.
  - rewrite <- app_assoc. reflexivity.
Qed.

Lemma ParseEnvLine_spec m line o : holds m line -> env_line line o ->
  exists m' kv, ParseEnvLine m = Ok (m', kv) /\ length m' = length m /\
    match o, kv with
    | None, None => True
    | Some (k, v), Some (ko, vo) => holds (skipn ko m') k /\ holds (skipn vo m') v
    | _, _ => False
    end.
Proof.
  intros H E. destruct E as [N|key rhs A S|key rhs v A V].
  - destruct (ParseEnvLine_none H N) as [m' [E L]]. exists m', None. auto.
  - destruct (ParseEnvLine_assign H A) as [Ck [Cr [p [kp [z [L [K [HK E]]]]]]]]. rewrite E.
    destruct (@filtered_stray p rhs z Cr S) as [m' [F FL]]. rewrite F. cbn [bind]. exists m', None. split; [reflexivity|]. split; [|exact I].
    rewrite FL, !app_length. cbn [length]. lia.
  - destruct (ParseEnvLine_assign H A) as [Ck [Cr [p [kp [z [L [K [HK E]]]]]]]]. rewrite E.
    destruct (@filtered_value p rhs v z Cr V) as [t' [F [FL Cv]]]. rewrite F. cbn [bind].
    exists (p ++ map Some v ++ Some NUL :: t'), (Some (kp, length p)). split; [reflexivity|]. split.
    + rewrite app_length, FL, app_length. cbn [length]. lia.
    + split; [apply HK|apply holds_mid; exact Cv].
Qed.

(** every line is covered, or it ends in a dangling backslash *)
Lemma unescape_total stop s : stop BSL = false ->
  (exists v, unescapes stop s v) \/ (exists a va, s = a ++ [BSL] /\ unescapes stop a va) \/
  (exists a va q b, s = a ++ q :: b /\ unescapes stop a va /\ stop q = true).
Proof.
  intros SB. assert (G : forall k s, length s < k -> (exists v, unescapes stop s v) \/ (exists a va, s = a ++ [BSL] /\ unescapes stop a va) \/
    (exists a va q b, s = a ++ q :: b /\ unescapes stop a va /\ stop q = true)).
  { induction k as [|k IH]; intros [|c x] L; cbn in L; try lia; [left; exists []; constructor|].
    destruct (beq_spec c BSL) as [-> | NB].
    - destruct x as [|d x]; [right; left; exists [], []; split; [reflexivity|constructor]|].
      destruct (IH x) as [[v U]|[[a [va [-> U]]]|[a [va [q [b [-> [U Q]]]]]]]]; [cbn in L; lia| | |]; destruct (beq_spec d "n") as [-> | ND].
      + left. exists (NEWLINE :: v). constructor. exact U.
      + left. exists (d :: v). apply un_char; assumption.
      + right. left. exists (BSL :: "n"%char :: a), (NEWLINE :: va). split; [reflexivity|]. constructor. exact U.
      + right. left. exists (BSL :: d :: a), (d :: va). split; [reflexivity|]. apply un_char; assumption.
      + right. right. exists (BSL :: "n"%char :: a), (NEWLINE :: va), q, b. split; [reflexivity|]. split; [constructor; exact U|exact Q].
      + right. right. exists (BSL :: d :: a), (d :: va), q, b. split; [reflexivity|]. split; [apply un_char; assumption|exact Q].
    - destruct (stop c) eqn:SC; [right; right; exists [], [], c, x; repeat split; [constructor|exact SC]|].
      destruct (IH x) as [[v U]|[[a [va [-> U]]]|[a [va [q [b [-> [U Q]]]]]]]]; [lia| | |].
      + left. exists (c :: v). constructor; assumption.
      + right. left. exists (c :: a), (c :: va). split; [reflexivity|]. constructor; assumption.
      + right. right. exists (c :: a), (c :: va), q, b. split; [reflexivity|]. split; [constructor; assumption|exact Q]. }
  apply (G (Datatypes.S (length s))). lia.
Qed.

Lemma value_total s : (exists v, env_value s v) \/ stray_quote s \/ dangling s.
Proof.
  assert (CASE : (exists q b, s = q :: b /\ isquote q = true) \/ (forall c t, s = c :: t -> isquote c = false)).
  { destruct s as [|c s]; [right; discriminate|]. destruct (isquote c) eqn:Q; [left; eauto|right]. intros d t E. injection E as <- _. exact Q. }
  destruct CASE as [[q [b [-> Q]]]|NQ].
  - assert (SB : beq q BSL = false) by (apply beq_false; intros ->; discriminate).
    destruct (unescape_total (beq q) b SB) as [[v U]|[[a [va [-> U]]]|[a [va [q' [j [-> [U Q']]]]]]]].
    + left. exists v. apply ev_open; assumption.
    + right. right. right. exists q, a, va. auto.
    + apply beq_true in Q'. subst q'. left. exists va. apply ev_closed; assumption.
  - destruct (unescape_total isquote s eq_refl) as [[v U]|[[a [va [-> U]]]|[a [va [q' [j [-> [U Q']]]]]]]].
    + left. exists v. apply ev_plain; assumption.
    + right. right. left. exists a, va. split; [reflexivity|]. split; [|exact U]. intros c t ->. eapply NQ. reflexivity.
    + right. left. exists a, va, q', j. assert (NE : a <> []) by (intros ->; rewrite (NQ q' j eq_refl) in Q'; discriminate).
      repeat split; try assumption. intros c t ->. eapply NQ. reflexivity.
Qed.

Lemma stripped_exists s : exists t, stripped isspace s t.
Proof.
  destruct (span_all isspace s) as [v [b [Es [V B]]]].
  destruct (last_split isspace b) as [[t [d [w [Eb [D W]]]]]|A].
  - exists (t ++ [d]), v, w. split; [rewrite Es, Eb, <- app_assoc; reflexivity|]. split.
    + intros c I. apply in_app_or in I. destruct I as [I|I]; auto.
    + right. split; [|exists t, d; auto]. destruct t as [|x t]; [exists d, []; auto|]. exists x, (t ++ [d]). split; [reflexivity|].
      rewrite Eb in B. exact B.
  - exists [], v, b. split; [exact Es|]. split; [|left; reflexivity]. intros c I. apply in_app_or in I. destruct I as [I|I]; auto.
Qed.

Lemma line_total line : (exists o, env_line line o) \/ dangling_line line.
Proof.
  destruct (stripped_exists line) as [t S]. 
  destruct (in_dec ascii_dec EQ t) as [I|NI]; [|left; exists None; constructor; exists t; auto].
  destruct t as [|c t]; [destruct I|].
  destruct (beq_spec c "#") as [-> | NH]; [left; exists None; constructor; exists ("#"%char :: t); split; [exact S|]; right; left; eauto|].
  destruct (beq_spec c EQ) as [-> | NQ]; [left; exists None; constructor; exists (EQ :: t); split; [exact S|]; right; right; right; eauto|].
  assert (SP : exists k r, c :: t = k ++ EQ :: r /\ ~ In EQ k).
  { clear - I. induction (c :: t) as [|x u IH]; [destruct I|]. destruct (beq_spec x EQ) as [-> | N]; [exists [], u; auto|].
    destruct IH as [k [r [-> NI]]]; [destruct I; [congruence|assumption]|]. exists (x :: k), r. split; [reflexivity|]. intros [E|E]; congruence || contradiction. }
  destruct SP as [k [r [E NI]]]. destruct (stripped_exists k) as [key SK]. destruct (stripped_exists r) as [rhs SR].
  assert (A : assignment line key rhs).
  { exists (c :: t), k, r. repeat split; try assumption.
    - intros ->. cbn in E. injection E as -> _. congruence.
    - intros d u X. injection X as <- _. exact NH. }
  destruct (value_total rhs) as [[v V]|[V|V]].
  - left. exists (Some (key, v)). apply el_pair with rhs; assumption.
  - left. exists None. apply el_stray with key rhs; assumption.
  - right. exists key, rhs. auto.
Qed.
