(** Theorems about searching and replacing in a buffer (pcre_wrap.c, BufferSearchAndReplace). *)
From Verif Require Import Prelude PreludeFacts Str StrFacts Libc LibcFacts CompatModel BufModel BufSpec BufProofs PropsBuf PcreModel PcreSpec PcreProofs PcreProofs2 PcreProofs3 PcreProofs4 PropsCompat.
Set Implicit Arguments.

(** ** C82: options *)

(** the letters and the option bits they stand for; other letters are ignored *)
Definition pcre_letters : list (byte * N) := [("i", 0); ("m", 1); ("s", 2); ("x", 3); ("U", 9)]%char%N.
Definition job_letters : list (byte * N) := [("g", 0); ("T", 1)]%char%N.

Theorem C82_options options k :
  (N.testbit (fst (pcre_wrap_parse_perl_options options)) k = true <-> exists c, In (c, k) pcre_letters /\ In c options) /\
  (N.testbit (snd (pcre_wrap_parse_perl_options options)) k = true <-> exists c, In (c, k) job_letters /\ In c options).
Proof.
  unfold pcre_wrap_parse_perl_options.
  assert (G : forall rc fl, 
    (N.testbit (fst (parse_options options rc fl)) k = true <-> N.testbit rc k = true \/ exists c, In (c, k) pcre_letters /\ In c options) /\
    (N.testbit (snd (parse_options options rc fl)) k = true <-> N.testbit fl k = true \/ exists c, In (c, k) job_letters /\ In c options)).
  { induction options as [|c t IH]; intros rc fl; cbn [parse_options].
    - cbn [fst snd]. split; (split; [intros H; left; exact H|intros [H|[c [_ []]]]; exact H]).
    - assert (BIT : forall z n i, z = (2 ^ i)%N -> N.testbit (N.lor n z) k = true <-> N.testbit n k = true \/ k = i).
      { intros z n i ->. rewrite N.lor_spec, orb_true_iff, N.pow2_bits_eqb, N.eqb_eq. intuition congruence. }
      assert (P : forall c', c = c' -> forall i, In (c', i) pcre_letters -> ~ (exists i, In (c', i) job_letters) ->
         (forall i', In (c', i') pcre_letters -> i' = i) -> forall rc fl z, z = (2 ^ i)%N ->
         (N.testbit (fst (parse_options t (N.lor rc z) fl)) k = true <-> N.testbit rc k = true \/ exists d, In (d, k) pcre_letters /\ In d (c :: t)) /\
         (N.testbit (snd (parse_options t (N.lor rc z) fl)) k = true <-> N.testbit fl k = true \/ exists d, In (d, k) job_letters /\ In d (c :: t))).
      { intros c' <- i I NJ U rc' fl' z Z0. destruct (IH (N.lor rc' z) fl') as [I1 I2]. rewrite I1, I2, (@BIT z rc' i Z0). split; split.
        - intros [[H | ->]|[d [H1 H2]]]; [left; exact H|right; exists c; cbn; auto|right; exists d; cbn; auto].
        - intros [H|[d [H1 [-> | H2]]]]; [auto|left; right; apply U; exact H1|right; exists d; auto].
        - intros [H|[d [H1 H2]]]; [left; exact H|right; exists d; cbn; auto].
        - intros [H|[d [H1 [-> | H2]]]]; [auto|exfalso; apply NJ; eauto|right; exists d; auto]. }
      assert (J : forall c', c = c' -> forall i, In (c', i) job_letters -> ~ (exists i, In (c', i) pcre_letters) ->
         (forall i', In (c', i') job_letters -> i' = i) -> forall rc fl z, z = (2 ^ i)%N ->
         (N.testbit (fst (parse_options t rc (N.lor fl z))) k = true <-> N.testbit rc k = true \/ exists d, In (d, k) pcre_letters /\ In d (c :: t)) /\
         (N.testbit (snd (parse_options t rc (N.lor fl z))) k = true <-> N.testbit fl k = true \/ exists d, In (d, k) job_letters /\ In d (c :: t))).
      { intros c' <- i I NJ U rc' fl' z Z0. destruct (IH rc' (N.lor fl' z)) as [I1 I2]. rewrite I1, I2, (@BIT z fl' i Z0). split; split.
        - intros [H|[d [H1 H2]]]; [left; exact H|right; exists d; cbn; auto].
        - intros [H|[d [H1 [-> | H2]]]]; [auto|exfalso; apply NJ; eauto|right; exists d; auto].
        - intros [[H | ->]|[d [H1 H2]]]; [left; exact H|right; exists c; cbn; auto|right; exists d; cbn; auto].
        - intros [H|[d [H1 [-> | H2]]]]; [auto|left; right; apply U; exact H1|right; exists d; auto]. }
      unfold beq.
      destruct (Ascii.eqb_spec c "g") as [Q1|Q1]; [eapply (J _ Q1 0%N); [cbn; tauto| | |reflexivity]|].
      1,2: cbn; try (intros [i H]); try (intros i H); intuition congruence.
      destruct (Ascii.eqb_spec c "i") as [Q2|Q2]; [eapply (P _ Q2 0%N); [cbn; tauto| | |reflexivity]|].
      1,2: cbn; try (intros [i H]); try (intros i H); intuition congruence.
      destruct (Ascii.eqb_spec c "m") as [Q3|Q3]; [eapply (P _ Q3 1%N); [cbn; tauto| | |reflexivity]|].
      1,2: cbn; try (intros [i H]); try (intros i H); intuition congruence.
      destruct (Ascii.eqb_spec c "s") as [Q4|Q4]; [eapply (P _ Q4 2%N); [cbn; tauto| | |reflexivity]|].
      1,2: cbn; try (intros [i H]); try (intros i H); intuition congruence.
      destruct (Ascii.eqb_spec c "x") as [Q5|Q5]; [eapply (P _ Q5 3%N); [cbn; tauto| | |reflexivity]|].
      1,2: cbn; try (intros [i H]); try (intros i H); intuition congruence.
      destruct (Ascii.eqb_spec c "U") as [Q6|Q6]; [eapply (P _ Q6 9%N); [cbn; tauto| | |reflexivity]|].
      1,2: cbn; try (intros [i H]); try (intros i H); intuition congruence.
      destruct (Ascii.eqb_spec c "T") as [Q7|Q7]; [eapply (J _ Q7 1%N); [cbn; tauto| | |reflexivity]|].
      1,2: cbn; try (intros [i H]); try (intros i H); intuition congruence.
      destruct (IH rc fl) as [I1 I2]. rewrite I1, I2. split; split; (intros [H|[d [H1 H2]]]; [left; exact H|right; exists d; split; [exact H1|]]).
      1,3: cbn; auto. 
      all: destruct H2 as [<-|H2]; [exfalso; cbn in H1; intuition congruence|exact H2]. }
  destruct (G 0%N 0%N) as [G1 G2]. rewrite N.bits_0 in G1, G2. rewrite G1, G2. split; split; [intros [H|H]; [discriminate|exact H]|auto|intros [H|H]; [discriminate|exact H]|auto].
Qed.
Example C82_options_ex : pcre_wrap_parse_perl_options (lit "gixoT") = (9, 3)%N.
Proof. reflexivity. Qed.

(** ** The specification is not ambiguous *)

Lemma app_digits_unique : forall d1 d2 s1 s2, d1 ++ s1 = d2 ++ s2 -> forallb is_digit d1 = true -> forallb is_digit d2 = true ->
  ~ starts_with (fun c => is_digit c = true) s1 -> ~ starts_with (fun c => is_digit c = true) s2 -> d1 = d2 /\ s1 = s2.
Proof.
  induction d1 as [|c d1 IH]; intros [|c2 d2] s1 s2 E F1 F2 N1 N2; cbn [app] in E.
  - auto.
  - subst s1. exfalso. apply N1. cbn in F2 |- *. destruct (is_digit c2); [reflexivity|discriminate].
  - subst s2. exfalso. apply N2. cbn in F1 |- *. destruct (is_digit c); [reflexivity|discriminate].
  - injection E as <- E. cbn [forallb] in F1, F2. apply andb_true_iff in F1, F2. destruct (IH d2 s1 s2 E (proj2 F1) (proj2 F2) N1 N2) as [-> ->]. auto.
Qed.

Lemma denotes_unique cc s l : denotes cc s l -> forall l', denotes cc s l' -> l = l'.
Proof.
  assert (DIG : forall d, is_digit d = true -> d <> "0"%char -> In d (lit "123456789")).
  { intros d D V. destruct d as [[] [] [] [] [] [] [] []]; try discriminate D; try (exfalso; apply V; reflexivity); cbn; tauto. }
  assert (CTL : forall c x y, In (c, x) control -> In (c, y) control -> x = y).
  { intros c x y I1 I2. cbn in I1, I2. repeat (destruct I1 as [I1|I1]; [injection I1 as <- <-; repeat (destruct I2 as [I2|I2]; [congruence|]); destruct I2|]). destruct I1. }
  assert (CTI : forall c x, In (c, x) control -> In c (map fst control)) by (intros c x I; apply (in_map fst) in I; exact I).
  assert (CTD : forall d x, In (d, x) control -> is_digit d = true -> d = "0"%char).
  { intros d x I D. cbn in I. repeat (destruct I as [I|I]; [injection I as <- <-; try discriminate D; try reflexivity|]). destruct I. }
  induction 1 as [|c s l N1 N2 D IH|c x s l IC D IH|c s l N1 N2 D IH| |b d ds s l V DG DS NS D IH|s l D IH|s l D IH|s l D IH|s l D IH|s l NS D IH]; intros l' D';
    inversion D' as [E1 E2|c' s' l1 N1' N2' D1 E1 E2|c' x' s' l1 IC' D1 E1 E2|c' s' l1 N1' N2' D1 E1 E2|E1 E2|b' d' ds' s' l1 V' DG' DS' NS' D1 E1 E2|s' l1 D1 E1 E2|s' l1 D1 E1 E2|s' l1 D1 E1 E2|s' l1 D1 E1 E2|s' l1 NS' D1 E1 E2];
    subst; try reflexivity; try congruence; try (f_equal; auto; fail);
    try (exfalso; match goal with H : _ = DOLLAR \/ _ /\ _ |- _ => destruct H as [H|[H H']]; [try discriminate H; try congruence|try discriminate H; try congruence] end; fail).
  all: try (exfalso; eauto; fail).
  all: try (exfalso; match goal with H : ~ starts_with _ (_ :: _) |- _ => apply H; cbn; tauto end; fail).
  all: try (match goal with H : is_digit ?c = true |- _ => match c with Ascii _ _ _ _ _ _ _ _ => discriminate H end end).
  - f_equal; [f_equal; eapply CTL; eassumption|auto].
  - exfalso. destruct V' as [V'|[_ V']]; [discriminate V'|]. apply V'. eapply CTD; eassumption.
  - exfalso. destruct V' as [V'|[_ V']]; [discriminate V'|]. apply N2. apply DIG; assumption.
  - exfalso. destruct V as [V|[_ V]]; [discriminate V|]. apply V. eapply CTD; eassumption.
  - exfalso. destruct V as [V|[_ V]]; [discriminate V|]. apply N2'. apply DIG; assumption.
  - match goal with H : ds' ++ s' = ds ++ s |- _ => destruct (@app_digits_unique _ _ _ _ H DS' DS NS' NS) as [-> ->] end. f_equal. auto.
Qed.

Lemma denotes_total cc s : exists l, denotes cc s l.
Proof.
  remember (length s) as n eqn:L. assert (L' : length s <= n) by lia. clear L. revert s L'.
  induction n as [|n IH]; intros s L.
  - destruct s; [|cbn in L; lia]. exists []. constructor.
  - destruct s as [|c s]; [exists []; constructor|]. cbn [length] in L.
    assert (SPAN : forall t, length t <= n -> exists ds r, t = ds ++ r /\ forallb is_digit ds = true /\ ~ starts_with (fun c => is_digit c = true) r).
    { clear. induction t as [|x t IHt]; intros LT; [exists [], []; cbn; auto|]. destruct (is_digit x) eqn:D.
      - destruct IHt as [ds [r [-> [F N]]]]; [cbn in LT; lia|]. exists (x :: ds), r. cbn. rewrite D. auto.
      - exists [], (x :: t). cbn. rewrite D. auto. }
    destruct (ascii_dec c DOLLAR) as [-> | ND].
    + destruct s as [|d s]; [exists [Lit DOLLAR]; apply d_dollar; [auto|constructor]|]. cbn [length] in L.
      destruct (is_digit d) eqn:DG.
      * destruct (SPAN s) as [ds [r [-> [F N]]]]; [lia|]. destruct (IH r) as [l D]; [rewrite app_length in L; lia|]. exists (Ref (number (d :: ds)) :: l). apply d_number; auto.
      * destruct (IH s) as [l D]; [lia|].
        destruct (ascii_dec d "&"%char) as [-> | N1]; [eexists; eapply d_match; exact D|].
        destruct (ascii_dec d "+"%char) as [-> | N2]; [eexists; eapply d_group; exact D|].
        destruct (ascii_dec d "`"%char) as [-> | N3]; [eexists; eapply d_before; exact D|].
        destruct (ascii_dec d "'"%char) as [-> | N4]; [eexists; eapply d_behind; exact D|].
        destruct (IH (d :: s)) as [l2 D2]; [cbn [length]; lia|]. exists (Lit DOLLAR :: l2). apply d_dollar; [|exact D2]. cbn. intros [Q|Q]; [congruence|]. intuition congruence.
    + destruct (ascii_dec c BSLASH) as [-> | NB].
      * destruct s as [|d s]; [exists []; constructor|]. cbn [length] in L.
        destruct (in_dec ascii_dec d (map fst control)) as [I|NI].
        -- apply in_map_iff in I. destruct I as [[d' x] [E I]]. cbn in E. subst d'. destruct (IH s) as [l D]; [lia|]. exists (Lit x :: l). eapply d_control; eassumption.
        -- destruct (in_dec ascii_dec d (lit "123456789")) as [I|NI2].
           ++ assert (DD : is_digit d = true /\ d <> "0"%char).
              { cbn in I. repeat (destruct I as [<-|I]; [split; [reflexivity|discriminate]|]). destruct I. }
              destruct (SPAN s) as [ds [r [-> [F N]]]]; [lia|]. destruct (IH r) as [l D]; [rewrite app_length in L; lia|].
              exists (Ref (number (d :: ds)) :: l). apply d_number; try tauto.
           ++ destruct (IH s) as [l D]; [lia|]. exists (Lit d :: l). apply d_quoted; assumption.
      * destruct (IH s) as [l D]; [lia|]. exists (Lit c :: l). apply d_plain; assumption.
Qed.

(** every substitute has exactly one meaning *)
Theorem C81_substitute_meaning cc s : exists! l, denotes cc s l.
Proof. destruct (denotes_total cc s) as [l D]. exists l. split; [exact D|]. intros l' D'. exact (denotes_unique D D'). Qed.

Lemma matches_unique search global len o ms : matches search global len o ms -> forall ms', matches search global len o ms' -> ms = ms'.
Proof.
  induction 1; intros ms' M'; inversion M'; subst; try congruence; try lia;
    repeat match goal with H : search _ = Found ?x, H' : search _ = Found ?y |- _ => first [constr_eq x y; fail 1 | rewrite H in H'; injection H' as <-] end;
    try lia; try reflexivity; f_equal; auto; congruence.
Qed.
Lemma fails_not_matches search global len o ms : matches search global len o ms -> search_fails search global len o -> False.
Proof.
  induction 1; intros F; inversion F; subst; try congruence;
    repeat match goal with H : search _ = Found ?x, H' : search _ = Found ?y |- _ => first [constr_eq x y; fail 1 | rewrite H in H'; injection H' as <-] end;
    try lia; auto.
Qed.

(** ** C81: search and replace *)

Lemma replaced_cstr subject items : is_cstr subject -> Forall (fun i => i <> Lit NUL) items -> forall ms pos, is_cstr (replaced subject items pos ms).
Proof.
  intros C F.
  assert (SK : forall n, is_cstr (skipn n subject)) by (intros n I; apply C; rewrite <- (firstn_skipn n subject); apply in_app_iff; auto).
  assert (FN : forall n s, is_cstr s -> is_cstr (firstn n s)) by (intros n s Cs I; apply Cs; rewrite <- (firstn_skipn n s); apply in_app_iff; auto).
  assert (SL : forall a b, is_cstr (slice subject a b)) by (intros a b; apply FN, SK).
  assert (AP : forall a b, is_cstr a -> is_cstr b -> is_cstr (a ++ b)) by (intros a b A B I; apply in_app_iff in I; destruct I; auto).
  assert (EX : forall m, is_cstr (expand subject items m)).
  { intros m. unfold expand. induction F as [|i items H _ IH]; [intros []|]. cbn [flat_map]. apply AP; [|exact IH]. destruct i as [c|n| |].
    - intros [-> |[]]. apply H. reflexivity.
    - unfold group. destruct (nth_error m (N.to_nat n)) as [[[a b]|]|]; [apply SL|intros []|intros []].
    - apply FN, C.
    - apply SK. }
  induction ms as [|m ms IH]; intros pos; cbn [replaced]; [apply SK|]. apply AP; [apply SL|]. apply AP; [apply EX|]. apply IH.
Qed.

Lemma letter_bit options c k : In (c, k) job_letters -> N.testbit (snd (pcre_wrap_parse_perl_options options)) k = existsb (beq c) options.
Proof.
  intros I. destruct (C82_options options k) as [_ B].
  assert (U : forall d, In (d, k) job_letters -> d = c) by (intros d J; cbn in I, J; intuition congruence).
  destruct (existsb (beq c) options) eqn:E.
  - apply B. exists c. split; [exact I|]. apply existsb_exists in E. destruct E as [x [J E]]. destruct (beq_spec c x); [subst; exact J|discriminate].
  - destruct (N.testbit _ k); [|reflexivity]. destruct (proj1 B eq_refl) as [d [J1 J2]]. rewrite (U d J1) in J2.
    assert (X : existsb (beq c) options = true) by (apply existsb_exists; exists c; split; [exact J2|destruct (beq_spec c c); congruence]). congruence.
Qed.

Section Replace.
  Variable pcre_compile : list byte -> N -> option pcre.

  (** what the substitute means: with option T its characters; otherwise as the
      specification says, restricted to what the implementation handles *)
  Definition meaning (p : pcre) (substitute options : list byte) (items : list item) : Prop :=
    if existsb (beq "T") options then items = map Lit substitute
    else denotes (Z.to_N (capturecount p)) substitute items /\ Forall plain_item items /\ nrefs items <= 32 /\ refs_ascii substitute.

  Theorem C81_search_and_replace_partial b mode text term pattern substitute options p items :
    represents b (mkA mode text term) -> (mode = CSTRING -> is_cstr text) -> is_cstr substitute ->
    pcre_compile pattern (fst (pcre_wrap_parse_perl_options options)) = Some p -> (0 <= capturecount p)%Z ->
    meaning p substitute options items ->
    oracle_ok p text -> (Z.of_nat (length text) <= INT_MAX)%Z -> (In "g"%char options -> empty_at_start p text) ->
    let global := existsb (beq "g") options in
    (** either a search fails, and nothing is changed *)
    (search_fails (search_of p text) global (length text) 0 /\ BufferSearchAndReplace pcre_compile b pattern substitute options = Ok (b, false)) \/
    (** or the buffer holds the text with exactly the matches replaced *)
    (exists ms, (forall ms', matches (search_of p text) global (length text) 0 ms' <-> ms' = ms) /\
      (small (length (replaced text items 0 ms)) ->
       exists b' term', BufferSearchAndReplace pcre_compile b pattern substitute options = Ok (b', true) /\
         represents b' (mkA mode (replaced text items 0 ms) term'))).
  Proof.
    intros R CT CS PC CC ME OK LI EM global.
    pose proof (represents_rep R CT) as RP. pose proof RP as [_ [RU [_ [_ [x [r [RM _]]]]]]]. cbn [abytes] in RU, RM.
    assert (RD : read_cells (bused b) (bmem b) = Ok text).
    { rewrite RU, RM. apply (@read_cells_firstn _ _ x). rewrite firstn_app_ge by (rewrite map_length; lia). rewrite map_length.
      replace (S (length text) - length text) with 1 by lia. reflexivity. }
    assert (BG : N.testbit (snd (pcre_wrap_parse_perl_options options)) 0 = global) by (apply letter_bit; cbn; auto).
    assert (BT : N.testbit (snd (pcre_wrap_parse_perl_options options)) 1 = existsb (beq "T") options) by (apply letter_bit; cbn; auto).
    unfold BufferSearchAndReplace, pcre_wrap_compile. destruct (pcre_wrap_parse_perl_options options) as [rc fl] eqn:PO. cbn [fst snd] in *. rewrite PC, BT.
    assert (CR : exists sb bad bs cur, pcre_wrap_compile_replacement substitute (existsb (beq "T") options) (capturecount p) = Ok (sb, bad) /\
      ready sb bs cur /\ items_of bs cur = items /\ Forall (fun i => i <> Lit NUL) items).
    { unfold meaning in ME. destruct (existsb (beq "T") options).
      - destruct (@trivial_spec substitute (capturecount p) CS) as [sb [bad [E1 E2]]]. exists sb, bad, [], substitute. rewrite ME. repeat (split; [assumption || reflexivity|]).
        apply Forall_forall. intros i I ->. apply in_map_iff in I. destruct I as [c [E I]]. injection E as ->. apply CS, I.
      - destruct ME as [D [P [NR RA]]]. replace (capturecount p) with (Z.of_N (Z.to_N (capturecount p))) by lia.
        destruct (compile_spec D CS P NR RA) as [sb [bad [bs [cur [E1 [E2 E3]]]]]]. exists sb, bad, bs, cur. repeat (split; [assumption|]).
        eapply Forall_impl; [|exact P]. intros i H ->. apply H. reflexivity. }
    destruct CR as [sb [bad [bs [cur [E1 [RY [IT NN]]]]]]]. rewrite E1. cbn [bind]. rewrite RD. cbn [bind].
    assert (EM' : N.testbit fl 0 = true -> empty_at_start p text).
    { rewrite BG. intros G. apply EM. unfold global in G. apply existsb_exists in G. destruct G as [y [J G]]. destruct (beq_spec "g" y); [subst; exact J|discriminate]. }
    destruct (@execute_spec text LI sb bs cur RY p fl OK EM') as [[ms [M X]]|[code [X F]]].
    - rewrite BG in M. rewrite IT in X. right. exists (map groups_of ms). split; [intros ms'; split; [intros M'; exact (matches_unique M' M)|intros ->; exact M]|]. intros SM.
      rewrite X by (unfold small, LIM in SM; unfold SIZE_MOD; change (2 ^ 62)%N with 4611686018427387904%N in SM; change (2 ^ 64)%Z with 18446744073709551616%Z; lia).
      cbn [bind]. destruct (@set_spec b _ (replaced text items 0 (map groups_of ms)) [Some NUL] RP SM) as [b' [E R']]. rewrite E. cbn [bind].
      exists b', (is_cstring mode || (length (replaced text items 0 (map groups_of ms)) =? 0)). split; [reflexivity|]. apply rep_represents.
      cbn [step amode] in R'. replace (seen mode _) with (replaced text items 0 (map groups_of ms)) in R'; [exact R'|].
      destruct mode; [|reflexivity]. cbn [seen]. symmetry. apply upto_nul_id. apply replaced_cstr; auto.
    - rewrite BG in F. left. split; [exact F|]. rewrite X. reflexivity.
  Qed.

  (** a pattern that does not compile changes nothing *)
  Theorem C81_bad_pattern b pattern substitute options :
    pcre_compile pattern (fst (pcre_wrap_parse_perl_options options)) = None ->
    BufferSearchAndReplace pcre_compile b pattern substitute options = Ok (b, false).
  Proof.
    intros E. unfold BufferSearchAndReplace, pcre_wrap_compile. destruct (pcre_wrap_parse_perl_options options) as [rc fl]. cbn [fst] in E. rewrite E. reflexivity.
  Qed.
End Replace.

(** ** Examples *)

(** PCRE for the pattern (b): one group *)
Fixpoint find_b (s : list byte) (i : nat) : option nat :=
  match s with [] => None | c :: t => if beq c "b" then Some i else find_b t (S i) end.
Definition pcre_b : pcre := mkPcre 1 (fun s o => match find_b (skipn o s) o with
  | Some i => let z := Z.of_nat i in Matched [(z, z + 1)%Z; (z, z + 1)%Z] | None => Failed (-1) end).
(** ... and for the pattern $ *)
Definition pcre_end : pcre := mkPcre 0 (fun s _ => let z := Z.of_nat (length s) in Matched [(z, z)]).
Definition only (p : pcre) : list byte -> N -> option pcre := fun _ _ => Some p.
Definition buffer_of (s : list byte) : Buffer := match BufferNewFrom (block s) (length s) with Ok b => b | _ => mkB [] CSTRING 0 0 end.
Definition outcome (r : res (Buffer * bool)) : option (list (option byte) * bool) :=
  match r with Ok (b, ok) => Some (firstn (BufferSize b) (bmem b), ok) | _ => None end.
Definition replace_in p s substitute options := outcome (BufferSearchAndReplace (only p) (buffer_of s) (lit "x") substitute options).

Example C81_ex_hyps : let s := lit "abcb" in
  oracle_ok pcre_b s /\ empty_at_start pcre_b s /\ meaning pcre_b (lit "<\n$1|$&>") (lit "g") [Lit "<"; Lit (ascii_of_nat 10); Ref 1; Lit "|"; Ref 0; Lit ">"]%char /\
  represents (buffer_of s) (mkA CSTRING s true).
Proof.
  cbv zeta. split; [|split; [|split]].
  - intros o L. cbn in L.
    do 5 (destruct o as [|o]; [match goal with |- context [pcre_exec ?p ?s ?o] => let v := eval vm_compute in (pcre_exec p s o) in change (pcre_exec p s o) with v end; cbv match;
      first [ reflexivity | split; [cbn; lia|]; split; [apply Forall_forall; intros x [<-|[<-|[]]]; right; cbn; lia|];
        first [exists 1, 2; eexists; split; [reflexivity|cbn; lia] | exists 3, 4; eexists; split; [reflexivity|cbn; lia]] ]|]). lia.
  - intros o a r L. cbn in L. do 5 (destruct o as [|o]; [vm_compute; intros E; try discriminate E; injection E; intros; lia|]). lia.
  - unfold meaning. cbn [existsb beq lit]. split.
    + apply d_plain; [discriminate|discriminate|]. apply (@d_control _ "n"%char _ _ _); [cbn; tauto|]. apply (@d_number _ DOLLAR "1"%char [] (lit "|$&>")); auto; [cbn; discriminate|].
      apply d_plain; [discriminate|discriminate|]. apply d_match. apply d_plain; [discriminate|discriminate|]. constructor.
    + split; [repeat constructor; discriminate|]. split; [vm_compute; lia|].
      intros a b ds c r E _ _. assert (I : In c (lit "<\n$1|$&>")) by (rewrite E; apply in_app_iff; right; right; apply in_app_iff; right; left; reflexivity).
      assert (F : Forall (fun c => (code c < 128)%N) (lit "<\n$1|$&>")) by (repeat constructor). rewrite Forall_forall in F. apply F, I.
  - unfold represents. vm_compute. repeat split; auto; lia.
Qed.
Example C81_ex : replace_in pcre_b (lit "abcb") (lit "<\n$1|$&>") (lit "g") =
  Some (map Some (lit "a<" ++ [ascii_of_nat 10] ++ lit "b|b>c<" ++ [ascii_of_nat 10] ++ lit "b|b>"), true).
Proof. vm_compute. reflexivity. Qed.
Example C81_ex_once : replace_in pcre_b (lit "abcb") (lit "$1$1") (lit "") = Some (map Some (lit "abbcb"), true).
Proof. vm_compute. reflexivity. Qed.
Example C81_ex_trivial : replace_in pcre_b (lit "abcb") (lit "$1\n") (lit "gT") = Some (map Some (lit "a$1\nc$1\n"), true).
Proof. vm_compute. reflexivity. Qed.

(** ** What does not hold *)

(** an empty match behind the start of the search is replaced twice *)
Theorem C81_empty_match_refuted :
  matches (search_of pcre_end (lit "abc")) true 3 0 [[Some (3, 3)]] /\
  replaced (lit "abc") [Lit "X"]%char 0 [[Some (3, 3)]] = lit "abcX" /\
  replace_in pcre_end (lit "abc") (lit "X") (lit "g") = Some (map Some (lit "abcXX"), true).
Proof. split; [apply ms_empty_end; reflexivity|]. split; vm_compute; reflexivity. Qed.

Definition run p (subject substitute : list byte) := BufferSearchAndReplace (only p) (buffer_of subject) (lit "x") substitute [].
Definition executed p (subject substitute : list byte) :=
  let* j := pcre_wrap_compile (only p) (lit "x") substitute [] in match j with Some j => pcre_wrap_execute j subject | None => UB end.
(** the text before the match is not inserted, but room for it is left uninitialised at the
    end: the length returned is one too large, and BufferSearchAndReplace reads that byte *)
Theorem C81_before_refuted :
  denotes 1 (lit "[$`]") [Lit "["; Before; Lit "]"]%char /\
  replaced (lit "abc") [Lit "["; Before; Lit "]"]%char 0 [[Some (1, 2); Some (1, 2)]] = lit "a[a]c" /\
  executed pcre_b (lit "abc") (lit "[$`]") = Ok (inr (map Some (lit "a[]c") ++ [None; Some NUL], 5, 1)) /\
  run pcre_b (lit "abc") (lit "[$`]") = UB.
Proof.
  split; [|repeat split; vm_compute; reflexivity].
  apply d_plain; [discriminate|discriminate|]. apply d_before. apply d_plain; [discriminate|discriminate|]. constructor.
Qed.
Theorem C81_behind_refuted :
  denotes 1 (lit "[$']") [Lit "["; Behind; Lit "]"]%char /\
  replaced (lit "abc") [Lit "["; Behind; Lit "]"]%char 0 [[Some (1, 2); Some (1, 2)]] = lit "a[c]c" /\
  run pcre_b (lit "abc") (lit "[$']") = UB.
Proof.
  split; [|split; vm_compute; reflexivity].
  apply d_plain; [discriminate|discriminate|]. apply d_behind. apply d_plain; [discriminate|discriminate|]. constructor.
Qed.
(** with an escaped NUL in the substitute the result is written beyond its memory *)
Theorem C81_nul_refuted : denotes 1 (lit "\0x") [Lit NUL; Lit "x"]%char /\ executed pcre_b (lit "abc") (lit "\0x") = UB.
Proof.
  split; [|vm_compute; reflexivity]. apply (@d_control _ "0"%char _ _ _); [cbn; tauto|]. apply d_plain; [discriminate|discriminate|]. constructor.
Qed.
(** 33 references overrun the arrays *)
Theorem C81_many_references_refuted : executed pcre_b (lit "abc") (flat_map (fun _ => lit "$1") (seq 0 33)) = UB.
Proof. vm_compute. reflexivity. Qed.
(** a reference out of range makes the following one disappear *)
Theorem C81_out_of_range_refuted :
  denotes 1 (lit "$99-$1") [Ref 99; Lit "-"; Ref 1]%char /\
  replaced (lit "abc") [Ref 99; Lit "-"; Ref 1]%char 0 [[Some (1, 2); Some (1, 2)]] = lit "a-bc" /\
  replace_in pcre_b (lit "abc") (lit "$99-$1") [] = Some (map Some (lit "a-c"), true).
Proof.
  split; [|split; vm_compute; reflexivity].
  apply (@d_number _ DOLLAR "9"%char ["9"%char] (lit "-$1")); auto; [cbn; discriminate|].
  apply d_plain; [discriminate|discriminate|]. apply (@d_number _ DOLLAR "1"%char [] []); auto. constructor.
Qed.
(** a byte of 128 or more behind a dollar sign is given to isdigit as a negative number *)
Theorem C81_non_ascii_refuted : executed pcre_b (lit "abc") (lit "$" ++ [ascii_of_nat 200]) = UB.
Proof. vm_compute. reflexivity. Qed.
(** a match with more than 32 groups is not replaced, and success is reported *)
Theorem C81_many_groups_refuted : replace_in (mkPcre 40 (fun _ _ => TooSmall)) (lit "abc") (lit "X") [] = Some (map Some (lit "abc"), true).
Proof. vm_compute. reflexivity. Qed.

Print Assumptions C81_substitute_meaning.
Print Assumptions C81_search_and_replace_partial.
Print Assumptions C81_bad_pattern.
Print Assumptions C82_options.
