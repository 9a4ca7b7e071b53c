(** Facts about the scanning functions of mustache.c. *)
From Verif Require Import Prelude PreludeFacts Str StrFacts Libc LibcFacts EditModel EditSpec EditProofs4 PropsEdit2 NumModel JsonModel MustModel MustSpec.
Set Implicit Arguments.
Local Open Scope char_scope.

(** * Searching *)
Lemma prefixb_app p s r : length p <= length s -> prefixb p (s ++ r) = prefixb p s.
Proof. revert s; induction p as [|x p IH]; intros [|y s] H; cbn in *; try reflexivity; try lia. rewrite IH by lia. reflexivity. Qed.
Lemma prefixb_self p r : prefixb p (p ++ r) = true.
Proof. apply prefixb_spec. eauto. Qed.
Lemma free_cons d c s r : free_of d (c :: s) r <-> prefixb d (c :: s ++ r) = false /\ free_of d s r.
Proof.
  split.
  - intros H. split; [exact (H 0 ltac:(cbn; lia))|]. intros i L. exact (H (S i) ltac:(cbn; lia)).
  - intros [A B] [|i] L; [exact A|]. apply B. cbn in L. lia.
Qed.
Lemma free_nil d r : free_of d [] r.
Proof. intros i L. cbn in L. lia. Qed.
Lemma free_app d a b r : free_of d (a ++ b) r <-> free_of d a (b ++ r) /\ free_of d b r.
Proof.
  induction a as [|c a IH]; cbn [app].
  - split; [intros H; split; [apply free_nil|exact H]|tauto].
  - rewrite !free_cons, IH, app_assoc. tauto.
Qed.
Lemma free_more d s r : free_of d s d -> free_of d s (d ++ r).
Proof.
  intros H i L. specialize (H i L). rewrite app_assoc. rewrite skipn_app_le by (rewrite app_length; lia).
  rewrite prefixb_app; [exact H|]. rewrite skipn_length, app_length. lia.
Qed.
Lemma free_char d c s r : hd_error d = Some c -> ~ In c s -> free_of d s r.
Proof.
  destruct d as [|x d]; [discriminate|]. intros [= ->]. induction s as [|y s IH]; intros N; [apply free_nil|].
  apply free_cons. split; [|apply IH; intros X; apply N; right; exact X]. cbn [prefixb].
  replace (beq c y) with false; [reflexivity|]. symmetry. apply beq_false. intros ->. apply N. left. reflexivity.
Qed.
Lemma strstr_free d s r : free_of d s r -> strstr (s ++ r) d = option_map (fun k => length s + k) (strstr r d).
Proof.
  induction s as [|c s IH]; intros H; cbn [app].
  - destruct (strstr r d); reflexivity.
  - apply free_cons in H as [A B]. cbn [strstr]. rewrite A, (IH B). destruct (strstr r d); reflexivity.
Qed.
Lemma strstr_at d s r : free_of d s (d ++ r) -> strstr (s ++ d ++ r) d = Some (length s).
Proof.
  intros H. rewrite (strstr_free H). replace (strstr (d ++ r) d) with (Some 0); [cbn; f_equal; lia|].
  pose proof (prefixb_self d r) as P. destruct (d ++ r); cbn [strstr]; rewrite P; reflexivity.
Qed.
Lemma skipn_pre A (pre r : list A) : skipn (length pre) (pre ++ r) = r.
Proof. rewrite skipn_app_ge, Nat.sub_diag by lia. reflexivity. Qed.
Lemma find_at pre d s r : free_of d s (d ++ r) -> find_from (pre ++ s ++ d ++ r) (length pre) d = Some (length pre + length s).
Proof. intros H. unfold find_from. rewrite skipn_pre, (@strstr_at d s r H). reflexivity. Qed.
Lemma find_none pre d s : free_of d s [] -> d <> [] -> find_from (pre ++ s) (length pre) d = None.
Proof.
  intros H N. unfold find_from. rewrite skipn_pre. rewrite <- (app_nil_r s). rewrite (strstr_free H). destruct d; [congruence|]. reflexivity.
Qed.
Lemma rdc_at pre c r : rdc (pre ++ c :: r) (length pre) = Ok c.
Proof.
  unfold rdc. rewrite app_length. replace (length pre <=? length pre + length (c :: r))%nat with true by (symmetry; apply Nat.leb_le; lia).
  rewrite app_nth2, Nat.sub_diag by lia. reflexivity.
Qed.
Lemma rdc_end t : rdc t (length t) = Ok NUL.
Proof. unfold rdc. rewrite Nat.leb_refl, nth_overflow by lia. reflexivity. Qed.
Lemma txt_at pre s r : txt (pre ++ s ++ r) (length pre) (length s) = s.
Proof. unfold txt. rewrite skipn_pre, firstn_app_le, firstn_all by lia. reflexivity. Qed.
Lemma txt_at' t pre s r i n : t = pre ++ s ++ r -> i = length pre -> n = length s -> txt t i n = s.
Proof. intros -> -> ->. apply txt_at. Qed.
Lemma sees_at pre p r : sees (pre ++ p ++ r) (length pre) p = true.
Proof. unfold sees. rewrite skipn_pre. apply prefixb_self. Qed.

(** * Blanks *)
Definition blankb (c : byte) : bool := beq c " " || beq c B_t.
Lemma blankb_spec c : blankb c = true <-> blank c.
Proof. unfold blankb, blank. rewrite Bool.orb_true_iff, !beq_true. tauto. Qed.
Lemma IsSpace_blank c : IsSpace c = blankb c.
Proof. unfold IsSpace, blankb. apply Bool.orb_comm. Qed.
Lemma skip_blanks_at pre b r len f : blanks b -> (forall c r', r = c :: r' -> ~ blank c) -> length b <= len -> length b < f ->
  skip_blanks f (pre ++ b ++ r) (length pre) len = Ok (length pre + length b, len - length b).
Proof.
  revert pre len f. induction b as [|c b IH]; intros pre len f B N L F; (destruct f as [|f]; [cbn in F; lia|]); cbn [skip_blanks app].
  - rewrite Nat.add_0_r, Nat.sub_0_r. destruct r as [|c r].
    + rewrite app_nil_r, rdc_end. reflexivity.
    + rewrite rdc_at. cbn [bind]. fold (blankb c). replace (blankb c) with false; [reflexivity|]. symmetry. apply Bool.not_true_iff_false. rewrite blankb_spec. eauto.
  - rewrite rdc_at. cbn [bind]. fold (blankb c). inversion B as [|? ? Bc Bb]; subst. replace (blankb c) with true by (symmetry; apply blankb_spec, Bc).
    cbn [length] in L, F. destruct len as [|len]; [lia|]. specialize (IH (pre ++ [c]) len f Bb N ltac:(lia) ltac:(lia)).
    rewrite <- app_assoc in IH. cbn [app] in IH. rewrite app_length in IH. cbn [length] in IH. replace (length pre + 1) with (S (length pre)) in IH by lia.
    rewrite IH. cbn [length]. f_equal. f_equal; lia.
Qed.
Lemma trim_blanks_at pre s b r : blanks b -> (s = [] \/ exists s' c, s = s' ++ [c] /\ ~ blank c) ->
  trim_blanks (pre ++ s ++ b ++ r) (length pre) (length s + length b) = length s.
Proof.
  intros B. revert r. induction b as [|c b IH] using rev_ind; intros r N.
  - cbn [app length]. rewrite Nat.add_0_r. destruct N as [->|[s' [c [-> NB]]]]; [reflexivity|].
    rewrite app_length. cbn [length]. rewrite Nat.add_1_r. cbn [trim_blanks].
    replace (nth (length pre + length s') (pre ++ (s' ++ [c]) ++ r) NUL) with c.
    + fold (blankb c). replace (blankb c) with false; [reflexivity|]. symmetry. apply Bool.not_true_iff_false. rewrite blankb_spec. exact NB.
    + rewrite app_assoc, app_assoc, <- app_assoc. rewrite app_nth2 by (rewrite app_length; lia). rewrite app_length, Nat.sub_diag. reflexivity.
  - apply Forall_app in B as [B Bc]. inversion Bc as [|? ? Bc' _]; subst. rewrite app_length. cbn [length]. rewrite Nat.add_assoc, Nat.add_1_r. cbn [trim_blanks].
    replace (nth (length pre + (length s + length b)) (pre ++ s ++ (b ++ [c]) ++ r) NUL) with c.
    + fold (blankb c). replace (blankb c) with true by (symmetry; apply blankb_spec, Bc'). rewrite <- (app_assoc b). apply IH; assumption.
    + replace (pre ++ s ++ (b ++ [c]) ++ r) with ((pre ++ s ++ b) ++ c :: r) by (rewrite <- !app_assoc; reflexivity).
      rewrite app_nth2 by (rewrite !app_length; lia). rewrite !app_length, Nat.sub_diag. reflexivity.
Qed.
Lemma trimmed_end s : trimmed s -> s = [] \/ exists s' c, s = s' ++ [c] /\ ~ blank c.
Proof.
  intros T. destruct s as [|c s _] using rev_ind; [left; reflexivity|]. right. exists s, c. split; [reflexivity|]. apply (T s c []); auto.
Qed.
(** every text is a name with blanks around it *)
Lemma label_exists s : exists l, label_ok l /\ inner l = s.
Proof.
  assert (A : exists b s1, s = b ++ s1 /\ blanks b /\ (forall c r, s1 = c :: r -> ~ blank c)).
  { induction s as [|c s [b [s1 [-> [B N]]]]].
    - exists [], []. split; [reflexivity|]. split; [constructor|discriminate].
    - destruct (blankb c) eqn:E.
      + exists (c :: b), s1. split; [reflexivity|]. split; [constructor; [apply blankb_spec, E|exact B]|exact N].
      + exists [], (c :: b ++ s1). split; [reflexivity|]. split; [constructor|]. intros x r [= <- _]. rewrite <- blankb_spec, E. discriminate. }
  destruct A as [b [s1 [-> [B N]]]].
  assert (A : exists s2 e, s1 = s2 ++ e /\ blanks e /\ (s2 = [] \/ exists s' c, s2 = s' ++ [c] /\ ~ blank c)).
  { clear N. induction s1 as [|c s [s2 [e [-> [E N]]]]] using rev_ind.
    - exists [], []. split; [reflexivity|]. split; [constructor|left; reflexivity].
    - destruct (blankb c) eqn:X.
      + exists s2, (e ++ [c]). split; [rewrite app_assoc; reflexivity|]. split; [apply Forall_app; split; [exact E|constructor; [apply blankb_spec, X|constructor]]|exact N].
      + exists (s2 ++ e ++ [c]), []. split; [rewrite app_nil_r, app_assoc; reflexivity|]. split; [constructor|]. right. exists (s2 ++ e), c. split; [rewrite app_assoc; reflexivity|]. rewrite <- blankb_spec, X. discriminate. }
  destruct A as [s2 [e [-> [E M]]]]. exists (mkLabel b s2 e). split; [|reflexivity]. split; [exact B|]. split; [exact E|]. cbn [lname].
  intros a c d EQ [-> | ->].
  - apply (N c (d ++ e)). rewrite EQ. reflexivity.
  - destruct M as [->|[s' [c' [-> NB]]]]; [destruct a; discriminate|]. apply app_inj_tail in EQ as [_ ->]. exact NB.
Qed.

(** * Tags alone on their line *)
Lemma scan_back_own b l r x : line_start b -> blanks l -> (b = [] -> l = [] -> x = 0) -> scan_back (length (b ++ l)) (b ++ l ++ r) x = Some (length b).
Proof.
  revert r x. induction l as [|c l IH] using rev_ind; intros r x LS B X.
  - rewrite app_nil_r. cbn [app]. destruct LS as [->|[b' ->]]; [cbn; rewrite X; reflexivity|].
    rewrite app_length. cbn [length]. rewrite Nat.add_1_r. cbn [scan_back]. rewrite <- app_assoc, app_nth2, Nat.sub_diag by lia. reflexivity.
  - apply Forall_app in B as [B Bc]. inversion Bc as [|? ? Bc' _]; subst. rewrite app_assoc, app_length. cbn [length]. rewrite Nat.add_1_r. cbn [scan_back].
    replace (b ++ (l ++ [c]) ++ r) with ((b ++ l) ++ c :: r) by (rewrite <- !app_assoc; reflexivity). rewrite app_nth2, Nat.sub_diag by lia. cbn [nth].
    rewrite IsSpace_blank. replace (blankb c) with true by (symmetry; apply blankb_spec, Bc'). rewrite <- app_assoc. apply IH; auto.
    intros -> ->. reflexivity.
Qed.
Lemma scan_back_some before r x y : scan_back (length before) (before ++ r) x = Some y -> exists b l, before = b ++ l /\ line_start b /\ blanks l.
Proof.
  revert r x. induction before as [|c s IH] using rev_ind; intros r x H.
  - exists [], []. split; [reflexivity|]. split; [left; reflexivity|constructor].
  - rewrite app_length in H. cbn [length] in H. rewrite Nat.add_1_r in H. cbn [scan_back] in H. rewrite <- app_assoc in H. cbn [app] in H. rewrite app_nth2, Nat.sub_diag in H by lia. cbn [nth] in H.
    rewrite IsSpace_blank in H. destruct (blankb c) eqn:B.
    + apply IH in H as [b [l [-> [LS BL]]]]. exists b, (l ++ [c]). split; [rewrite app_assoc; reflexivity|]. split; [exact LS|]. apply Forall_app. split; [exact BL|]. constructor; [apply blankb_spec, B|constructor].
    + destruct (beq c B_n) eqn:N; [|discriminate]. apply beq_true in N as ->. exists (s ++ [B_n]), []. split; [rewrite app_nil_r; reflexivity|]. split; [right; eauto|constructor].
Qed.
Definition trailb (c : byte) : Prop := blank c \/ c = B_r.
Lemma not_blank c : ~ blank c -> IsSpace c = false.
Proof. intros H. rewrite IsSpace_blank. apply Bool.not_true_iff_false. rewrite blankb_spec. exact H. Qed.
Lemma scan_fwd_cases f : forall pre r, is_cstr r -> length r < f ->
  (exists tr, trailing tr /\ r = tr /\ scan_fwd f (pre ++ r) (length pre) = Ok (Some (length pre + length tr))) \/
  (exists tr r', trailing tr /\ r = tr ++ B_n :: r' /\ scan_fwd f (pre ++ r) (length pre) = Ok (Some (length pre + S (length tr)))) \/
  (scan_fwd f (pre ++ r) (length pre) = Ok None /\ forall tr, trailing tr -> r <> tr /\ forall r', r <> tr ++ B_n :: r').
Proof.
  induction f as [|f IH]; intros pre r C L; [lia|]. destruct r as [|c r]; cbn [scan_fwd].
  - left. exists []. split; [constructor|]. split; [reflexivity|]. rewrite app_nil_r, rdc_end. cbn [bind]. rewrite Nat.add_0_r. reflexivity.
  - rewrite rdc_at. cbn [bind]. apply is_cstr_cons in C as [Cc C]. specialize (IH (pre ++ [c]) r C ltac:(cbn in L; lia)).
    rewrite <- app_assoc, app_length in IH. cbn [app length] in IH. replace (length pre + 1) with (S (length pre)) in IH by lia.
    assert (GO : trailb c -> (c = B_r -> forall r', r <> B_n :: r') ->
      (if IsSpace c then scan_fwd f (pre ++ c :: r) (S (length pre))
       else if beq c B_n then Ok (Some (S (length pre)))
       else if beq c B_r then let* d := rdc (pre ++ c :: r) (S (length pre)) in if beq d B_n then Ok (Some (S (S (length pre)))) else scan_fwd f (pre ++ c :: r) (S (length pre))
       else if beq c NUL then Ok (Some (length pre)) else Ok None) = scan_fwd f (pre ++ c :: r) (S (length pre))).
    { intros [B| ->] NR.
      - rewrite IsSpace_blank. replace (blankb c) with true by (symmetry; apply blankb_spec, B). reflexivity.
      - change (IsSpace B_r) with false. change (beq B_r B_n) with false. change (beq B_r B_r) with true. cbv iota.
        replace (S (length pre)) with (length (pre ++ [B_r])) at 1 by (rewrite app_length; cbn; lia). destruct r as [|d r].
        + rewrite rdc_end. reflexivity.
        + replace (pre ++ B_r :: d :: r) with ((pre ++ [B_r]) ++ d :: r) at 1 by (rewrite <- app_assoc; reflexivity). rewrite rdc_at. cbn [bind].
          replace (beq d B_n) with false; [reflexivity|]. symmetry. apply beq_false. intros ->. exact (NR eq_refl r eq_refl). }
    assert (TC : {c = B_r /\ exists r', r = B_n :: r'} + {~ (c = B_r /\ exists r', r = B_n :: r')}).
    { destruct (ascii_dec c B_r) as [->|N]; [|right; tauto]. destruct r as [|d r]; [right; intros [_ [r' X]]; discriminate|].
      destruct (ascii_dec d B_n) as [->|N]; [left; eauto|right; intros [_ [r' X]]; congruence]. }
    destruct TC as [[-> [r' ->]]|NT].
    + right. left. exists [B_r], r'. split; [constructor; [right; reflexivity|constructor]|]. split; [reflexivity|].
      change (IsSpace B_r) with false. change (beq B_r B_n) with false. change (beq B_r B_r) with true. cbv iota.
      replace (S (length pre)) with (length (pre ++ [B_r])) at 1 by (rewrite app_length; cbn; lia).
      replace (pre ++ B_r :: B_n :: r') with ((pre ++ [B_r]) ++ B_n :: r') at 1 by (rewrite <- app_assoc; reflexivity). rewrite rdc_at. cbn. do 2 f_equal. lia.
    + assert (TR : {trailb c} + {~ trailb c}).
      { unfold trailb, blank. destruct (ascii_dec c " "), (ascii_dec c B_t), (ascii_dec c B_r); try (left; tauto); right; tauto. }
      destruct TR as [TR|TR].
      * rewrite (GO TR) by (intros -> r' ->; apply NT; eauto). destruct IH as [[tr [T [-> E]]]|[[tr [r' [T [-> E]]]]|[E N]]].
        -- left. exists (c :: tr). split; [constructor; assumption|]. split; [reflexivity|]. rewrite E. cbn [length]. do 2 f_equal. lia.
        -- right. left. exists (c :: tr), r'. split; [constructor; assumption|]. split; [reflexivity|]. rewrite E. cbn [length]. do 2 f_equal. lia.
        -- right. right. split; [exact E|]. intros tr T. destruct tr as [|x tr].
           ++ split; [discriminate|]. intros r' [= -> ->]. destruct TR as [[X|X]|X]; discriminate X.
           ++ inversion T as [|? ? _ T']; subst. destruct (N tr T') as [N1 N2]. split; [intros [= -> ->]; exact (N1 eq_refl)|intros r' [= -> ->]; exact (N2 r' eq_refl)].
      * right. rewrite not_blank by (intros X; apply TR; left; exact X). destruct (beq c B_n) eqn:EN.
        -- apply beq_true in EN as ->. left. exists [], r. split; [constructor|]. split; [reflexivity|]. cbn. do 2 f_equal. lia.
        -- right. replace (beq c B_r) with false by (symmetry; apply beq_false; intros ->; apply TR; right; reflexivity).
           replace (beq c NUL) with false by (symmetry; apply beq_false; exact Cc). split; [reflexivity|]. intros tr T. destruct tr as [|x tr].
           ++ split; [discriminate|]. intros r' [= -> _]. discriminate EN.
           ++ inversion T as [|? ? Tx _]; subst. split; [intros [= -> _]; exact (TR Tx)|intros r' [= -> _]; exact (TR Tx)].
Qed.
Lemma trailing_end tr : trailing tr -> ~ In B_n tr.
Proof. intros T X. unfold trailing in T. rewrite Forall_forall in T. destruct (T _ X) as [[E|E]|E]; discriminate E. Qed.
Lemma trailing_unique tr tr' r r' : trailing tr -> trailing tr' -> tr ++ B_n :: r = tr' ++ B_n :: r' -> tr = tr' /\ r = r'.
Proof.
  revert tr'. induction tr as [|c tr IH]; intros [|c' tr'] T T' E; cbn in E.
  - injection E as ->. auto.
  - injection E as <- _. inversion T' as [|? ? [[X|X]|X] _]; discriminate X.
  - injection E as -> _. inversion T as [|? ? [[X|X]|X] _]; discriminate X.
  - injection E as -> E. inversion T; inversion T'; subst. destruct (IH tr') as [-> ->]; auto.
Qed.
(** how the text around a tag decides *)
Lemma standalone_own b ind tag tr nl after :
  is_cstr (tr ++ (if nl : bool then [B_n] else []) ++ after) -> blanks ind -> trailing tr -> line_start b -> (nl = true \/ after = []) ->
  IsTagStandalone (b ++ ind ++ tag ++ tr ++ (if nl then [B_n] else []) ++ after) (length (b ++ ind)) (length (b ++ ind ++ tag)) =
  Ok (Some (length b, length (b ++ ind ++ tag) + length tr + (if nl then 1 else 0))).
Proof.
  intros C BI T LS NL. unfold IsTagStandalone. replace (b ++ ind ++ tag ++ tr ++ (if nl then [B_n] else []) ++ after) with ((b ++ ind ++ tag) ++ tr ++ (if nl then [B_n] else []) ++ after) by (rewrite <- !app_assoc; reflexivity).
  assert (SB : scan_back (length (b ++ ind)) ((b ++ ind ++ tag) ++ tr ++ (if nl then [B_n] else []) ++ after) 0 = Some (length b)).
  { rewrite <- !app_assoc. apply scan_back_own; auto. }
  rewrite SB.
  match goal with |- context [scan_fwd ?f] => destruct (@scan_fwd_cases f (b ++ ind ++ tag) (tr ++ (if nl then [B_n] else []) ++ after) C) as [[tr' [T' [E1 E2]]]|[[tr' [r' [T' [E1 E2]]]]|[E2 N]]] end.
  - rewrite (app_length (b ++ ind ++ tag)). lia.
  - rewrite E2. cbn [bind option_map]. destruct nl.
    + exfalso. apply (trailing_end T'). rewrite <- E1. apply in_app_iff. right. left. reflexivity.
    + destruct NL as [NL| ->]; [discriminate|]. rewrite <- E1. cbn [app]. rewrite app_nil_r. do 3 f_equal. lia.
  - rewrite E2. cbn [bind option_map]. destruct nl.
    + cbn [app] in E1. destruct (trailing_unique _ _ T T' E1) as [<- <-]. do 3 f_equal. lia.
    + destruct NL as [NL| ->]; [discriminate|]. exfalso. apply (trailing_end T). cbn [app] in E1. rewrite app_nil_r in E1. rewrite E1. apply in_app_iff. right. left. reflexivity.
  - exfalso. destruct (N tr T) as [N1 N2]. destruct nl; [exact (N2 after eq_refl)|]. destruct NL as [NL| ->]; [discriminate|]. apply N1. cbn. apply app_nil_r.
Qed.
Lemma standalone_inline b tag after : is_cstr after -> ~ alone_on_line b after ->
  IsTagStandalone (b ++ tag ++ after) (length b) (length (b ++ tag)) = Ok None.
Proof.
  intros C NA. unfold IsTagStandalone. destruct (scan_back (length b) (b ++ tag ++ after) 0) as [lb|] eqn:SB; [|reflexivity].
  apply scan_back_some in SB. rewrite app_assoc.
  destruct (@scan_fwd_cases (S (length ((b ++ tag) ++ after))) (b ++ tag) after C) as [[tr' [T' [E1 E2]]]|[[tr' [r' [T' [E1 E2]]]]|[E2 N]]].
  - rewrite app_length. lia.
  - exfalso. apply NA. split; [exact SB|]. exists tr'. auto.
  - exfalso. apply NA. split; [exact SB|]. exists tr'. split; [exact T'|]. right. eauto.
  - rewrite E2. reflexivity.
Qed.
