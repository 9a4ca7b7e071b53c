(** What NextTag finds in a printed template. *)
From Verif Require Import Prelude PreludeFacts Str StrFacts Libc LibcFacts EditModel EditSpec EditProofs4 PropsEdit2 NumModel JsonModel JsonMapProofs MustModel MustSpec MustProofs.
Set Implicit Arguments.
Local Open Scope char_scope.

Definition L2 : list byte := lit "{{".
Definition R2 : list byte := lit "}}".

(** the tag [ty] with name [nm], from [b] to [e] *)
Definition found (t : list byte) (m : mustache) (ty : tagtype) (b e : nat) (nm : list byte) : Prop :=
  exists q q', t = q ++ nm ++ q' /\ m = mkM ty (Some b) (Some e) (length q) (length nm).
Lemma finish_ok P l e r : label_ok l -> ~ blank e -> exists q q', P ++ inner l ++ e :: r = q ++ lname l ++ q' /\
  (let* ' (c, n) := skip_blanks (S (length (P ++ inner l ++ e :: r))) (P ++ inner l ++ e :: r) (length P) (length P + length (inner l) - length P) in
   Ok (c, trim_blanks (P ++ inner l ++ e :: r) c n)) = Ok (length q, length (lname l)).
Proof.
  intros [BL [BR T]] NE. destruct l as [L nm R]. unfold inner in *. cbn [pad_l pad_r lname] in *. replace (length P + length (L ++ nm ++ R) - length P) with (length (L ++ nm ++ R)) by lia.
  destruct nm as [|c nm].
  - exists (P ++ L ++ R), (e :: r). split; [rewrite <- !app_assoc; reflexivity|]. cbn [app]. rewrite skip_blanks_at.
    + cbn [bind]. rewrite Nat.sub_diag, (app_length P). reflexivity.
    + apply Forall_app; auto.
    + intros c r' [= <- _]. exact NE.
    + lia.
    + rewrite (app_length P), (app_length (L ++ R)). cbn [length]. lia.
  - exists (P ++ L), (R ++ e :: r). split; [rewrite <- !app_assoc; reflexivity|].
    replace (P ++ (L ++ (c :: nm) ++ R) ++ e :: r) with (P ++ L ++ ((c :: nm) ++ R ++ e :: r)) by (rewrite <- !app_assoc; reflexivity). rewrite skip_blanks_at.
    + cbn [bind]. rewrite app_assoc. replace (length P + length L) with (length (P ++ L)) by apply app_length.
      replace (length (L ++ (c :: nm) ++ R) - length L) with (length (c :: nm) + length R) by (rewrite !app_length; lia).
      rewrite trim_blanks_at; [reflexivity|exact BR|exact (trimmed_end T)].
    + exact BL.
    + intros x r' [= <- _]. apply (T [] c nm); auto.
    + rewrite app_length. lia.
    + rewrite !app_length. cbn [length]. lia.
Qed.
Lemma sigil_plain c : ~ is_sigil c -> sigil c = (TVar, false, None).
Proof.
  intros H. unfold sigil. repeat match goal with |- context [beq c ?x] => let E := fresh in destruct (beq c x) eqn:E;
    [apply beq_true in E; subst c; exfalso; apply H; unfold is_sigil; cbn; tauto|] end. reflexivity.
Qed.
Lemma next_plain pre a sg l r ty : free_of L2 a (braces (sg ++ inner l) ++ r) -> label_ok l -> closed (inner l) ->
  (sg = [] /\ ty = TVar /\ (forall c r, inner l = c :: r -> ~ is_sigil c)) \/ (exists c, sg = [c] /\ sigil c = (ty, true, None)) ->
  exists m, NextTag (pre ++ a ++ braces (sg ++ inner l) ++ r) (length pre) L2 R2 = Ok m /\
    found (pre ++ a ++ braces (sg ++ inner l) ++ r) m ty (length pre + length a) (length pre + length a + length (braces (sg ++ inner l))) (lname l).
Proof.
  intros F LO CL SG. unfold NextTag. set (t := pre ++ a ++ braces (sg ++ inner l) ++ r).
  assert (E1 : t = pre ++ a ++ L2 ++ (sg ++ inner l ++ R2 ++ r)). { unfold t, braces, L2, R2. rewrite <- !app_assoc. reflexivity. }
  assert (F1 : find_from t (length pre) L2 = Some (length pre + length a)).
  { rewrite E1. apply find_at. unfold braces in F. fold L2 R2 in F. rewrite <- !app_assoc in F. exact F. }
  rewrite F1. set (P := pre ++ a ++ L2 ++ sg). assert (E2 : t = P ++ inner l ++ R2 ++ r). { rewrite E1. unfold P. rewrite <- !app_assoc. reflexivity. }
  assert (FE : find_from t (length P) R2 = Some (length P + length (inner l))). { rewrite E2. apply find_at, free_more. exact CL. }
  destruct (@finish_ok P l "}" ("}" :: r) LO) as [q [q' [EQ FI]]]; [intros [X|X]; discriminate X|].
  change ("}" :: "}" :: r) with (R2 ++ r) in EQ, FI. rewrite <- E2 in EQ, FI.
  assert (LP : length P = length pre + length a + length L2 + length sg). { unfold P. rewrite !app_length. lia. }
  assert (LE : length P + length (inner l) + length R2 = length pre + length a + length (braces (sg ++ inner l))). { rewrite LP. unfold braces. rewrite !app_length. cbn. lia. }
  exists (mkM ty (Some (length pre + length a)) (Some (length pre + length a + length (braces (sg ++ inner l)))) (length q) (length (lname l))).
  split; [|exists q, q'; auto].
  assert (FI' : forall x, (let* ' (content', len) := (let* ' (content', len) := skip_blanks (S (length t)) t (length P) (length P + length (inner l) - length P) in
       Ok (content', trim_blanks t content' len)) in Ok (mkM ty (Some (length pre + length a)) (Some x) content' len)) = Ok (mkM ty (Some (length pre + length a)) (Some x) (length q) (length (lname l)))).
  { intros x. rewrite FI. reflexivity. }
  destruct SG as [[-> [-> NS]]|[c [-> SC]]].
  - cbn [length] in LP. rewrite Nat.add_0_r in LP. rewrite <- LP.
    assert (RD : exists c, rdc t (length P) = Ok c /\ ~ is_sigil c).
    { rewrite E2. destruct (inner l) as [|c s] eqn:EI.
      - exists "}". split; [apply rdc_at|]. intros X. cbn in X. repeat (destruct X as [X|X]; [discriminate X|]). destruct X.
      - exists c. split; [apply rdc_at|]. exact (NS c s eq_refl). }
    destruct RD as [c [RD NC]]. rewrite RD. cbn [bind]. rewrite (sigil_plain NC). rewrite FE. rewrite FI'. rewrite LE. reflexivity.
  - assert (RD : rdc t (length pre + length a + length L2) = Ok c).
    { rewrite E1. replace (length pre + length a + length L2) with (length (pre ++ a ++ L2)) by (rewrite !app_length; lia). replace (pre ++ a ++ L2 ++ [c] ++ inner l ++ R2 ++ r) with ((pre ++ a ++ L2) ++ c :: inner l ++ R2 ++ r) by (rewrite <- !app_assoc; reflexivity). apply rdc_at. }
    rewrite RD. cbn [bind]. rewrite SC. replace (S (length pre + length a + length L2)) with (length P) by (rewrite LP; cbn; lia). rewrite FE, FI', LE. reflexivity.
Qed.
Lemma next_raw pre a l r : free_of L2 a (braces ("{" :: inner l ++ ["}"]) ++ r) -> label_ok l -> ~ In "}" (inner l) ->
  exists m, NextTag (pre ++ a ++ braces ("{" :: inner l ++ ["}"]) ++ r) (length pre) L2 R2 = Ok m /\
    found (pre ++ a ++ braces ("{" :: inner l ++ ["}"]) ++ r) m TUnescaped (length pre + length a) (length pre + length a + length (braces ("{" :: inner l ++ ["}"]))) (lname l).
Proof.
  intros F LO CL. unfold NextTag. set (t := pre ++ a ++ braces ("{" :: inner l ++ ["}"]) ++ r).
  assert (E1 : t = pre ++ a ++ L2 ++ ("{" :: inner l ++ ["}"] ++ R2 ++ r)). { unfold t, braces, L2, R2. rewrite <- !app_assoc. cbn [app]. rewrite <- !app_assoc. reflexivity. }
  assert (F1 : find_from t (length pre) L2 = Some (length pre + length a)).
  { rewrite E1. apply find_at. unfold braces in F. fold L2 R2 in F. rewrite <- !app_assoc in F. cbn [app] in F. rewrite <- !app_assoc in F. exact F. }
  rewrite F1. set (P := pre ++ a ++ L2 ++ ["{"]). assert (E2 : t = P ++ inner l ++ ["}"] ++ R2 ++ r). { rewrite E1. unfold P. rewrite <- !app_assoc. reflexivity. }
  assert (FE : find_from t (length P) ["}"] = Some (length P + length (inner l))). { rewrite E2. apply find_at. eapply free_char; [reflexivity|exact CL]. }
  destruct (@finish_ok P l "}" (R2 ++ r) LO) as [q [q' [EQ FI]]]; [intros [X|X]; discriminate X|].
  change ("}" :: R2 ++ r) with (["}"] ++ R2 ++ r) in EQ, FI. rewrite <- E2 in EQ, FI.
  assert (LP : length P = S (length pre + length a + length L2)). { unfold P. rewrite !app_length. cbn. lia. }
  assert (LE : S (length P + length (inner l)) + length R2 = length pre + length a + length (braces ("{" :: inner l ++ ["}"]))). { rewrite LP. unfold braces. rewrite !app_length. cbn [length]. rewrite !app_length. cbn. lia. }
  assert (SE : sees t (S (length P + length (inner l))) R2 = true).
  { rewrite E2. replace (S (length P + length (inner l))) with (length (P ++ inner l ++ ["}"])) by (rewrite !app_length; cbn; lia).
    replace (P ++ inner l ++ ["}"] ++ R2 ++ r) with ((P ++ inner l ++ ["}"]) ++ R2 ++ r) by (rewrite <- !app_assoc; reflexivity). apply sees_at. }
  exists (mkM TUnescaped (Some (length pre + length a)) (Some (length pre + length a + length (braces ("{" :: inner l ++ ["}"])))) (length q) (length (lname l))).
  split; [|exists q, q'; auto].
  assert (RD : rdc t (length pre + length a + length L2) = Ok "{").
  { rewrite E1. replace (length pre + length a + length L2) with (length (pre ++ a ++ L2)) by (rewrite !app_length; lia). replace (pre ++ a ++ L2 ++ ("{" :: inner l ++ ["}"] ++ R2 ++ r)) with ((pre ++ a ++ L2) ++ "{" :: inner l ++ ["}"] ++ R2 ++ r) by (rewrite <- !app_assoc; reflexivity). apply rdc_at. }
  rewrite RD. cbn [bind]. change (sigil "{") with (TUnescaped, true, Some "}"). cbv beta iota zeta. rewrite <- LP. rewrite FE, SE, FI. cbn [bind]. rewrite LE. reflexivity.
Qed.
Lemma next_none pre a : free_of L2 a [] -> NextTag (pre ++ a) (length pre) L2 R2 = Ok (mkM TNone None None 0 0).
Proof. intros F. unfold NextTag. rewrite find_none; [reflexivity|exact F|discriminate]. Qed.
(** tags whose content does not matter *)
Lemma next_any pre a c s r ty : free_of L2 a (braces (c :: s) ++ r) -> closed s -> sigil c = (ty, true, None) ->
  exists m nm, NextTag (pre ++ a ++ braces (c :: s) ++ r) (length pre) L2 R2 = Ok m /\
    found (pre ++ a ++ braces (c :: s) ++ r) m ty (length pre + length a) (length pre + length a + length (braces (c :: s))) nm.
Proof.
  intros F CL SC. destruct (label_exists s) as [l [LO <-]]. destruct (@next_plain pre a [c] l r ty) as [m [E1 E2]]; auto.
  - right. exists c. auto.
  - exists m, (lname l). auto.
Qed.

(** * Looking up names *)
Lemma runs_dotted o s ts : runs (sepset (lit ".")) o s ts -> is_cstr s -> dotted s = map snd ts.
Proof.
  intros R. unfold dotted. induction R as [o|o c s ts S1 R IH|o t s ts N A B R IH]; intros C.
  - reflexivity.
  - apply is_cstr_cons in C as [Cc C]. cbn [dotted_from]. assert (c = ".").
    { unfold sepset in S1. cbn in S1. apply Bool.orb_true_iff in S1 as [X|X]; [apply beq_true in X; contradiction|]. apply Bool.orb_true_iff in X as [X|X]; [apply beq_true in X; exact X|discriminate]. }
    subst c. change (beq "." ".") with true. cbv iota. exact (IH C).
  - apply is_cstr_app in C as [Ct C]. cbn [map snd].
    assert (G : forall cur t, (forall c, In c t -> sepset (lit ".") c = false) -> cur ++ t <> [] ->
       dotted_from cur (t ++ s) = (cur ++ t) :: dotted_from [] s).
    { clear -B C. intros cur t. revert cur. induction t as [|c t IHt]; intros cur A NE; cbn [app dotted_from].
      - rewrite app_nil_r in *. destruct s as [|d s]; cbn [dotted_from].
        + destruct cur; [congruence|reflexivity].
        + assert (d = ".").
          { apply is_cstr_cons in C as [Cd _]. destruct B as [B|[c [s' [B1 B]]]]; [discriminate|]. injection B1 as <- <-. unfold sepset in B. cbn in B.
            apply Bool.orb_true_iff in B as [X|X]; [apply beq_true in X; contradiction|]. apply Bool.orb_true_iff in X as [X|X]; [apply beq_true in X; exact X|discriminate]. }
          subst d. change (beq "." ".") with true. cbv iota. destruct cur; [congruence|reflexivity].
      - assert (beq c "." = false).
        { specialize (A c (or_introl eq_refl)). unfold sepset in A. cbn in A. apply Bool.orb_false_iff in A as [_ A]. apply Bool.orb_false_iff in A as [A _]. exact A. }
        rewrite H. rewrite IHt.
        + rewrite <- app_assoc. reflexivity.
        + intros x X. apply A. right. exact X.
        + rewrite <- app_assoc. destruct cur; discriminate. }
    rewrite (G [] t A); [|exact N]. cbn [app]. f_equal. exact (IH C).
Qed.

Lemma lookup_base_spec sc k : lookup_base sc k = innermost sc k.
Proof. induction sc as [|[[p v|cs|kvs]|] sc IH]; cbn [lookup_base innermost member]; rewrite ?IH; reflexivity. Qed.
Lemma dotted_from_app cur s : (exists c, In c s /\ c <> ".") \/ cur <> [] -> dotted_from cur s <> [].
Proof.
  revert cur. induction s as [|c s IH]; intros cur H; cbn [dotted_from].
  - destruct H as [[c [[] _]]|H]; [destruct cur; congruence].
  - destruct (beq c ".") eqn:E.
    + apply beq_true in E. subst c. destruct cur; [|discriminate]. apply IH. destruct H as [[c [[<-|I] N]]|H]; [congruence| |congruence]. left. eauto.
    + apply IH. right. destruct cur; discriminate.
Qed.
Lemma component_dotted s : has_component s -> dotted s <> [].
Proof. intros H. apply dotted_from_app. left. exact H. Qed.
Section Look.
Variables q nm q' : list byte.
Notation t := (q ++ nm ++ q').
Variable ts : list (nat * list byte).
Hypothesis R : runs (sepset (lit ".")) 0 nm ts.
Lemma token_text i off s : nth_error ts i = Some (off, s) -> txt t (length q + off) (length s) = s.
Proof.
  intros H. apply nth_error_In in H. destruct (@C36_tokens_are_where_they_say (lit ".") nm ts R off s H) as [E L].
  unfold txt. rewrite Nat.add_comm, <- skipn_skipn, skipn_pre. rewrite skipn_app_le by lia. rewrite firstn_app_le; [exact E|]. rewrite skipn_length. lia.
Qed.
Lemma get_token i : StringGetToken (block (skipn (length q) t)) (length nm) i (lit ".") = Ok (match nth_error ts i with Some (off, s) => Some (off, length s) | None => None end).
Proof.
  rewrite skipn_pre. unfold block. rewrite <- app_assoc, map_app. apply C36_tokens; [|exact R]. unfold is_cstr, NUL; cbn; intuition discriminate.
Qed.
Lemma count_token : StringCountTokens (block (skipn (length q) t)) (length nm) (lit ".") = Ok (length ts).
Proof.
  rewrite skipn_pre. unfold block. rewrite <- app_assoc, map_app. apply C36_tokens; [|exact R]. unfold is_cstr, NUL; cbn; intuition discriminate.
Qed.
Lemma lookup_comps_spec n i v : length ts = i + n -> lookup_comps n i t (length q) (length nm) v = Ok (follow v (map snd (skipn i ts))).
Proof.
  revert i v. induction n as [|n IH]; intros i v L; cbn [lookup_comps].
  - rewrite skipn_all2 by lia. reflexivity.
  - destruct (nth_error ts i) as [[off s]|] eqn:E; [|apply nth_error_None in E; lia].
    assert (SK : skipn i ts = (off, s) :: skipn (S i) ts).
    { clear -E. revert i E. induction ts as [|x l IHl]; intros [|i] E; try discriminate; cbn in *; [injection E as ->; reflexivity|]. rewrite (IHl i E). reflexivity. }
    rewrite SK. cbn [map snd follow]. destruct v as [p x|cs|kvs]; cbn [member]; try reflexivity.
    rewrite get_token, E. cbn [bind ref_dup]. rewrite (@token_text i off s E). cbn [bind]. destruct (JsonObjectGet kvs s); [|reflexivity]. apply IH. lia.
Qed.
End Look.
Lemma LookupVariable_spec stack q nm q' : stack <> [] -> is_cstr nm -> has_component nm ->
  LookupVariable stack (q ++ nm ++ q') (length q) (length nm) = Ok (find_var (rev stack) nm).
Proof.
  intros NE C H. unfold LookupVariable. destruct stack as [|s0 stack]; [congruence|]. replace (0 <? length (s0 :: stack))%nat with true by reflexivity. cbn [massert].
  destruct (C36_tokens_exist_uniquely (lit ".") nm) as [ts [R _]]. pose proof (runs_dotted R C) as D. pose proof (component_dotted H) as DN.
  rewrite (count_token q q' R), (get_token q q' R). cbn [bind]. destruct ts as [|[off k] ts]; [cbn in D; congruence|]. cbn [nth_error ref_dup].
  rewrite (@token_text q nm q' _ R 0 off k eq_refl). cbn [bind]. rewrite lookup_base_spec. unfold find_var. rewrite D. cbn [map snd].
  assert (LC : forall v, lookup_comps (length ((off, k) :: ts) - 1) 1 (q ++ nm ++ q') (length q) (length nm) v = Ok (follow v (map snd ts))).
  { intros v. rewrite (@lookup_comps_spec q nm q' _ R) by (cbn; lia). reflexivity. }
  destruct (innermost (rev (s0 :: stack)) k) as [v|]; [apply LC|].
  replace (bytes_eqb k (lit "-top-")) with (bytes_eqb (lit "-top-") k) by (apply bytes_eqb_sym).
  destruct (bytes_eqb (lit "-top-") k); [|reflexivity]. cbn [List.hd rev]. rewrite last_last. destruct s0 as [v|]; [apply LC|reflexivity].
Qed.
