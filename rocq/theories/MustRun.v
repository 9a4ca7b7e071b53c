(** Rendering a printed template gives its meaning: whole templates. *)
From Verif Require Import Prelude PreludeFacts Str StrFacts Libc LibcFacts EditModel NumModel JsonModel JsonMapProofs MustModel MustSpec MustProofs MustTags MustEval MustRender.
Set Implicit Arguments.
Local Open Scope char_scope.

(** induction over nodes with their bodies *)
Section Ind.
Variable P : node -> Prop.
Hypothesis HT : forall s, P (Text s).
Hypothesis HV : forall k l, P (Var k l).
Hypothesis HC : forall lay s, P (Comment lay s).
Hypothesis HS : forall inv lay l body lay2 c, Forall P body -> P (Section inv lay l body lay2 c).
Fixpoint node_ind' (n : node) : P n :=
  match n with
  | Text s => HT s
  | Var k l => HV k l
  | Comment lay s => HC lay s
  | Section inv lay l body lay2 c =>
      HS inv lay l lay2 c ((fix go (ns : list node) : Forall P ns := match ns with [] => Forall_nil P | n :: r => Forall_cons n (node_ind' n) (go r) end) body)
  end.
End Ind.
Lemma flat_section inv lay l body lay2 c :
  flat (Section inv lay l body lay2 c) = PTag lay ((if inv then "^" else "#") :: inner l) :: flats body ++ [PTag lay2 ("/" :: c)].
Proof. reflexivity. Qed.
Lemma node_ok_section inv lay l body lay2 c :
  node_ok (Section inv lay l body lay2 c) <-> label_ok l /\ has_component (lname l) /\ closed (inner l) /\ closed c /\ Forall node_ok body.
Proof.
  cbn [node_ok]. assert (E : forall ns, (fix oks (ns : list node) : Prop := match ns with [] => True | n :: r => node_ok n /\ oks r end) ns <-> Forall node_ok ns).
  { induction ns as [|n ns IH]; [split; auto|]. rewrite IH. split; [intros [A B]; constructor; auto|intros H; inversion H; auto]. }
  rewrite E. tauto.
Qed.
Lemma has_key_section inv lay l body lay2 c :
  has_key (Section inv lay l body lay2 c) = Some (if inv then match has_keys body with Some b => b | None => false end else false).
Proof.
  destruct inv; [|reflexivity]. cbn [has_key].
  change ((fix keys (ns : list node) : option bool := match ns with [] => None | n :: r => match has_key n with Some b => Some b | None => keys r end end) body) with (has_keys body).
  destruct (has_keys body); reflexivity.
Qed.

Section T.
Variable P0 : list piece.
Notation T := (T P0).
Notation at_pos := (at_pos P0).
Hypothesis CT : is_cstr T.
Hypothesis PO : forall ps1 p ps2, P0 = ps1 ++ p :: ps2 -> piece_ok (shows ps1) p (shows ps2).

Lemma at_text pre p ps1 s ps2 : at_pos pre p ps1 (PText s :: ps2) -> at_pos pre (p ++ s) (ps1 ++ [PText s]) ps2.
Proof.
  intros [EP [E F]]. split; [rewrite <- app_assoc; exact EP|]. split.
  - rewrite shows_app, <- E, shows_cons. change (shows []) with (@nil byte). rewrite app_nil_r, app_assoc. reflexivity.
  - apply free_app. split; [exact F|]. exact (PO _ _ _ EP).
Qed.
Lemma at_fresh ps1 ps2 : P0 = ps1 ++ ps2 -> at_pos (shows ps1) [] ps1 ps2.
Proof. intros E. split; [exact E|]. split; [apply app_nil_r|apply free_nil]. Qed.
Lemma at_len pre p ps1 ps2 : at_pos pre p ps1 ps2 -> length pre <= length T.
Proof. intros A. rewrite (at_T A), app_length. lia. Qed.
Lemma at_len2 pre p ps1 ps2 : at_pos pre p ps1 ps2 -> length pre <= length (shows ps1) /\ length (shows ps1) <= length T.
Proof. intros A. pose proof (at_T A) as E. destruct A as [_ [E2 _]]. rewrite <- E2, E, !app_length. lia. Qed.

(** * ShouldIterateObject *)
Lemma key_ext_var ps1 k l ps2 pre p : at_pos pre p ps1 (PVar (var_text k l) :: ps2) ->
  (match k with Escaped => closed (inner l) /\ (forall c r, inner l = c :: r -> ~ is_sigil c) | Raw => ~ In "}" (inner l) | _ => closed (inner l) end) ->
  IsKeyExtensionVar (ty_of k) T (length (pre ++ p)) L2 R2 = is_key_tag k l.
Proof.
  intros AP CL. pose proof (at_T AP) as ET. rewrite shows_cons in ET. cbn [show] in ET. unfold braces in ET. fold L2 R2 in ET.
  assert (S0 : forall j x, sees T (length (pre ++ p) + j) x = prefixb x (skipn j ((L2 ++ var_text k l ++ R2) ++ shows ps2))).
  { intros j x. unfold sees. rewrite ET. replace (pre ++ p ++ (L2 ++ var_text k l ++ R2) ++ shows ps2) with ((pre ++ p) ++ (L2 ++ var_text k l ++ R2) ++ shows ps2) by (rewrite <- !app_assoc; reflexivity). rewrite Nat.add_comm, <- skipn_skipn, skipn_pre. reflexivity. }
  assert (S00 : forall x, sees T (length (pre ++ p)) x = prefixb x ((L2 ++ var_text k l ++ R2) ++ shows ps2)).
  { intros x. rewrite <- (Nat.add_0_r (length (pre ++ p))), S0. reflexivity. }
  assert (CLO : closed (inner l) -> prefixb (lit "@}}") (inner l ++ R2 ++ shows ps2) = bytes_eqb (inner l) ["@"]).
  { intros C. destruct (inner l) as [|a [|b s]]; [reflexivity| |].
    - clear. destruct a as [[] [] [] [] [] [] [] []]; reflexivity.
    - assert (X : prefixb (lit "}}") ((b :: s) ++ R2 ++ shows ps2) = false). { rewrite app_assoc. pose proof (C 1 ltac:(cbn; lia)) as X. cbn [skipn app] in X. rewrite prefixb_app; [exact X|]. cbn. rewrite app_length. cbn. lia. }
      cbn [prefixb lit String.list_ascii_of_string app] in *. destruct (beq "@" a); cbn [andb] in *; [rewrite X|]; symmetry; apply bytes_eqb_neq; discriminate. }
  assert (CONJ : forall a b r, prefixb (a ++ b) r = prefixb a r && prefixb b (skipn (length a) r)).
  { clear. induction a as [|x a IH]; intros b r; [reflexivity|]. destruct r as [|y r]; [reflexivity|]. cbn [app prefixb length skipn]. rewrite IH, Bool.andb_assoc. reflexivity. }
  destruct k; cbn [ty_of IsKeyExtensionVar is_key_tag]; try reflexivity; cbn [var_text] in *.
  - destruct CL as [CL _]. rewrite <- (CLO CL). rewrite <- Nat.add_assoc. rewrite S00, !S0, <- !app_assoc. change (lit "@}}") with (lit "@" ++ R2). rewrite CONJ. reflexivity.
  - rewrite <- Nat.add_assoc. rewrite !S00, !S0, <- !app_assoc. change (bytes_eqb L2 (lit "{{")) with true. change (bytes_eqb R2 (lit "}}")) with true. cbn [length L2 R2 lit String.list_ascii_of_string Nat.eqb andb].
    cbn [app prefixb skipn]. change (beq "{" "{") with true. change (beq "&" "{") with false. cbn [andb orb].
    destruct (inner l) as [|a [|b s]]; [reflexivity| |].
    + clear. destruct a as [[] [] [] [] [] [] [] []]; reflexivity.
    + cbn [app prefixb]. destruct (beq "}" b) eqn:E; [apply beq_true in E; subst b; exfalso; apply CL; right; left; reflexivity|]. rewrite Bool.andb_comm. cbn [andb]. destruct (beq "@" a); symmetry; apply bytes_eqb_neq; discriminate.
  - rewrite <- (CLO CL). rewrite <- Nat.add_assoc. rewrite !S00, !S0, <- !app_assoc. change (bytes_eqb L2 (lit "{{")) with true. change (bytes_eqb R2 (lit "}}")) with true. cbn [length L2 R2 lit String.list_ascii_of_string Nat.eqb andb].
    cbn [app prefixb skipn]. change (beq "{" "{") with true. change (beq "{" "&") with false. change (beq "&" "&") with true. cbn [andb orb].
    rewrite Bool.orb_false_r. destruct (inner l) as [|a s]; [reflexivity|]. cbn [app prefixb skipn]. destruct (beq "@" a); reflexivity.
Qed.

Definition si_claim (n : node) : Prop := forall ps1 ps2 pre p f,
  node_ok n -> at_pos pre p ps1 (flat n ++ ps2) -> length T - length pre < f ->
  match has_key n with
  | Some b => ShouldIterateObject f T (length pre) L2 R2 = Ok b
  | None => exists f' pre' p', at_pos pre' p' (ps1 ++ flat n) ps2 /\ length T - length pre' < f' /\
      ShouldIterateObject f T (length pre) L2 R2 = ShouldIterateObject f' T (length pre') L2 R2
  end.
Lemma si_list ns : Forall si_claim ns -> forall ps1 ps2 pre p f,
  Forall node_ok ns -> at_pos pre p ps1 (flats ns ++ ps2) -> length T - length pre < f ->
  match has_keys ns with
  | Some b => ShouldIterateObject f T (length pre) L2 R2 = Ok b
  | None => exists f' pre' p', at_pos pre' p' (ps1 ++ flats ns) ps2 /\ length T - length pre' < f' /\
      ShouldIterateObject f T (length pre) L2 R2 = ShouldIterateObject f' T (length pre') L2 R2
  end.
Proof.
  induction 1 as [|n ns Hn Hns IH]; intros ps1 ps2 pre p f NO AP F; cbn [has_keys flats app] in *.
  - exists f, pre, p. rewrite app_nil_r. auto.
  - inversion NO as [|? ? NO1 NO2]; subst. rewrite <- app_assoc in AP. specialize (Hn ps1 (flats ns ++ ps2) pre p f NO1 AP F).
    destruct (has_key n) as [b|]; [exact Hn|]. destruct Hn as [f' [pre' [p' [AP' [F' E']]]]]. rewrite E'.
    specialize (IH (ps1 ++ flat n) ps2 pre' p' f' NO2 AP' F'). destruct (has_keys ns) as [b|]; [exact IH|].
    rewrite <- app_assoc in IH. exact IH.
Qed.
Lemma si_end ps1 lay c ps2 pre p f : closed c -> at_pos pre p ps1 (PTag lay ("/" :: c) :: ps2) -> length T - length pre < f -> ShouldIterateObject f T (length pre) L2 R2 = Ok false.
Proof.
  intros CL AP F. destruct (label_exists c) as [l [LO <-]]. destruct (@tag_step P0 CT PO _ _ _ _ _ _ _ TSectionEnd AP eq_refl LO CL) as [m [b [e [alone [EN [[q [q' [_ ->]]] _]]]]]].
  destruct f as [|f]; [lia|]. cbn [ShouldIterateObject]. rewrite EN. reflexivity.
Qed.
Lemma si_node n : si_claim n.
Proof.
  induction n as [s|k l|lay s|inv lay l body lay2 c IH] using node_ind'; intros ps1 ps2 pre p f NO AP F.
  - exists f, pre, (p ++ s). split; [apply at_text, AP|]. auto.
  - cbn [has_key]. destruct NO as [LO [_ CL]]. destruct (@var_step P0 PO _ _ _ _ _ _ AP LO CL) as [m [b [e [EN [[q [q' [_ ->]]] [_ [EE [EB LE]]]]]]]].
    pose proof (@key_ext_var _ k l _ _ _ AP CL) as KE. rewrite <- EB in KE. destruct f as [|f]; [lia|].
    assert (GO : exists f' pre' p', at_pos pre' p' (ps1 ++ [PVar (var_text k l)]) ps2 /\ length T - length pre' < f' /\ ShouldIterateObject f T e L2 R2 = ShouldIterateObject f' T (length pre') L2 R2).
    { exists f, (shows (ps1 ++ [PVar (var_text k l)])), []. assert (AP2 : at_pos (shows (ps1 ++ [PVar (var_text k l)])) [] (ps1 ++ [PVar (var_text k l)]) ps2) by (apply at_fresh; destruct AP as [AP _]; rewrite <- app_assoc; exact AP).
      split; [exact AP2|]. pose proof (at_len AP2). rewrite <- EE in *. split; [lia|reflexivity]. }
    cbn [ShouldIterateObject]. rewrite EN. cbn [bind mtype mbegin mend].
    destruct k; cbn [ty_of] in *; cbn match; try rewrite KE; cbn [is_key_tag] in *; try exact GO; destruct (bytes_eqb (inner l) ["@"]); try exact GO; reflexivity.
  - cbn [has_key flat app] in *. destruct (label_exists s) as [l [LO <-]]. destruct (@tag_step P0 CT PO _ _ _ _ _ _ _ TComment AP eq_refl LO NO) as [m [b [e [alone [EN [[q [q' [_ ->]]] [_ [_ [pr [LP [AP' LT]]]]]]]]]]].
    destruct f as [|f]; [lia|]. exists f, pr, (aft_of lay). split; [exact AP'|]. split; [pose proof (at_len AP'); lia|]. cbn [ShouldIterateObject]. rewrite EN. cbn [bind mtype mend]. rewrite LP. reflexivity.
  - rewrite has_key_section. apply node_ok_section in NO as [LO [_ [CL [CC NB]]]]. rewrite flat_section in AP. cbn [app] in AP. rewrite <- app_assoc in AP. cbn [app] in AP.
    destruct inv.
    + destruct (@tag_step P0 CT PO _ _ _ _ _ _ _ TInverted AP eq_refl LO CL) as [m [b [e [alone [EN [[q [q' [_ ->]]] [_ [_ [pr [LP [AP' LT]]]]]]]]]]].
      destruct f as [|f]; [lia|]. cbn [ShouldIterateObject]. rewrite EN. cbn [bind mtype mend]. rewrite <- LP.
      assert (F2 : length T - length pr < f) by (pose proof (at_len AP'); lia).
      pose proof (@si_list _ IH _ _ _ _ _ NB AP' F2) as H. destruct (has_keys body) as [bb|]; [exact H|].
      destruct H as [f' [pre' [p' [AP2 [F3 ->]]]]]. eapply si_end; eauto.
    + destruct (@tag_step P0 CT PO _ _ _ _ _ _ _ TSection AP eq_refl LO CL) as [m [b [e [alone [EN [[q [q' [_ ->]]] _]]]]]].
      destruct f as [|f]; [lia|]. cbn [ShouldIterateObject]. rewrite EN. reflexivity.
Qed.
(** at the start of the body of a section *)
Lemma should_iterate ps1 body lay c ps2 f : Forall node_ok body -> closed c -> P0 = ps1 ++ flats body ++ PTag lay ("/" :: c) :: ps2 -> length T < f ->
  ShouldIterateObject f T (length (shows ps1)) L2 R2 = Ok (iterates body).
Proof.
  intros NB CC EP F. assert (IH : Forall si_claim body) by (apply Forall_forall; intros; apply si_node).
  pose proof (@at_fresh ps1 _ EP) as AP. assert (F2 : length T - length (shows ps1) < f) by lia.
  pose proof (@si_list _ IH _ _ _ _ _ NB AP F2) as H. unfold iterates. destruct (has_keys body) as [b|]; [exact H|].
  destruct H as [f' [pre' [p' [AP2 [F3 ->]]]]]. eapply si_end; eauto.
Qed.
End T.
