(** Rendering a printed template gives its meaning: Render. *)
From Verif Require Import Prelude PreludeFacts Str StrFacts Libc LibcFacts EditModel NumModel JsonModel JsonMapProofs MustModel MustSpec MustProofs MustTags MustEval MustRender MustRun.
Set Implicit Arguments.
Local Open Scope char_scope.

Lemma indexed_keyed cs i : map (fun p : nat * json => (udec (N.of_nat (fst p)), snd p)) (combine (seq i (length cs)) cs) = indexed i cs.
Proof. revert i. induction cs as [|c cs IH]; intros i; [reflexivity|]. cbn [length seq combine map indexed fst snd]. rewrite IH. reflexivity. Qed.
Lemma keyed_elements j : keyed j = elements j.
Proof. destruct j; [reflexivity|apply indexed_keyed|reflexivity]. Qed.
Lemma indexed_in i cs k c : In (k, c) (indexed i cs) -> In c cs.
Proof. revert i. induction cs as [|d cs IH]; intros i; cbn [indexed]; [intros []|]. intros [[= _ ->]|H]; [left; reflexivity|right; eapply IH, H]. Qed.
Lemma elements_ok j k c : data_ok j -> In (k, c) (elements j) -> data_ok c.
Proof.
  destruct j as [p x|cs|kvs]; cbn [elements]; intros D H; [destruct H| |].
  - eapply data_ok_arr; [exact D|]. eapply indexed_in, H.
  - eapply data_ok_obj; eauto.
Qed.

Section M.
Variable real_text : list byte -> list byte.
Notation Render := (Render real_text).
Notation sems := (sems real_text true).
Notation sem := (sem real_text true).
Definition result := res (bool * rstate * option nat).
Definition fails (r : result) : Prop := r = Abort \/ exists st e, r = Ok (false, st, e).
Definition shown (skip : bool) (p : list byte) : list byte := if skip then [] else p.
Definition state_ok (st : rstate) (sc : scopes) : Prop := rds st = L2 /\ rde st = R2 /\ rstack st = rev sc /\ sc <> [] /\ scopes_ok sc.
Definition push (st : rstate) (v : option json) : rstate := with_stack st (rstack st ++ [v]).
Lemma push_ok st sc v : state_ok st sc -> (forall j, v = Some j -> data_ok j) -> state_ok (push st v) (v :: sc).
Proof.
  intros [A [B [C [D E]]]] H. unfold state_ok, push, with_stack. cbn [rds rde rstack rev]. split; [exact A|]. split; [exact B|]. split; [rewrite C; reflexivity|]. split; [discriminate|].
  intros j [X|X]; auto.
Qed.
Lemma out_ok st sc o : state_ok st sc -> state_ok (with_out st o) sc.
Proof. intros H. exact H. Qed.

(** * Sections *)
Section ES.
Variables (body : list node) (hidden : bool).
Fixpoint each_sem (es : list (list byte * json)) (sc : scopes) : option (list byte * scopes) :=
  match es with
  | [] => Some ([], sc)
  | (k, c) :: r =>
      match sems body (Some c :: sc) (Some k) hidden with
      | None => None
      | Some (o, sc') => match each_sem r (tl sc') with None => None | Some (o', sc) => Some (o ++ o', sc) end
      end
  end.
End ES.
Lemma sem_section inv lay l body lay2 c sc key skip : sem (Section inv lay l body lay2 c) sc key skip =
  match section_plan true inv skip (find_var sc (lname l)) body with
  | Wrong => None
  | Once hidden => match sems body (find_var sc (lname l) :: sc) None hidden with None => None | Some (o, sc') => Some (o, tl sc') end
  | Each es hidden => match each_sem body hidden es (find_var sc (lname l) :: sc) with None => None | Some (o, sc') => Some (o, sc') end
  end.
Proof. reflexivity. Qed.
Section E.
Variable sub : list byte -> json -> rstate -> result.
Variable after : rstate -> option nat -> result.
Fixpoint run_each (cs : list (list byte * json)) (st : rstate) (e : option nat) : result :=
  match cs with
  | [] => after st e
  | (k, c) :: r =>
      let* ' (ok, st, e') := sub k c st in
      if ok : bool then run_each r st (match e' with Some x => Some x | None => e end) else Ok (false, st, None)
  end.
End E.
Definition run_plan f T j key skip section (pl : plan) (st : rstate) : result :=
  match pl with
  | Wrong => Ok (false, st, None)
  | Once h => (let* ' (ok, st, e) := Render f T (Some j) None h true st in
               if ok : bool then Render f T e key skip section st else Ok (false, st, None))
  | Each es h => run_each (fun k c st => Render f T (Some j) (Some k) h true (push st (Some c))) (fun st e => Render f T e key skip section st) es st None
  end.

Section T.
Variable P0 : list piece.
Notation T := (T P0).
Notation at_pos := (at_pos P0).
Hypothesis CT : is_cstr T.
Hypothesis PO : forall ps1 p ps2, P0 = ps1 ++ p :: ps2 -> piece_ok (shows ps1) p (shows ps2).

Lemma RC out p skip : RenderContent out p skip = out ++ shown skip p.
Proof. unfold RenderContent, shown. destruct skip; [rewrite app_nil_r|]; reflexivity. Qed.

(** one step of Render at a section *)
Lemma Render_section ps1 (inv : bool) lay l body lay2 c ps2 pre p f st sc key skip section : label_ok l -> has_component (lname l) -> closed (inner l) -> closed c -> Forall node_ok body ->
  at_pos pre p ps1 (PTag lay ((if inv then "^" else "#") :: inner l) :: flats body ++ PTag lay2 ("/" :: c) :: ps2) -> state_ok st sc ->
  Render (S f) T (Some (length pre)) key skip section st =
  run_plan f T (length (shows (ps1 ++ [PTag lay ((if inv then "^" else "#") :: inner l)]))) key skip section (section_plan true inv skip (find_var sc (lname l)) body)
    (push (with_out st (rout st ++ shown skip p)) (find_var sc (lname l))).
Proof.
  intros LO HC CL CC NB AP [DS [DE [ST [NE SO]]]].
  assert (SG : sigil (if inv then "^" else "#") = (if inv then TInverted else TSection, true, None)) by (destruct inv; reflexivity).
  destruct (@tag_step P0 CT PO _ _ _ _ _ _ _ _ AP SG LO CL) as [m [b [e [alone [EN [[q [q' [ET Em]]] [EA [EI [pr [LP [AP' LT]]]]]]]]]]].
  assert (LK : LookupVariable (rev sc) T (length q) (length (lname l)) = Ok (find_var sc (lname l))).
  { rewrite ET. rewrite LookupVariable_spec; [rewrite rev_involutive; reflexivity| | |exact HC].
    - intros X. apply NE. rewrite <- (rev_involutive sc), X. reflexivity.
    - rewrite ET in CT. apply is_cstr_app in CT as [_ CT']. apply is_cstr_app in CT' as [CT' _]. exact CT'. }
  set (j := length (shows (ps1 ++ [PTag lay ((if inv then "^" else "#") :: inner l)]))) in *.
  assert (SI : ShouldIterateObject (S (length T)) T j L2 R2 = Ok (iterates body)).
  { unfold j. destruct AP as [EP _]. eapply should_iterate; eauto. rewrite EP, <- app_assoc. reflexivity. }
  cbn [MustModel.Render]. rewrite DS, DE, EN. cbn [bind]. rewrite Em. cbn [mtype mbegin mend mcontent mlen].
  assert (IR : IsTagTypeRenderable (if inv then TInverted else TSection) = false) by (destruct inv; reflexivity). rewrite IR. rewrite EA. cbn [bind]. rewrite EI. cbn [bind]. rewrite RC.
  replace (rstack (with_out st (rout st ++ shown skip p))) with (rev sc) by (symmetry; exact ST). rewrite LK.
  replace (rds (with_out st (rout st ++ shown skip p))) with L2 by (symmetry; exact DS). replace (rde (with_out st (rout st ++ shown skip p))) with R2 by (symmetry; exact DE).
  set (st1 := with_out st (rout st ++ shown skip p)).
  assert (CONT : forall v, match v with JPrim _ _ => False | _ => True end -> (if (0 <? JsonLength v)%nat
     then run_each (fun k c st => Render f T (Some j) (Some k) (skip || inv) true (push st (Some c))) (fun st e => Render f T e key skip section st) (keyed v) (push st1 (find_var sc (lname l))) None
     else let* ' (ok, st, e) := Render f T (Some j) None (negb inv) true (push st1 (find_var sc (lname l))) in if ok : bool then Render f T e key skip section st else Ok (false, st, None)) =
     run_plan f T j key skip section (match elements v with [] => Once (negb inv) | es => Each es (skip || inv) end) (push st1 (find_var sc (lname l)))).
  { intros v VV. rewrite keyed_elements. destruct v as [pt x|[|x cs]|[|x kvs]]; try reflexivity. destruct VV. }
  assert (XO : forall b c : bool, xorb (negb b) c = if b then c else negb c) by (intros [] []; reflexivity).
  assert (PU : forall v, with_stack st1 (rev sc ++ [v]) = push st1 v).
  { intros v. unfold push. do 2 f_equal. symmetry. exact ST. }
  unfold section_plan. destruct inv; cbv iota; (destruct (find_var sc (lname l)) as [[[] x|cs|kvs]|] eqn:EV; cbn [bind]; rewrite ?XO, PU; try reflexivity).
  all: try exact (CONT (JArr _) Logic.I).
  all: change (rds (push st1 (Some (JObj kvs)))) with (rds st); change (rde (push st1 (Some (JObj kvs)))) with (rde st); rewrite DS, DE, SI; cbn [bind]; destruct (iterates body); [exact (CONT (JObj _) Logic.I)|reflexivity].
Qed.

Definition done_with (ps1 ps2 : list piece) (pre p : list byte) (f : nat) (st : rstate) (sc : scopes) (key : option (list byte)) (skip section : bool) (x : option (list byte * scopes)) (i : nat) : Prop :=
  match x with
  | Some (o, sc') => exists f' pre' p' st', at_pos pre' p' ps1 ps2 /\ length T - length pre' < f' /\ state_ok st' sc' /\ length sc <= length sc' /\
      rout st' ++ shown skip p' = rout st ++ shown skip p ++ o /\
      Render f T (Some i) key skip section st = Render f' T (Some (length pre')) key skip section st'
  | None => fails (Render f T (Some i) key skip section st)
  end.
Definition r_claim (n : node) : Prop := forall ps1 ps2 pre p f st sc key skip section,
  node_ok n -> at_pos pre p ps1 (flat n ++ ps2) -> length T - length pre < f -> state_ok st sc ->
  done_with (ps1 ++ flat n) ps2 pre p f st sc key skip section (sem n sc key skip) (length pre).
Lemma r_list ns : Forall r_claim ns -> forall ps1 ps2 pre p f st sc key skip section,
  Forall node_ok ns -> at_pos pre p ps1 (flats ns ++ ps2) -> length T - length pre < f -> state_ok st sc ->
  done_with (ps1 ++ flats ns) ps2 pre p f st sc key skip section (sems ns sc key skip) (length pre).
Proof.
  induction 1 as [|n ns Hn Hns IH]; intros ps1 ps2 pre p f st sc key skip section NO AP F SO; cbn [MustSpec.sems flats app] in *.
  - exists f, pre, p, st. rewrite !app_nil_r. auto 7.
  - inversion NO as [|? ? NO1 NO2]; subst. rewrite <- app_assoc in AP. specialize (Hn ps1 (flats ns ++ ps2) pre p f st sc key skip section NO1 AP F SO).
    unfold done_with in *. destruct (sem n sc key skip) as [[o sc1]|]; [|exact Hn]. destruct Hn as [f' [pre' [p' [st' [AP' [F' [SO' [LE [RO E]]]]]]]]]. rewrite E.
    specialize (IH (ps1 ++ flat n) ps2 pre' p' f' st' sc1 key skip section NO2 AP' F' SO'). destruct (sems ns sc1 key skip) as [[o2 sc2]|]; [|exact IH].
    destruct IH as [f2 [pre2 [p2 [st2 [AP2 [F2 [SO2 [LE2 [RO2 E2]]]]]]]]]. exists f2, pre2, p2, st2. rewrite <- app_assoc in AP2. split; [exact AP2|]. split; [exact F2|]. split; [exact SO2|]. split; [lia|].
    split; [|exact E2]. rewrite RO2, app_assoc, RO, <- !app_assoc. reflexivity.
Qed.
Lemma sub_render body ps1 lay c ps2 f st sc key skip : Forall r_claim body -> Forall node_ok body -> closed c ->
  P0 = ps1 ++ flats body ++ PTag lay ("/" :: c) :: ps2 -> length T - length (shows ps1) < f -> state_ok st sc ->
  match sems body sc key skip with
  | Some (o, sc') => exists st', Render f T (Some (length (shows ps1))) key skip true st = Ok (true, st', Some (length (shows (ps1 ++ flats body ++ [PTag lay ("/" :: c)])))) /\
      rout st' = rout st ++ o /\ rds st' = L2 /\ rde st' = R2 /\ rstack st' = rev (tl sc') /\ length sc <= length sc' /\ scopes_ok (tl sc')
  | None => fails (Render f T (Some (length (shows ps1))) key skip true st)
  end.
Proof.
  intros IH NB CC EP F SO. pose proof (@at_fresh P0 ps1 _ EP) as AP.
  pose proof (@r_list _ IH _ _ _ _ _ _ _ key skip true NB AP F SO) as H. unfold done_with in H. destruct (sems body sc key skip) as [[o sc']|]; [|exact H].
  destruct H as [f' [pre' [p' [st' [AP' [F' [[DS [DE [ST [NE SO']]]] [LE [RO E]]]]]]]]]. rewrite E.
  destruct (label_exists c) as [l [LO EC]]. rewrite <- EC in *. destruct (@tag_step P0 CT PO _ _ _ _ _ _ _ TSectionEnd AP' eq_refl LO CC) as [m [b [e [alone [EN [[q [q' [_ Em]]] [EA [EI _]]]]]]]].
  destruct f' as [|f']; [lia|]. cbn [MustModel.Render]. rewrite DS, DE, EN. cbn [bind]. rewrite Em. cbn [mtype mbegin mend IsTagTypeRenderable]. rewrite EA. cbn [bind]. rewrite EI. cbn [bind negb]. rewrite RC.
  replace (rstack (with_out st' (rout st' ++ shown skip p'))) with (rev sc') by (symmetry; exact ST).
  destruct sc' as [|x sc']; [congruence|]. destruct (rev (x :: sc')) as [|y r] eqn:RV; [cbn in RV; destruct (rev sc'); discriminate|]. rewrite <- RV.
  eexists. split; [rewrite <- app_assoc; reflexivity|]. cbn [with_stack with_out rout rds rde rstack]. split; [rewrite RO; destruct skip; reflexivity|]. split; [exact DS|]. split; [exact DE|]. split; [cbn [rev tl]; apply removelast_last|]. split; [exact LE|].
  intros j X. apply SO'. right. exact X.
Qed.
Lemma run_each_ok body ps1 lay c ps2 f h key skip section : Forall r_claim body -> Forall node_ok body -> closed c ->
  P0 = ps1 ++ flats body ++ PTag lay ("/" :: c) :: ps2 -> length T - length (shows ps1) < f ->
  forall es st sc e, state_ok st sc -> (forall k c, In (k, c) es -> data_ok c) ->
  let r := run_each (fun k c st => Render f T (Some (length (shows ps1))) (Some k) h true (push st (Some c))) (fun st e => Render f T e key skip section st) es st e in
  match each_sem body h es sc with
  | Some (o, sc') => exists st', state_ok st' sc' /\ length sc <= length sc' /\ rout st' = rout st ++ o /\
      r = Render f T (match es with [] => e | _ => Some (length (shows (ps1 ++ flats body ++ [PTag lay ("/" :: c)]))) end) key skip section st'
  | None => fails r
  end.
Proof.
  intros IH NB CC EP F. induction es as [|[k x] es IHes]; intros st sc e SO DO; cbn [run_each each_sem]; cbv zeta.
  - exists st. rewrite app_nil_r. auto.
  - assert (SO1 : state_ok (push st (Some x)) (Some x :: sc)). { apply push_ok; [exact SO|]. intros j [= <-]. eapply DO. left. reflexivity. }
    pose proof (@sub_render body ps1 lay c ps2 f (push st (Some x)) (Some x :: sc) (Some k) h IH NB CC EP F SO1) as H.
    destruct (sems body (Some x :: sc) (Some k) h) as [[o sc1]|].
    + destruct H as [st1 [E1 [RO [DS [DE [ST [LE SO']]]]]]]. rewrite E1. cbn [bind].
      assert (SO2 : state_ok st1 (tl sc1)). { split; [exact DS|]. split; [exact DE|]. split; [exact ST|]. split; [|exact SO']. destruct SO as [_ [_ [_ [NE _]]]]. destruct sc as [|y sc]; [congruence|]. destruct sc1 as [|a [|b sc1]]; cbn in LE; try lia. discriminate. }
      assert (LE2 : length sc <= length (tl sc1)). { destruct sc1; cbn in *; lia. }
      specialize (IHes st1 (tl sc1) (Some (length (shows (ps1 ++ flats body ++ [PTag lay ("/" :: c)])))) SO2 ltac:(intros k' c' X; eapply DO; right; exact X)). cbv zeta in IHes.
      destruct (each_sem body h es (tl sc1)) as [[o2 sc2]|]; [|exact IHes].
      destruct IHes as [st2 [SO3 [LE3 [RO2 E2]]]]. exists st2. split; [exact SO3|]. split; [lia|]. split; [rewrite RO2, RO, <- app_assoc; reflexivity|]. rewrite E2. destruct es; reflexivity.
    + destruct H as [H|[st' [e' H]]]; rewrite H; cbn [bind]; [left; reflexivity|right; eauto].
Qed.
Lemma r_node n : r_claim n.
Proof.
  induction n as [s|k l|lay s|inv lay l body lay2 c IH] using node_ind'; intros ps1 ps2 pre p f st sc key skip section NO AP F SO.
  - cbn [MustSpec.sem flat] in *. exists f, pre, (p ++ s), st. split; [apply (at_text PO AP)|]. split; [exact F|]. split; [exact SO|]. split; [lia|]. split; [|reflexivity]. destruct skip; cbn [shown]; [rewrite !app_nil_r|]; reflexivity.
  - cbn [flat app] in *. destruct NO as [LO [HN CL]]. destruct (@var_step P0 PO _ _ _ _ _ _ AP LO CL) as [m [b [e [EN [[q [q' [ET Em]]] [TX [EE [EB LE]]]]]]]].
    assert (AP2 : at_pos (shows (ps1 ++ [PVar (var_text k l)])) [] (ps1 ++ [PVar (var_text k l)]) ps2) by (apply at_fresh; destruct AP as [AP _]; rewrite <- app_assoc; exact AP).
    pose proof (at_len PO AP2) as LA. rewrite <- EE in LA. destruct f as [|f]; [lia|]. pose proof SO as [DS [DE [ST [NE SCO]]]].
    assert (CN : is_cstr (lname l)). { rewrite ET in CT. apply is_cstr_app in CT as [_ CT']. apply is_cstr_app in CT' as [CT' _]. exact CT'. }
    assert (RE : Render (S f) T (Some (length pre)) key skip section st =
       let st1 := with_out st (rout st ++ shown skip p) in
       if skip then Render f T (Some e) key skip section st1
       else if (0 <? length (lname l))%nat then
         let* ' (out, ok) := RenderVariable real_text (rout st1) T (length q) (length (lname l)) (ty_of k) (rev sc) key in
         if ok : bool then Render f T (Some e) key skip section (with_out st1 out) else Ok (false, with_out st1 out, None)
       else Render f T (Some e) key skip section (with_out st1 (rout st1 ++ L2 ++ R2))).
    { cbn [MustModel.Render]. rewrite DS, DE, EN. cbn [bind]. rewrite Em. cbn [mtype mbegin mend mcontent mlen].
      assert (IR : IsTagTypeRenderable (ty_of k) = true) by (destruct k; reflexivity). rewrite IR. cbn [bind]. rewrite TX, RC. rewrite <- ST.
      change (rds (with_out st (rout st ++ shown skip p))) with (rds st). change (rde (with_out st (rout st ++ shown skip p))) with (rde st). change (rstack (with_out st (rout st ++ shown skip p))) with (rstack st). rewrite DS, DE. destruct k; reflexivity. }
    cbn [MustSpec.sem]. unfold done_with. rewrite RE. cbv zeta. destruct skip.
    + exists f, (shows (ps1 ++ [PVar (var_text k l)])), [], (with_out st (rout st ++ shown true p)). split; [exact AP2|]. rewrite <- EE. split; [lia|]. split; [exact SO|]. split; [lia|]. split; [|reflexivity]. cbn [shown with_out rout]. rewrite !app_nil_r. reflexivity.
    + cbn [shown]. unfold var_out. assert (CASE : lname l = [] \/ lname l <> []) by (destruct (lname l); [left; reflexivity|right; discriminate]). destruct CASE as [EL|EL].
      * rewrite EL. cbn [length Nat.ltb Nat.leb]. exists f, (shows (ps1 ++ [PVar (var_text k l)])), [], (with_out (with_out st (rout st ++ p)) (rout (with_out st (rout st ++ p)) ++ L2 ++ R2)). split; [exact AP2|]. rewrite <- EE. split; [lia|]. split; [exact SO|]. split; [lia|]. split; [|reflexivity]. cbn [shown with_out rout]. rewrite app_nil_r, <- app_assoc. reflexivity.
      * assert (HN2 : lname l = ["."] \/ has_component (lname l)) by (destruct HN as [X|X]; [congruence|exact X]).
        replace (0 <? length (lname l))%nat with true by (destruct (lname l); [congruence|reflexivity]).
        replace (match lname l with [] => Some (lit "{{}}") | _ :: _ => var_value real_text k (lname l) sc key end) with (var_value real_text k (lname l) sc key) by (destruct (lname l); [congruence|reflexivity]).
        pose proof (@RenderVariable_spec real_text (rout (with_out st (rout st ++ p))) q (lname l) q' k sc key NE SCO CN HN2) as RV. rewrite <- ET in RV.
        destruct (var_value real_text k (lname l) sc key) as [o|].
        -- rewrite RV. cbn [bind]. exists f, (shows (ps1 ++ [PVar (var_text k l)])), [], (with_out (with_out st (rout st ++ p)) (rout (with_out st (rout st ++ p)) ++ o)). split; [exact AP2|]. rewrite <- EE. split; [lia|]. split; [exact SO|]. split; [lia|]. split; [|reflexivity]. cbn [shown with_out rout]. rewrite app_nil_r, <- app_assoc. reflexivity.
        -- destruct RV as [RV|[o RV]]; rewrite RV; cbn [bind]; [left; reflexivity|right; eauto].
  - cbn [flat app MustSpec.sem] in *. destruct (label_exists s) as [l [LO <-]]. destruct (@tag_step P0 CT PO _ _ _ _ _ _ _ TComment AP eq_refl LO NO) as [m [b [e [alone [EN [[q [q' [ET Em]]] [EA [EI [pr [LP [AP' LT]]]]]]]]]]].
    assert (AP2 : at_pos (shows (ps1 ++ [PTag lay ("!" :: inner l)])) [] (ps1 ++ [PTag lay ("!" :: inner l)]) ps2) by (apply at_fresh; destruct AP as [AP _]; rewrite <- app_assoc; exact AP).
    pose proof (at_len PO AP2) as LA. pose proof (at_len2 PO AP') as [LB _]. destruct f as [|f]; [lia|]. pose proof SO as [DS [DE [ST [NE SCO]]]].
    exists f, (shows (ps1 ++ [PTag lay ("!" :: inner l)])), [], (with_out st (rout st ++ shown skip p)). split; [exact AP2|]. split; [lia|]. split; [exact SO|]. split; [lia|]. split.
    + cbn [with_out rout]. destruct skip; cbn [shown]; rewrite !app_nil_r; reflexivity.
    + cbn [MustModel.Render]. rewrite DS, DE, EN. cbn [bind]. rewrite Em. cbn [mtype mbegin mend IsTagTypeRenderable]. rewrite EA. cbn [bind]. rewrite EI. cbn [bind]. rewrite RC. reflexivity.
  - apply node_ok_section in NO as [LO [HC [CL [CC NB]]]]. rewrite flat_section in *. cbn [app] in AP. rewrite <- app_assoc in AP. cbn [app] in AP. rewrite sem_section.
    pose proof (at_len2 PO AP) as [LB _].
    set (open := PTag lay ((if inv then "^" else "#") :: inner l)) in *.
    assert (EP : P0 = (ps1 ++ [open]) ++ flats body ++ PTag lay2 ("/" :: c) :: ps2) by (destruct AP as [AP _]; rewrite <- app_assoc; exact AP).
    assert (EP2 : P0 = (ps1 ++ open :: flats body ++ [PTag lay2 ("/" :: c)]) ++ ps2) by (rewrite EP, <- !app_assoc; cbn [app]; rewrite <- app_assoc; reflexivity).
    pose proof (@at_fresh P0 _ _ EP2) as AP2. pose proof (at_len PO AP2) as LA. pose proof (@at_fresh P0 _ _ EP) as AP3. pose proof (at_len PO AP3) as LA3.
    assert (LT : length pre < length (shows (ps1 ++ [open]))).
    { rewrite shows_app, app_length. unfold open at 1. rewrite shows_cons, show_tag. unfold braces. rewrite !app_length. cbn. lia. }
    assert (LT2 : length (shows (ps1 ++ [open])) <= length (shows (ps1 ++ open :: flats body ++ [PTag lay2 ("/" :: c)]))).
    { change (open :: flats body ++ [PTag lay2 ("/" :: c)]) with ([open] ++ flats body ++ [PTag lay2 ("/" :: c)]). rewrite app_assoc, (shows_app (ps1 ++ [open])), app_length. lia. }
    assert (EPOS : (ps1 ++ [open]) ++ flats body ++ [PTag lay2 ("/" :: c)] = ps1 ++ open :: flats body ++ [PTag lay2 ("/" :: c)]) by (rewrite <- app_assoc; reflexivity).
    destruct f as [|f]; [lia|]. unfold done_with. rewrite (@Render_section ps1 inv lay l body lay2 c ps2 pre p f st sc key skip section LO HC CL CC NB AP SO). fold open.
    set (v := find_var sc (lname l)). set (st1 := with_out st (rout st ++ shown skip p)).
    assert (SO1 : state_ok (push st1 v) (v :: sc)). { apply push_ok; [exact SO|]. intros j EV. destruct SO as [_ [_ [_ [_ SO]]]]. exact (@find_var_ok _ _ _ SO EV). }
    assert (F1 : length T - length (shows (ps1 ++ [open])) < f) by lia.
    destruct (section_plan true inv skip v body) as [h|es h|] eqn:PL; cbn [run_plan].
    + pose proof (@sub_render body _ lay2 c ps2 f (push st1 v) (v :: sc) None h IH NB CC EP F1 SO1) as H. destruct (sems body (v :: sc) None h) as [[o sc1]|].
      * destruct H as [st2 [E1 [RO [DS [DE [ST [LE SO']]]]]]]. rewrite E1. cbn [bind]. rewrite EPOS. exists f, (shows (ps1 ++ open :: flats body ++ [PTag lay2 ("/" :: c)])), [], st2.
        split; [exact AP2|]. split; [lia|]. split; [|split; [destruct sc1; cbn in *; lia|split; [|reflexivity]]].
        -- split; [exact DS|]. split; [exact DE|]. split; [exact ST|]. split; [|exact SO']. destruct SO as [_ [_ [_ [NE _]]]]. destruct sc as [|y sc]; [congruence|]. destruct sc1 as [|a [|b sc1]]; cbn in LE; try lia. discriminate.
        -- rewrite RO. cbn [push with_stack rout]. unfold st1. cbn [with_out rout]. destruct skip; cbn [shown]; rewrite ?app_nil_r, <- ?app_assoc; reflexivity.
      * destruct H as [H|[st' [e' H]]]; rewrite H; cbn [bind]; [left; reflexivity|right; eauto].
    + assert (DO : forall k c, In (k, c) es -> data_ok c).
      { intros k0 c0 X. unfold section_plan in PL. destruct v as [j|] eqn:EV; [|discriminate]. assert (DJ : data_ok j) by (destruct SO as [_ [_ [_ [_ SO]]]]; exact (@find_var_ok _ _ _ SO EV)).
        assert (EL : es = elements j).
        { destruct j as [[] x|cs|kvs]; try discriminate; [|destruct (iterates body); [|discriminate]]; match type of PL with match elements ?y with _ => _ end = _ => destruct (elements y) eqn:EE; [discriminate|] end; injection PL as <- _; reflexivity. }
        subst es. eapply elements_ok; eauto. }
      assert (EN : es <> []).
      { intros ->. unfold section_plan in PL. destruct v as [[[] x|cs|kvs]|]; try discriminate; [|destruct (iterates body); [|discriminate]]; match type of PL with match elements ?y with _ => _ end = _ => destruct (elements y); discriminate end. }
      pose proof (@run_each_ok body _ lay2 c ps2 f h key skip section IH NB CC EP F1 es (push st1 v) (v :: sc) None SO1 DO) as H. cbv zeta in H.
      destruct (each_sem body h es (v :: sc)) as [[o sc1]|]; [|exact H].
      destruct H as [st2 [SO2 [LE [RO E]]]]. rewrite E. destruct es as [|x es]; [congruence|]. rewrite EPOS. exists f, (shows (ps1 ++ open :: flats body ++ [PTag lay2 ("/" :: c)])), [], st2.
      split; [exact AP2|]. split; [lia|]. split; [exact SO2|]. split; [cbn in LE; lia|split; [|reflexivity]].
      rewrite RO. cbn [push with_stack rout]. unfold st1. cbn [with_out rout]. destruct skip; cbn [shown]; rewrite ?app_nil_r, <- ?app_assoc; reflexivity.
    + right. eauto.
Qed.
End T.
End M.

(** a printed template renders to its meaning *)
Theorem must_exact real_text ns data out : template_ok ns -> data_ok data ->
  match meaning real_text true ns data with
  | Some o => MustacheRender real_text out (print ns) data = Ok (true, out ++ o)
  | None => MustacheRender real_text out (print ns) data = Abort \/ exists o, MustacheRender real_text out (print ns) data = Ok (false, o)
  end.
Proof.
  intros [CT [NO PO]] DO. assert (IH : Forall (r_claim real_text (flats ns)) ns) by (apply Forall_forall; intros n _; apply r_node; [exact CT|exact PO]).
  set (st0 := mkR out [Some data] (lit "{{") (lit "}}")).
  assert (SO : state_ok st0 [Some data]).
  { split; [reflexivity|]. split; [reflexivity|]. split; [reflexivity|]. split; [discriminate|]. intros j [[= <-]|[]]. exact DO. }
  assert (AP : at_pos (flats ns) [] [] [] (flats ns ++ [])) by (split; [rewrite app_nil_r; reflexivity|split; [reflexivity|apply free_nil]]).
  assert (F : length (T (flats ns)) - @length byte [] < S (length (T (flats ns)))) by (cbn [length]; lia).
  pose proof (@r_list real_text (flats ns) PO ns IH [] [] [] [] _ st0 [Some data] None false false NO AP F SO) as H. unfold done_with in H. cbn [length app] in H.
  unfold meaning, MustacheRender. change (print ns) with (T (flats ns)). fold st0.
  destruct (sems real_text true ns [Some data] None false) as [[o sc']|].
  - destruct H as [f' [pre' [p' [st' [AP' [F' [[DS [DE _]] [_ [RO E]]]]]]]]]. rewrite E. destruct f' as [|f']; [lia|].
    destruct (@end_step (flats ns) _ _ _ AP') as [EN SK]. cbn [Render]. rewrite DS, DE, EN. cbn [bind mtype IsTagTypeRenderable mbegin mend]. rewrite SK. cbn [RenderContent]. cbn [shown] in RO. rewrite RO. reflexivity.
  - destruct H as [H|[st' [e H]]]; rewrite H; cbn [bind]; [left; reflexivity|right; eauto].
Qed.
