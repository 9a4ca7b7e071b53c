(** Rendering a printed template gives its meaning. *)
From Verif Require Import Prelude PreludeFacts Str StrFacts Libc LibcFacts EditModel NumModel JsonModel JsonMapProofs MustModel MustSpec MustProofs MustTags MustEval.
Set Implicit Arguments.
Local Open Scope char_scope.

Lemma shows_app a b : shows (a ++ b) = shows a ++ shows b.
Proof. unfold shows. rewrite map_app, concat_app. reflexivity. Qed.
Lemma shows_cons x b : shows (x :: b) = show x ++ shows b.
Proof. reflexivity. Qed.
Definition ind_of (lay : layout) : list byte := match lay with Inline => [] | OwnLine i _ _ => i end.
Definition aft_of (lay : layout) : list byte := match lay with Inline => [] | OwnLine _ tr nl => tr ++ (if nl : bool then [B_n] else []) end.
Lemma show_tag lay c : show (PTag lay c) = ind_of lay ++ braces c ++ aft_of lay.
Proof. destruct lay; cbn [show ind_of aft_of app]; [rewrite app_nil_r|]; reflexivity. Qed.

Section T.
Variable P0 : list piece.
Definition T : list byte := shows P0.
Hypothesis CT : is_cstr T.
Hypothesis PO : forall ps1 p ps2, P0 = ps1 ++ p :: ps2 -> piece_ok (shows ps1) p (shows ps2).

(** at [pre], the pieces [ps1] are done except for the text [p] *)
Definition at_pos (pre p : list byte) (ps1 ps2 : list piece) : Prop :=
  P0 = ps1 ++ ps2 /\ pre ++ p = shows ps1 /\ free_of L2 p (shows ps2).
Lemma at_T pre p ps1 ps2 : at_pos pre p ps1 ps2 -> T = pre ++ p ++ shows ps2.
Proof. intros [EP [E _]]. unfold T. rewrite EP, shows_app, <- E, <- app_assoc. reflexivity. Qed.

Lemma lay_no_brace ps1 lay c ps2 : P0 = ps1 ++ PTag lay c :: ps2 -> ~ In "{" (ind_of lay) /\ ~ In "{" (aft_of lay).
Proof.
  intros E. specialize (PO _ _ _ E). cbn [piece_ok] in PO. destruct lay as [|i tr nl]; cbn [ind_of aft_of]; [split; intros []|].
  destruct PO as [BI [TR _]]. split.
  - intros X. unfold blanks in BI. rewrite Forall_forall in BI. destruct (BI _ X) as [Y|Y]; discriminate Y.
  - intros X. apply in_app_or in X as [X|X].
    + unfold trailing in TR. rewrite Forall_forall in TR. destruct (TR _ X) as [[Y|Y]|Y]; discriminate Y.
    + destruct nl; [destruct X as [X|[]]; discriminate X|destruct X].
Qed.

(** the next piece is a tag that renders nothing *)
Lemma tag_step ps1 lay sg l ps2 pre p ty : at_pos pre p ps1 (PTag lay (sg :: inner l) :: ps2) -> sigil sg = (ty, true, None) -> label_ok l -> closed (inner l) ->
  exists m b e alone, NextTag T (length pre) L2 R2 = Ok m /\ found T m ty b e (lname l) /\
    IsTagStandalone T b e = Ok alone /\
    (match alone, Some b with
     | Some (lb, le), _ => if (lb <? length pre)%nat then UB else Ok (txt T (length pre) (lb - length pre), Some le)
     | None, Some b => Ok (txt T (length pre) (b - length pre), Some e)
     | None, None => Ok (skipn (length pre) T, Some e)
     end) = Ok (p, Some (length (shows (ps1 ++ [PTag lay (sg :: inner l)])))) /\
    exists pr, length pr = e /\ at_pos pr (aft_of lay) (ps1 ++ [PTag lay (sg :: inner l)]) ps2 /\ length pre < length pr.
Proof.
  intros AP SG LO CL. pose proof (at_T AP) as ET. destruct AP as [EP [E1 F]]. destruct (@lay_no_brace _ _ _ _ EP) as [NI NA].
  specialize (PO _ _ _ EP). cbn [piece_ok] in PO. set (c := sg :: inner l) in *.
  rewrite shows_cons, show_tag in ET. rewrite shows_cons, show_tag in F.
  assert (ET2 : T = pre ++ (p ++ ind_of lay) ++ braces c ++ (aft_of lay ++ shows ps2)). { rewrite ET, <- !app_assoc. reflexivity. }
  assert (F2 : free_of L2 (p ++ ind_of lay) (braces ([sg] ++ inner l) ++ (aft_of lay ++ shows ps2))).
  { apply free_app. split; [|eapply free_char; [reflexivity|exact NI]]. rewrite <- !app_assoc in F. exact F. }
  destruct (@next_plain pre (p ++ ind_of lay) [sg] l (aft_of lay ++ shows ps2) ty F2 LO CL) as [m [EN FO]]; [right; exists sg; auto|].
  change ([sg] ++ inner l) with c in EN, FO. rewrite <- ET2 in EN, FO.
  set (b := length pre + length (p ++ ind_of lay)) in *. set (e := b + length (braces c)) in *.
  assert (LS : length (shows (ps1 ++ [PTag lay c])) = e + length (aft_of lay)).
  { rewrite shows_app, shows_cons, show_tag. change (shows []) with (@nil byte). rewrite app_nil_r, !app_length, <- E1, app_length. unfold e, b. rewrite app_length. lia. }
  assert (C2 : is_cstr (aft_of lay ++ shows ps2)).
  { rewrite ET2 in CT. apply is_cstr_app in CT as [_ CT']. apply is_cstr_app in CT' as [_ CT']. apply is_cstr_app in CT' as [_ CT']. exact CT'. }
  assert (TX : txt T (length pre) (length p) = p). { rewrite ET. apply txt_at. }
  assert (REST : exists pr, length pr = e /\ at_pos pr (aft_of lay) (ps1 ++ [PTag lay c]) ps2 /\ length pre < length pr).
  { exists (pre ++ (p ++ ind_of lay) ++ braces c). assert (LE : length (pre ++ (p ++ ind_of lay) ++ braces c) = e) by (rewrite !app_length; unfold e, b; rewrite app_length; lia).
    split; [exact LE|]. split.
    - split; [rewrite EP, <- app_assoc; reflexivity|]. split; [|eapply free_char; [reflexivity|exact NA]].
      rewrite shows_app, shows_cons, show_tag, <- E1. change (shows []) with (@nil byte). rewrite app_nil_r, <- !app_assoc. reflexivity.
    - rewrite LE. unfold e, b, braces. rewrite !app_length. cbn. lia. }
  destruct lay as [|i tr nl].
  - exists m, b, e, None. split; [exact EN|]. split; [exact FO|]. cbn [ind_of aft_of app length] in *. rewrite app_nil_r in *.
    split; [|split; [|exact REST]].
    + assert (EB : b = length (pre ++ p)) by (unfold b; rewrite app_nil_r, app_length; reflexivity). assert (EE : e = length ((pre ++ p) ++ braces c)) by (unfold e; rewrite EB, (app_length (pre ++ p)); reflexivity). rewrite EB, EE.
      replace T with ((pre ++ p) ++ braces c ++ shows ps2) by (rewrite ET, <- !app_assoc; reflexivity). apply standalone_inline; [exact C2|]. rewrite E1. exact PO.
    + cbn match. rewrite LS, Nat.add_0_r. replace (b - length pre) with (length p) by (unfold b; rewrite app_nil_r; lia). rewrite TX. reflexivity.
  - destruct PO as [BI [TR [LB NL]]]. cbn [ind_of aft_of] in *.
    exists m, b, e, (Some (length (pre ++ p), e + length tr + (if nl then 1 else 0))). split; [exact EN|]. split; [exact FO|]. split; [|split; [|exact REST]].
    + replace b with (length ((pre ++ p) ++ i)) by (unfold b; rewrite !app_length; lia). replace e with (length ((pre ++ p) ++ i ++ braces c)) by (unfold e, b; rewrite !app_length; lia).
      replace T with ((pre ++ p) ++ i ++ braces c ++ tr ++ (if nl then [B_n] else []) ++ shows ps2) by (rewrite ET, <- !app_assoc; reflexivity).
      apply standalone_own; auto; [rewrite <- app_assoc in C2; exact C2|]. rewrite E1. exact LB.
    + replace (length (pre ++ p) <? length pre)%nat with false by (symmetry; apply Nat.ltb_ge; rewrite app_length; lia).
      replace (length (pre ++ p) - length pre) with (length p) by (rewrite app_length; lia). rewrite TX, LS, app_length. destruct nl; cbn [length]; do 3 f_equal; lia.
Qed.
(** the next piece is a variable *)
Lemma var_step ps1 k l ps2 pre p : at_pos pre p ps1 (PVar (var_text k l) :: ps2) -> label_ok l ->
  (match k with Escaped => closed (inner l) /\ (forall c r, inner l = c :: r -> ~ is_sigil c) | Raw => ~ In "}" (inner l) | _ => closed (inner l) end) ->
  exists m b e, NextTag T (length pre) L2 R2 = Ok m /\ found T m (ty_of k) b e (lname l) /\
    txt T (length pre) (b - length pre) = p /\ e = length (shows (ps1 ++ [PVar (var_text k l)])) /\ b = length (pre ++ p) /\ length pre < e.
Proof.
  intros AP LO CL. pose proof (at_T AP) as ET. destruct AP as [EP [E1 F]]. rewrite shows_cons in ET, F. cbn [show] in ET, F.
  assert (G : exists m, NextTag T (length pre) L2 R2 = Ok m /\ found T m (ty_of k) (length pre + length p) (length pre + length p + length (braces (var_text k l))) (lname l)).
  { rewrite ET. destruct k; cbn [var_text ty_of] in *.
    - destruct CL as [CL NS]. apply (@next_plain pre p [] l (shows ps2) TVar); auto.
    - apply next_raw; auto.
    - apply (@next_plain pre p ["&"] l (shows ps2) TUnescaped); auto. right. exists "&". auto.
    - apply (@next_plain pre p ["%"] l (shows ps2) TSerialized); auto. right. exists "%". auto.
    - apply (@next_plain pre p ["$"] l (shows ps2) TCompact); auto. right. exists "$". auto. }
  destruct G as [m [EN FO]]. exists m, (length pre + length p), (length pre + length p + length (braces (var_text k l))).
  split; [exact EN|]. split; [exact FO|]. split.
  - replace (length pre + length p - length pre) with (length p) by lia. rewrite ET. apply txt_at.
  - split; [|split; [rewrite app_length; reflexivity|unfold braces; rewrite !app_length; cbn; lia]]. rewrite shows_app, <- E1, shows_cons. cbn [show]. change (shows []) with (@nil byte). rewrite app_nil_r, !app_length. reflexivity.
Qed.
Lemma end_step ps1 pre p : at_pos pre p ps1 [] -> NextTag T (length pre) L2 R2 = Ok (mkM TNone None None 0 0) /\ skipn (length pre) T = p.
Proof.
  intros AP. pose proof (at_T AP) as ET. destruct AP as [EP [E1 F]]. cbn in ET, F. rewrite app_nil_r in ET. rewrite ET. split; [apply next_none, F|apply skipn_pre].
Qed.
End T.
