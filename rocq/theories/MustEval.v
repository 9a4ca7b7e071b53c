(** Rendering one variable tag. *)
From Verif Require Import Prelude PreludeFacts Str StrFacts Libc LibcFacts EditModel NumModel JsonModel JsonMapProofs MustModel MustSpec MustProofs MustTags.
Set Implicit Arguments.
Local Open Scope char_scope.

Definition data_ok (j : json) : Prop := json_sorted j = true /\ ints_ok j = true.
Definition scopes_ok (sc : scopes) : Prop := forall j, In (Some j) sc -> data_ok j.
Lemma get_in_any kvs k v : JsonObjectGet kvs k = Some v -> exists k', In (k', v) kvs.
Proof.
  induction kvs as [|[k' v'] r IH]; cbn [JsonObjectGet]; [discriminate|]. destruct (bytes_eqb k k').
  - intros [= ->]. exists k'. left. reflexivity.
  - intros H. destruct (IH H) as [x X]. exists x. right. exact X.
Qed.
Lemma data_ok_arr cs c : data_ok (JArr cs) -> In c cs -> data_ok c.
Proof. intros [A B] H. cbn in A, B. rewrite forallb_forall in A, B. split; auto. Qed.
Lemma data_ok_obj kvs k c : data_ok (JObj kvs) -> In (k, c) kvs -> data_ok c.
Proof.
  intros [A B] H. cbn in A, B. apply Bool.andb_true_iff in A as [A _]. rewrite forallb_forall in A, B.
  split; [exact (A _ H)|exact (B _ H)].
Qed.
Lemma member_ok j k v : data_ok j -> member j k = Some v -> data_ok v.
Proof.
  destruct j as [p x|cs|kvs]; cbn [member]; try discriminate. intros D H. apply get_in_any in H as [k' H]. exact (data_ok_obj _ _ D H).
Qed.
Lemma follow_ok path : forall j v, data_ok j -> follow j path = Some v -> data_ok v.
Proof.
  induction path as [|k path IH]; cbn [follow]; intros j v D H; [injection H as <-; exact D|].
  destruct (member j k) as [w|] eqn:E; [|discriminate]. eapply IH; [|exact H]. eapply member_ok; eauto.
Qed.
Lemma innermost_ok sc k v : scopes_ok sc -> innermost sc k = Some v -> data_ok v.
Proof.
  induction sc as [|[j|] sc IH]; cbn [innermost]; intros SO H; [discriminate| |].
  - destruct (member j k) eqn:E; [|apply IH; [|exact H]; intros x X; apply SO; right; exact X]. injection H as ->. eapply member_ok; [|exact E]. apply SO. left. reflexivity.
  - apply IH; [|exact H]. intros x X. apply SO. right. exact X.
Qed.
Lemma find_var_ok sc nm v : scopes_ok sc -> find_var sc nm = Some v -> data_ok v.
Proof.
  unfold find_var. intros SO. destruct (dotted nm) as [|k path]; [discriminate|]. destruct (innermost sc k) as [w|] eqn:E.
  - intros H. eapply follow_ok; [|exact H]. eapply innermost_ok; eauto.
  - destruct (bytes_eqb k (lit "-top-")); [|discriminate]. destruct (last sc None) as [w|] eqn:L; [|discriminate]. intros H. eapply follow_ok; [|exact H]. apply SO.
    rewrite <- L. destruct sc as [|x sc]; [discriminate|]. destruct (@exists_last _ (x :: sc)) as [a [b EE]]; [discriminate|]. rewrite EE, last_last. apply in_or_app. right. left. reflexivity.
Qed.
Lemma html_spec s : RenderHTMLContent s = html s.
Proof. induction s as [|c s IH]; [reflexivity|]. cbn [RenderHTMLContent]. rewrite IH. reflexivity. Qed.

Definition ty_of (k : kind) : tagtype := match k with Escaped => TVar | Raw | RawAmp => TUnescaped | Pretty => TSerialized | Compact => TCompact end.
Section V.
Variable real_text : list byte -> list byte.
(** the result a rendering step should have, in state with output [out] *)
Definition failed A (r : res (A * bool)) : Prop := r = Abort \/ exists o, r = Ok (o, false).
Lemma prim_spec out p v esc : (ints_ok (JPrim p v) = true) ->
  exists o, prim_text real_text esc p v = Some o /\ RenderVariablePrimitive real_text out p v esc None = Ok (out ++ o).
Proof.
  intros H. destruct p; cbn [prim_text RenderVariablePrimitive]; try (eexists; split; [reflexivity|]; rewrite ?html_spec, ?app_nil_r; reflexivity).
  cbn in H. destruct (JsonPrimitiveGetAsInteger v); try discriminate. eexists; split; reflexivity.
Qed.
Lemma RenderVariable_spec out q nm q' k sc key : sc <> [] -> scopes_ok sc -> is_cstr nm -> nm = ["."] \/ has_component nm ->
  match var_value real_text k nm sc key with
  | Some o => RenderVariable real_text out (q ++ nm ++ q') (length q) (length nm) (ty_of k) (rev sc) key = Ok (out ++ o, true)
  | None => failed (RenderVariable real_text out (q ++ nm ++ q') (length q) (length nm) (ty_of k) (rev sc) key)
  end.
Proof.
  intros NE SO C HN. unfold RenderVariable, var_value. rewrite txt_at. change (lit ".") with ["."]. change (lit "@") with ["@"].
  set (var := if bytes_eqb nm ["@"] || bytes_eqb nm ["."] then List.hd None sc else find_var sc nm).
  assert (EV : (if bytes_eqb nm ["."] || bytes_eqb nm ["@"] then Ok (last (rev sc) None) else LookupVariable (rev sc) (q ++ nm ++ q') (length q) (length nm)) = Ok var).
  { unfold var. rewrite Bool.orb_comm. destruct (bytes_eqb nm ["@"] || bytes_eqb nm ["."]) eqn:E.
    - destruct sc as [|x sc]; [congruence|]. cbn [rev List.hd]. rewrite last_last. reflexivity.
    - apply Bool.orb_false_iff in E as [E1 E2]. destruct HN as [-> |HN]; [discriminate|]. rewrite LookupVariable_spec; auto; [rewrite rev_involutive; reflexivity|].
      intros X. apply NE. rewrite <- (rev_involutive sc), X. reflexivity. }
  assert (DV : forall j, var = Some j -> data_ok j).
  { intros j. unfold var. destruct (bytes_eqb nm ["@"] || bytes_eqb nm ["."]); [|apply find_var_ok; exact SO]. destruct sc; [congruence|]. cbn. intros ->. apply SO. left. reflexivity. }
  rewrite EV. cbn [bind]. clearbody var. destruct (bytes_eqb nm ["@"]) eqn:KM.
  - destruct key as [key|]; cbn [andb].
    + destruct var as [[p v|cs|kvs]|]; cbn [RenderVariablePrimitive bind].
      * destruct k; cbn [ty_of]; rewrite ?html_spec; reflexivity.
      * destruct (DV _ eq_refl) as [DS _]. destruct k; cbn [ty_of orb]; unfold RenderVariableContainer; rewrite ?DS, ?html_spec; reflexivity.
      * destruct (DV _ eq_refl) as [DS _]. destruct k; cbn [ty_of orb]; unfold RenderVariableContainer; rewrite ?DS, ?html_spec; reflexivity.
      * rewrite app_nil_r. reflexivity.
    + right. eexists; reflexivity.
  - cbn [andb]. destruct var as [[p v|cs|kvs]|]; cbn [bind].
    + destruct (DV _ eq_refl) as [_ DI]. destruct (@prim_spec out p v (match k with Escaped => true | _ => false end) DI) as [o [E1 E2]]. rewrite E1.
      replace (match ty_of k with TVar => true | _ => false end) with (match k with Escaped => true | _ => false end) by (destruct k; reflexivity). rewrite E2. reflexivity.
    + destruct (DV _ eq_refl) as [DS _]. destruct k; cbn [ty_of orb]; unfold RenderVariableContainer; rewrite ?DS; try reflexivity; (destruct (bytes_eqb nm ["."]); [right; eexists; reflexivity|left; reflexivity]).
    + destruct (DV _ eq_refl) as [DS _]. destruct k; cbn [ty_of orb]; unfold RenderVariableContainer; rewrite ?DS; try reflexivity; (destruct (bytes_eqb nm ["."]); [right; eexists; reflexivity|left; reflexivity]).
    + rewrite app_nil_r. reflexivity.
Qed.
End V.
