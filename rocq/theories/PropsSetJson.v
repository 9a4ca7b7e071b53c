(** C122: sets of strings and JSON arrays. *)
From Verif Require Import Prelude Str StrFacts Libc LibcFacts NumModel NumProofs MapModel SetModel MapProofs SetProofs JsonModel JsonFacts JsonMapProofs PropsJsonMap MemSpec PropsNum SetJsonModel.
Set Implicit Arguments.

Section C122.
  Variable shash : list byte -> N.
  Variable real_text : list byte -> res (list byte).
  Notation sset := (set_t (list byte)).
  (** a set whose members are those of [P] (any set built by the functions of set.c, see C08 and C09) *)
  Notation is_set s P := (srep bytes_eqb shash s P).
  Notation text := (JsonPrimitiveToString real_text).

  (** what a primitive is as text *)
  Theorem C122_text_string v : text (JPrim PString v) = Ok (Some v).
  Proof. reflexivity. Qed.
  Theorem C122_text_bool b : text (JsonBoolCreate b) = Ok (Some (if b then lit "true" else lit "false")).
  Proof. destruct b; reflexivity. Qed.
  Theorem C122_text_integer z : (LONG_MIN <= z <= LONG_MAX)%Z -> text (JPrim PInt (sdec z)) = Ok (Some (sdec z)).
  Proof.
    intros R. cbn [JsonPrimitiveToString]. unfold JsonPrimitiveGetAsInteger. rewrite exit_sdec by (unfold LONG_MIN, LONG_MAX in R; lia). cbn [bind].
    destruct (@C31_StringFromLong z R) as [m [E [_ [H _]]]]. rewrite E. cbn [bind]. rewrite (proj2 (mstr_holds _ _) H). reflexivity.
  Qed.
  Theorem C122_text_null v : text (JPrim PNull v) = Ok None.
  Proof. reflexivity. Qed.

  (** The array holds each member once, as a string. *)
  Theorem C122_to_json s P : is_set s P ->
    exists l, StringSetToJson s = Ok (JArr (map (JPrim PString) l)) /\ NoDup l /\ forall x, In x l <-> P x = true.
  Proof.
    intros R. destruct (srep_iterate (bytes_equal_ok shash) R) as [l [E [M [_ D]]]]. exists l. split.
    - unfold StringSetToJson. rewrite E. cbn [bind]. do 2 f_equal.
      assert (G : forall acc, fold_left (fun arr el => arr ++ [JsonStringCreate el]) l acc = acc ++ map (JPrim PString) l).
      { clear. induction l as [|x l IH]; intros acc; cbn; [symmetry; apply app_nil_r|]. rewrite IH, <- app_assoc. reflexivity. }
      exact (G []).
    - split.
      + apply (NoDup_nth l []). intros i j I J EQ. destruct (Nat.lt_trichotomy i j) as [L|[L|L]]; [|exact L|]; exfalso.
        * specialize (D i j [] (conj L J)). rewrite EQ, bytes_eqb_refl in D. discriminate.
        * specialize (D j i [] (conj L I)). rewrite EQ, bytes_eqb_refl in D. discriminate.
      + intros x. rewrite <- M. unfold memb. rewrite existsb_exists. split.
        * intros I. exists x. split; [exact I|]. apply bytes_eqb_refl.
        * intros [y [I B]]. apply bytes_eqb_eq in B. subst y. exact I.
  Qed.

  Lemma size_zero s P : is_set s P -> exists n, SetSize s = Ok n /\ (forall t, P t = true -> n <> 0) /\ (n <> 0 -> exists t, P t = true).
  Proof.
    intros R. destruct (srep_iterate (bytes_equal_ok shash) R) as [l [_ [M [S _]]]]. exists (length l). split; [exact S|]. split.
    - intros t T. rewrite <- M in T. destruct l; [discriminate|discriminate].
    - intros N. destruct l as [|x l]; [destruct (N eq_refl)|]. exists x. rewrite <- M. cbn. rewrite bytes_eqb_refl. reflexivity.
  Qed.
  Definition is_array (j : json) : Prop := match j with JArr _ => True | _ => False end.
  Definition has_text (j : json) : Prop := exists t, text j = Ok (Some t).
  Definition text_is (k : list byte) (j : json) : bool := match text j with Ok (Some t) => bytes_eqb t k | _ => false end.
  (** the elements below an array, in order: arrays first, then texts *)
  Definition flat (js arrays prims : list json) : Prop := js = arrays ++ prims /\ Forall is_array arrays /\ Forall has_text prims.

  Lemma walk_list js : forall s P, is_set s P -> (forall j, In j js -> exists o, text j = Ok o) ->
    exists s' go, visited (Some JsonErrorVisitor) (Some VisitJsonArrayFirst) (Some (AddArrayItemToStringSet shash real_text)) js (Ok s) = (Ok s', go) /\
    if go : bool then exists arrays prims, flat js arrays prims /\ (arrays = [] \/ forall t, P t = false) /\ is_set s' (fun k => P k || existsb (text_is k) prims)
    else ~ exists arrays prims, flat js arrays prims /\ (arrays = [] \/ forall t, P t = false).
  Proof.
    induction js as [|j js IH]; intros s P R T.
    - exists s, true. split; [reflexivity|]. exists [], []. split; [split; [reflexivity|split; constructor]|]. split; [left; reflexivity|].
      eapply srep_ext; [exact R|]. intros k. cbn. symmetry. apply orb_false_r.
    - assert (TR : forall i, In i js -> exists o, text i = Ok o) by (intros i I; apply T; right; exact I).
      destruct (T j (or_introl eq_refl)) as [o TJ]. cbn [visited asked].
      assert (PR : forall t v, j = JPrim t v -> visit (Some (AddArrayItemToStringSet shash real_text)) j (Ok s) = asked (Some JsonErrorVisitor) (Some VisitJsonArrayFirst) (Some (AddArrayItemToStringSet shash real_text)) j (Ok s)) by (intros t v ->; reflexivity).
      destruct j as [ty v|cs|kvs].
      + unfold asked. unfold AddArrayItemToStringSet at 1. cbn [bind]. rewrite TJ. cbn [bind]. destruct o as [t|].
        * destruct (srep_add (bytes_equal_ok shash) t R) as [s1 [ev [E1 R1]]]. rewrite E1. cbn [bind].
          destruct (IH s1 _ R1 TR) as [s' [go [E H]]]. exists s', go. split; [exact E|]. destruct go.
          { destruct H as [arrays [prims [[EJ [FA FP]] [A RS]]]]. assert (arrays = []) as -> by (destruct A as [A|A]; [exact A|]; specialize (A t); cbn in A; rewrite bytes_eqb_refl in A; discriminate).
            exists [], (JPrim ty v :: prims). split; [split; [cbn; rewrite EJ; reflexivity|split; [constructor|constructor; [exists t; exact TJ|exact FP]]]|]. split; [left; reflexivity|].
            eapply srep_ext; [exact RS|]. intros k. cbn [existsb]. unfold text_is at 2. rewrite TJ. rewrite orb_assoc. f_equal. apply orb_comm. }
          { intros [arrays [prims [[EJ [FA FP]] A]]]. destruct arrays as [|x arrays]; [|cbn in EJ; injection EJ as <- _; inversion FA as [|? ? X _]; exact X].
            cbn in EJ. subst prims. inversion FP; subst. apply H. exists [], js. split; [split; [reflexivity|split; [constructor|assumption]]|left; reflexivity]. }
        * exists s, false. split; [reflexivity|]. intros [arrays [prims [[EJ [FA FP]] A]]].
          destruct arrays as [|x arrays]; [|cbn in EJ; injection EJ as <- _; inversion FA as [|? ? X _]; exact X].
          cbn in EJ. subst prims. inversion FP as [|? ? [t X] _]; subst. congruence.
      + unfold asked. unfold VisitJsonArrayFirst at 1. cbn [bind]. destruct (size_zero R) as [n [SZ [Z1 Z2]]]. rewrite SZ. destruct (Nat.eqb_spec n 0) as [->|NZ].
        * assert (PF : forall t, P t = false) by (intros t; destruct (P t) eqn:PT; [exfalso; exact (Z1 t PT eq_refl)|reflexivity]).
          destruct (IH s P R TR) as [s' [go [E H]]]. exists s', go. split; [exact E|]. destruct go.
          { destruct H as [arrays [prims [[EJ [FA FP]] [A RS]]]]. exists (JArr cs :: arrays), prims. split; [split; [cbn; rewrite EJ; reflexivity|split; [constructor; [exact Logic.I|exact FA]|exact FP]]|].
            split; [right; exact PF|exact RS]. }
          { intros [arrays [prims [[EJ [FA FP]] A]]]. destruct arrays as [|x arrays].
            - cbn in EJ. subst prims. inversion FP as [|? ? [t X] _]; subst. discriminate X.
            - cbn in EJ. injection EJ as <- EJ. apply H. exists arrays, prims. inversion FA; subst. split; [split; [reflexivity|split; assumption]|right; exact PF]. }
        * exists s, false. split; [reflexivity|]. intros [arrays [prims [[EJ [FA FP]] A]]]. destruct arrays as [|x arrays].
          { cbn in EJ. subst prims. inversion FP as [|? ? [t X] _]; subst. discriminate X. }
          destruct A as [A|A]; [discriminate|]. destruct (Z2 NZ) as [t PT]. rewrite A in PT. discriminate.
      + exists s, false. split; [reflexivity|]. intros [arrays [prims [[EJ [FA FP]] A]]]. destruct arrays as [|x arrays].
        * cbn in EJ. subst prims. inversion FP as [|? ? [t X] _]; subst. discriminate X.
        * cbn in EJ. injection EJ as <- _. inversion FA as [|? ? X _]. exact X.
  Qed.
  (** A set is returned exactly if below the array there are only texts, with no array behind any of them; its members are then the texts. *)
  Theorem C122_from_json cs : (forall j, In j (preorder (JArr cs)) -> exists o, text j = Ok o) ->
    exists r, JsonArrayToStringSet shash real_text (JArr cs) = Ok r /\
    match r with
    | Some s => exists arrays prims, flat (preorder (JArr cs)) arrays prims /\ is_set s (fun k => existsb (text_is k) prims) /\
                forall k, SetContains bytes_eqb shash s k = Ok (existsb (text_is k) prims)
    | None => ~ exists arrays prims, flat (preorder (JArr cs)) arrays prims
    end.
  Proof.
    intros T. unfold JsonArrayToStringSet. rewrite C67_walk_preorder.
    destruct (@walk_list (preorder (JArr cs)) (SetNew _) _ (srep_new _ _) T) as [s' [go [E H]]]. rewrite E. cbn [bind]. eexists. split; [reflexivity|]. destruct go.
    - destruct H as [arrays [prims [F [_ R]]]]. exists arrays, prims. split; [exact F|]. split; [exact R|]. intros k. exact (srep_contains (bytes_equal_ok shash) k R).
    - intros [arrays [prims F]]. apply H. exists arrays, prims. split; [exact F|]. right. reflexivity.
  Qed.
  (** in particular an array of strings *)
  Theorem C122_strings l : exists s, JsonArrayToStringSet shash real_text (JArr (map (JPrim PString) l)) = Ok (Some s) /\
    forall k, SetContains bytes_eqb shash s k = Ok (existsb (fun x => bytes_eqb x k) l).
  Proof.
    assert (PO : preorder (JArr (map (JPrim PString) l)) = [JArr (map (JPrim PString) l)] ++ map (JPrim PString) l).
    { cbn. f_equal. induction l as [|x l IH]; [reflexivity|]. cbn. rewrite IH. reflexivity. }
    assert (FL : flat (preorder (JArr (map (JPrim PString) l))) [JArr (map (JPrim PString) l)] (map (JPrim PString) l)).
    { split; [exact PO|]. split; [constructor; [exact Logic.I|constructor]|]. apply Forall_forall. intros j I. apply in_map_iff in I as [x [<- _]]. exists x. reflexivity. }
    destruct (@C122_from_json (map (JPrim PString) l)) as [r [E H]].
    { intros j I. rewrite PO in I. destruct I as [<-|I]; [exists None; reflexivity|]. apply in_map_iff in I as [x [<- _]]. exists (Some x). reflexivity. }
    destruct r as [s|]; [|exfalso; apply H; eauto]. exists s. split; [exact E|]. destruct H as [arrays [prims [[EJ [FA FP]] [_ C]]]]. intros k. rewrite C. f_equal.
    rewrite PO in EJ. destruct arrays as [|a [|b arrays]].
    - cbn in EJ. subst prims. inversion FP as [|? ? [t X] _]; subst. discriminate X.
    - cbn in EJ. injection EJ as _ <-. clear. induction l as [|x l IH]; [reflexivity|]. cbn. rewrite IH. reflexivity.
    - exfalso. cbn in EJ. injection EJ as _ EJ. destruct l as [|x l]; [discriminate|]. injection EJ as <- _. inversion FA as [|? ? _ F2]; subst. inversion F2 as [|? ? X _]; exact X.
  Qed.
  (** to JSON and back *)
  Theorem C122_round_trip s P : is_set s P -> exists j s', StringSetToJson s = Ok j /\ JsonArrayToStringSet shash real_text j = Ok (Some s') /\
    forall k, SetContains bytes_eqb shash s' k = SetContains bytes_eqb shash s k.
  Proof.
    intros R. destruct (C122_to_json R) as [l [E [_ I]]]. destruct (C122_strings l) as [s' [E' C]]. exists (JArr (map (JPrim PString) l)), s'. split; [exact E|]. split; [exact E'|].
    intros k. rewrite C, (srep_contains (bytes_equal_ok shash) k R). f_equal. destruct (P k) eqn:PK.
    - apply existsb_exists. exists k. split; [apply I; exact PK|apply bytes_eqb_refl].
    - destruct (existsb _ l) eqn:EX; [|reflexivity]. apply existsb_exists in EX as [x [IN B]]. apply bytes_eqb_eq in B. subst x. apply I in IN. congruence.
  Qed.
  Theorem C122_not_array j : ~ is_array j -> JsonArrayToStringSet shash real_text j = Ok None.
  Proof. destruct j; cbn; [reflexivity|tauto|reflexivity]. Qed.
  (** a nested array is accepted as the first element *)
  Theorem C122_nested_refuted : exists s, JsonArrayToStringSet shash real_text (JArr [JArr [JPrim PString (lit "a")]; JPrim PString (lit "b")]) = Ok (Some s) /\
    SetContains bytes_eqb shash s (lit "a") = Ok true /\ SetContains bytes_eqb shash s (lit "b") = Ok true.
  Proof.
    set (j := [JArr [JPrim PString (lit "a")]; JPrim PString (lit "b")]).
    destruct (@C122_from_json j) as [r [E H]].
    { intros x I. cbn in I. repeat (destruct I as [<-|I]; [eexists; reflexivity|]). destruct I. }
    assert (FL : flat (preorder (JArr j)) [JArr j; JArr [JPrim PString (lit "a")]] [JPrim PString (lit "a"); JPrim PString (lit "b")]).
    { split; [reflexivity|]. split; repeat constructor; eexists; reflexivity. }
    destruct r as [s|]; [|exfalso; apply H; eauto]. exists s. split; [exact E|]. destruct H as [arrays [prims [[EJ [FA FP]] [_ C]]]]. rewrite !C.
    assert (prims = [JPrim PString (lit "a"); JPrim PString (lit "b")]) as ->; [|split; reflexivity].
    cbn in EJ. destruct arrays as [|a1 [|a2 [|a3 arrays]]]; cbn in EJ.
    - subst prims. inversion FP as [|? ? [t X] _]; discriminate X.
    - injection EJ as _ <-. inversion FP as [|? ? [t X] _]; discriminate X.
    - injection EJ as _ _ <-. reflexivity.
    - injection EJ as _ _ <- _. inversion FA as [|? ? _ F2]; subst. inversion F2 as [|? ? _ F3]; subst. inversion F3 as [|? ? X _]. destruct X.
  Qed.
End C122.
Example C122_nonvacuous : exists s, JsonArrayToStringSet (fun _ => 0%N) (fun _ => Abort) (JArr [JPrim PInt (lit "7"); JPrim PBool (lit "true"); JPrim PString (lit "x")]) = Ok (Some s) /\
  SetContains bytes_eqb (fun _ => 0%N) s (lit "7") = Ok true /\ SetContains bytes_eqb (fun _ => 0%N) s (lit "false") = Ok false /\
  JsonArrayToStringSet (fun _ => 0%N) (fun _ => Abort) (JArr [JPrim PNull (lit "null")]) = Ok None.
Proof. eexists. repeat split; reflexivity. Qed.
Print Assumptions C122_text_integer.
Print Assumptions C122_to_json.
Print Assumptions C122_from_json.
Print Assumptions C122_strings.
Print Assumptions C122_round_trip.
Print Assumptions C122_not_array.
Print Assumptions C122_nested_refuted.
