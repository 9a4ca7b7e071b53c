(** Operations on forests. *)
From Coq Require Import Permutation.
From Verif Require Import Prelude PreludeFacts Str StrFacts Libc NumModel JsonModel JsonHeapModel JsonHeapSpec JsonHeapFacts JsonHeapProofs JsonHeapProofs2.
Set Implicit Arguments.
Local Notation tkey := JsonHeapSpec.key.

Lemma forest_perm h F G : forest h F -> Permutation F G -> forest h G.
Proof.
  rewrite !forest_raw. intros [R W] P. split; [|now rewrite <- P]. eapply raw_perm; [exact R| |]; now apply Permutation_flat_map.
Qed.
Lemma content_static F p s : content F p s <-> static_or (flat_map strings F) p s. Proof. reflexivity. Qed.
Lemma static_perm S S' p k : Permutation S S' -> static_or S p k -> static_or S' p k.
Proof. intros P. apply static_incl. intros x. now apply Permutation_in. Qed.
(** the string is not one of these *)
Definition outside (S : list (nat * list byte)) (p : sptr) : Prop := match p with Static _ => True | Block n => ~ In n (map fst S) end.
Lemma static_outside S S' p k : static_or (S ++ S') p k -> outside S p -> static_or S' p k.
Proof. destruct p as [s|n]; cbn; [auto|]. intros I N. apply in_app_or in I as [I|I]; [|exact I]. destruct N. now apply (in_map fst) in I. Qed.

(** ** creating *)
Lemma create_container h F k : forest h F -> forest (fst (JsonElementCreateContainer h k)) (TC (snd (JsonElementCreateContainer h k)) None k [] :: F).
Proof.
  rewrite !forest_raw. intros [R W]. split; [|constructor; [destruct k; constructor; constructor|exact W]]. unfold JsonElementCreateContainer. cbn [flat_map nodes strings olist option_map app map snd new_elem].
  exact (raw_new_elem (mkElem None (Cont k [])) R).
Qed.
Lemma create_block h F t s h1 n : forest h F -> new_str h s = (h1, n) -> t <> PBool -> t <> PNull ->
  forest (fst (JsonElementCreatePrimitive h1 t (Block n))) (TP (snd (JsonElementCreatePrimitive h1 t (Block n))) None t (Some n) s :: F).
Proof.
  rewrite !forest_raw. intros [R W] NS N1 N2. split; [|constructor; [constructor; split; [discriminate|intros [->| ->]; congruence]|exact W]].
  pose proof (raw_new_str s R) as R1. rewrite NS in R1. cbn [fst] in R1. unfold new_str in NS. injection NS as H1 <-. cbn [flat_map nodes strings olist option_map app map pointer].
  unfold JsonElementCreatePrimitive. exact (raw_new_elem (mkElem None (Prim t (Block (h_next h)))) R1).
Qed.
Lemma create_constant h F t s : forest h F -> t = PBool \/ t = PNull ->
  forest (fst (JsonElementCreatePrimitive h t (Static s))) (TP (snd (JsonElementCreatePrimitive h t (Static s))) None t None s :: F).
Proof.
  rewrite !forest_raw. intros [R W] T. split; [|constructor; [constructor; tauto|exact W]]. cbn [flat_map nodes strings olist option_map app map pointer]. unfold JsonElementCreatePrimitive. cbn [snd new_elem]. exact (raw_new_elem (mkElem None (Prim t (Static s))) R).
Qed.
(** a new element of this value *)
Definition created (F : list tree) (r : heap * nat) (j : json) : Prop := exists t, snd r = addr t /\ name t = None /\ value t = j /\ forest (fst r) (t :: F).
Lemma created_string h F p s : forest h F -> content F p s -> exists r, JsonStringCreate h p = Ok r /\ created F r (JsonModel.JsonStringCreate s).
Proof.
  intros FO C. unfold JsonStringCreate. apply forest_raw in FO as FR. destruct FR as [R _]. rewrite (raw_content p s R C). cbn [bind]. destruct (new_str h s) as [h1 n] eqn:NS. eexists. split; [reflexivity|].
  eexists. split; [|split; [|split; [|apply (create_block FO NS); discriminate]]]; reflexivity.
Qed.
Ltac newblock := match goal with |- created ?F (let (_, _) := new_str ?h ?s in _) _ => destruct (new_str h s) as [h1 n] eqn:NS; eexists; split; [|split; [|split; [|eapply create_block; [eassumption|exact NS|discriminate|discriminate]]]]; reflexivity end.
Lemma created_integer h F z : forest h F -> created F (JsonIntegerCreate h z) (JsonModel.JsonIntegerCreate z).
Proof. intros FO. unfold JsonIntegerCreate. newblock. Qed.
Lemma created_integer64 h F z : forest h F -> created F (JsonIntegerCreate64 h z) (JsonModel.JsonIntegerCreate64 z).
Proof. intros FO. unfold JsonIntegerCreate64. newblock. Qed.
Lemma created_real h F s : forest h F -> created F (JsonRealCreate h s) (JsonModel.JsonRealCreate s).
Proof. intros FO. unfold JsonRealCreate. newblock. Qed.
Lemma created_bool h F b : forest h F -> created F (JsonBoolCreate h b) (JsonModel.JsonBoolCreate b).
Proof. intros FO. unfold JsonBoolCreate. eexists. split; [|split; [|split; [|apply create_constant; [exact FO|auto]]]]; reflexivity. Qed.
Lemma created_null h F : forest h F -> created F (JsonNullCreate h) JsonModel.JsonNullCreate.
Proof. intros FO. unfold JsonNullCreate. eexists. split; [|split; [|split; [|apply create_constant; [exact FO|auto]]]]; reflexivity. Qed.
Lemma created_object h F : forest h F -> created F (JsonObjectCreate h) (JObj []).
Proof. intros FO. eexists. split; [|split; [|split; [|apply create_container; exact FO]]]; reflexivity. Qed.
Lemma created_array h F : forest h F -> created F (JsonArrayCreate h) (JArr []).
Proof. intros FO. eexists. split; [|split; [|split; [|apply create_container; exact FO]]]; reflexivity. Qed.

(** ** containers in a forest *)
Lemma members_wf a n ts : wf (TC a n KObject ts) <-> members ts.
Proof. split; [intros W; inversion W; subst; split; auto|intros (A & B & C); now constructor]. Qed.
Section Container.
  Variables (K : context) (a : nat) (n : option (nat * list byte)).
  Lemma fill_raw h F k ts : forest h (F ++ fill K (TC a n k ts)) <->
    raw h ((a, mkElem (option_map fst n) (Cont k (map addr ts))) :: flat_map nodes ts ++ cnodes K a ++ flat_map nodes F) (flat_map strings ts ++ olist n ++ cstrings K ++ flat_map strings F) /\ Forall wf (F ++ fill K (TC a n k ts)).
  Proof.
    rewrite forest_raw, !flat_map_app. pose proof (fill_nodes K (TC a n k ts)) as P. pose proof (fill_strings K (TC a n k ts)) as Q. cbn [nodes strings addr] in P, Q.
    split; intros [R W]; (split; [|exact W]); (eapply raw_perm; [exact R| |]); rewrite ?P, ?Q; perm.
  Qed.
  Lemma fill_members F ts : Forall wf (F ++ fill K (TC a n KObject ts)) -> members ts.
  Proof. intros W. apply Forall_app in W as [_ W]. apply fill_wf_in in W. now apply members_wf in W. Qed.
  Lemma fill_children F k ts : Forall wf (F ++ fill K (TC a n k ts)) -> Forall wf ts.
  Proof. intros W. apply Forall_app in W as [_ W]. apply fill_wf_in in W. inversion W; assumption. Qed.
  Lemma fill_array F G ts ts' : Forall wf (F ++ fill K (TC a n KArray ts)) -> Forall wf G -> Forall wf ts' -> Forall wf (G ++ fill K (TC a n KArray ts')).
  Proof. intros W WG W'. apply Forall_app in W as [_ W]. apply Forall_app. split; [exact WG|]. revert W. apply fill_wf; [reflexivity|]. intros _. now constructor. Qed.
  Lemma fill_object F G ts ts' : Forall wf (F ++ fill K (TC a n KObject ts)) -> Forall wf G -> members ts' -> Forall wf (G ++ fill K (TC a n KObject ts')).
  Proof. intros W WG W'. apply Forall_app in W as [_ W]. apply Forall_app. split; [exact WG|]. revert W. apply fill_wf; [reflexivity|]. intros _. now apply members_wf. Qed.

  (** JsonObjectAppendElement *)
  Lemma object_append h F e ts p k : forest h (e :: F ++ fill K (TC a n KObject ts)) -> content (e :: F ++ fill K (TC a n KObject ts)) p k ->
    outside (olist (name e) ++ flat_map strings (named k ts)) p ->
    exists h' m, JsonObjectAppendElement h a p (addr e) = Ok h' /\ forest h' (F ++ fill K (TC a n KObject (others k ts ++ [renamed (Some (m, k)) e]))).
  Proof.
    intros FO C O. change (e :: F ++ fill K (TC a n KObject ts)) with ((e :: F) ++ fill K (TC a n KObject ts)) in FO. apply (fill_raw h (e :: F) KObject ts) in FO as [R W]. pose proof (fill_members _ _ W) as MB. pose proof (others_members k MB) as [OM ON].
    assert (C1 : static_or (flat_map strings ts ++ olist n ++ cstrings K ++ flat_map strings (e :: F)) p k).
    { revert C. unfold content. cbn [flat_map]. rewrite flat_map_app. pose proof (fill_strings K (TC a n KObject ts)) as Q. cbn [strings] in Q. fold (static_or (strings e ++ flat_map strings F ++ flat_map strings (fill K (TC a n KObject ts))) p k). apply static_perm. rewrite Q. perm. }
    unfold JsonObjectAppendElement. destruct (RemoveKey_spec _ _ _ _ MB C1 R) as (h1 & -> & R1 & N1). cbn [bind]. cbn [flat_map] in R1. rewrite (nodes_head e), (strings_head e) in R1.
    assert (R1' : raw h1 ((addr e, mkElem (option_map fst (name e)) (hbody e)) :: (a, mkElem (option_map fst n) (Cont KObject (map addr (others k ts)))) :: flat_map nodes (others k ts) ++ cnodes K a ++ below e ++ flat_map nodes F)
        (olist (name e) ++ flat_map strings (others k ts) ++ olist n ++ cstrings K ++ sbelow e ++ flat_map strings F)) by (eapply raw_perm; [exact R1|perm|perm]).
    assert (C2 : static_or (flat_map strings (others k ts) ++ olist n ++ cstrings K ++ sbelow e ++ flat_map strings F) p k).
    { apply (static_outside (olist (name e) ++ flat_map strings (named k ts))); [|exact O]. revert C1. apply static_perm. cbn [flat_map]. rewrite (strings_head e).
      destruct MB as (_ & _ & ND). destruct (pick k ts ND) as [(-> & -> & _)|(l & t & r & -> & _ & -> & -> & _)]; cbn [flat_map]; [perm|]. rewrite !flat_map_app. cbn [flat_map]. perm. }
    destruct (set_name_spec _ _ _ _ R1' C2) as (h2 & m & E2 & R2 & M2 & N2). rewrite E2. cbn [bind].
    rewrite (raw_children _ _ _ _ R2 (or_intror (or_introl eq_refl))). cbn [bind].
    destruct (@raw_set_children h2 ((addr e, mkElem (Some m) (hbody e)) :: flat_map nodes (others k ts) ++ cnodes K a ++ below e ++ flat_map nodes F) ((m, k) :: flat_map strings (others k ts) ++ olist n ++ cstrings K ++ sbelow e ++ flat_map strings F) a (option_map fst n) KObject (map addr (others k ts)) (map addr (others k ts) ++ [addr e])) as (h3 & E3 & R3 & N3); [eapply raw_perm; [exact R2|perm|reflexivity]|].
    exists h3, m. split; [exact E3|]. apply fill_raw. split.
    - rewrite map_app, !flat_map_app. cbn [map flat_map]. rewrite addr_renamed, nodes_renamed, strings_renamed. cbn [option_map fst olist]. eapply raw_perm; [exact R3|perm|perm].
    - inversion W as [|? ? We WF]; subst. apply Forall_app in WF as [WF WK]. apply (@fill_object (e :: F) F ts); [exact W|exact WF|]. destruct OM as (O1 & O2 & O3). split; [|split].
      + apply Forall_app. split; [exact O1|]. constructor; [now apply wf_renamed|constructor].
      + apply Forall_app. split; [exact O2|]. constructor; [rewrite name_renamed; discriminate|constructor].
      + rewrite map_app. cbn [map]. unfold tkey at 2. rewrite name_renamed. apply (Permutation_NoDup (l := k :: map tkey (others k ts))); [perm|]. now constructor.
  Qed.
  (** JsonArrayAppendElement *)
  Lemma array_append h F e ts : forest h (e :: F ++ fill K (TC a n KArray ts)) ->
    exists h', JsonArrayAppendElement h a (addr e) = Ok h' /\ forest h' (F ++ fill K (TC a n KArray (ts ++ [e]))).
  Proof.
    intros FO. apply (fill_raw h (e :: F) KArray ts) in FO as [R W]. unfold JsonArrayAppendElement. rewrite (raw_children _ _ _ _ R (or_introl eq_refl)). cbn [bind].
    destruct (raw_set_children (map addr ts ++ [addr e]) R) as (h1 & E1 & R1 & N1). exists h1. split; [exact E1|]. apply fill_raw. split.
    - rewrite map_app, !flat_map_app. cbn [map flat_map] in *. eapply raw_perm; [exact R1|perm|perm].
    - inversion W as [|? ? We WF]; subst. pose proof (fill_children _ _ _ W) as WT. apply Forall_app in WF as [WF WK]. apply (@fill_array (e :: F) F ts); [exact W|exact WF|]. apply Forall_app. auto.
  Qed.
  (** JsonArrayExtend *)
  Lemma array_extend h F b nb us ts : forest h (TC b nb KArray us :: F ++ fill K (TC a n KArray ts)) ->
    exists h', JsonArrayExtend h a b = Ok h' /\ forest h' (F ++ fill K (TC a n KArray (ts ++ us))).
  Proof.
    intros FO. apply (fill_raw h (TC b nb KArray us :: F) KArray ts) in FO as [R W]. unfold JsonArrayExtend. cbn [flat_map nodes strings] in R.
    assert (AB : (a =? b)%nat = false).
    { apply Nat.eqb_neq. intros ->. destruct R as ([ND _] & _). cbn [map fst] in ND. inversion ND as [|? ? NI _]; subst. apply NI. rewrite !map_app. cbn [map fst app]. apply in_or_app. right. apply in_or_app. right. now left. }
    rewrite AB. assert (IB : In (b, mkElem (option_map fst nb) (Cont KArray (map addr us))) ((a, mkElem (option_map fst n) (Cont KArray (map addr ts))) :: flat_map nodes ts ++ cnodes K a ++ ((b, mkElem (option_map fst nb) (Cont KArray (map addr us))) :: flat_map nodes us) ++ flat_map nodes F)).
    { right. apply in_or_app. right. apply in_or_app. right. now left. }
    rewrite (raw_children _ _ _ _ R (or_introl eq_refl)). cbn [bind]. rewrite (raw_children _ _ _ _ R IB). cbn [bind].
    destruct (raw_set_children (map addr ts ++ map addr us) R) as (h1 & E1 & R1 & N1). rewrite E1. cbn [bind].
    assert (R1' : raw h1 ((b, mkElem (option_map fst nb) (Cont KArray (map addr us))) :: (a, mkElem (option_map fst n) (Cont KArray (map addr ts ++ map addr us))) :: flat_map nodes ts ++ cnodes K a ++ flat_map nodes us ++ flat_map nodes F)
      (olist nb ++ flat_map strings ts ++ olist n ++ cstrings K ++ flat_map strings us ++ flat_map strings F)) by (eapply raw_perm; [exact R1|perm|perm]).
    rewrite (raw_load _ _ R1' (or_introl eq_refl)). cbn [bind e_name].
    destruct (raw_free_name _ _ R1') as (h2 & E2 & R2 & N2). match goal with |- context[bind ?A _] => replace A with (Ok h2) by (symmetry; exact E2) end. cbn [bind].
    destruct (raw_free_elem R2) as (h3 & E3 & R3 & N3). exists h3. split; [exact E3|]. apply fill_raw. split.
    - rewrite map_app, !flat_map_app. eapply raw_perm; [exact R3|perm|perm].
    - inversion W as [|? ? Wb WF]; subst. pose proof (fill_children _ _ _ W) as WT. apply Forall_app in WF as [WF WK]. apply (@fill_array (TC b nb KArray us :: F) F ts); [exact W|exact WF|]. apply Forall_app. split; [exact WT|]. now inversion Wb.
  Qed.
  (** JsonObjectRemoveKey *)
  Lemma object_remove h F ts p k : forest h (F ++ fill K (TC a n KObject ts)) -> content (F ++ fill K (TC a n KObject ts)) p k ->
    exists h', JsonObjectRemoveKey h a p = Ok (h', negb (match named k ts with [] => true | _ => false end)) /\ forest h' (F ++ fill K (TC a n KObject (others k ts))).
  Proof.
    intros FO C. apply fill_raw in FO as [R W]. pose proof (fill_members _ _ W) as MB. pose proof (others_members k MB) as [OM ON].
    assert (C1 : static_or (flat_map strings ts ++ olist n ++ cstrings K ++ flat_map strings F) p k).
    { revert C. unfold content. rewrite flat_map_app. pose proof (fill_strings K (TC a n KObject ts)) as Q. cbn [strings] in Q. fold (static_or (flat_map strings F ++ flat_map strings (fill K (TC a n KObject ts))) p k). apply static_perm. rewrite Q. perm. }
    destruct (RemoveKey_spec _ _ _ _ MB C1 R) as (h1 & E1 & R1 & N1). exists h1. split; [exact E1|]. apply fill_raw. split; [exact R1|]. apply Forall_app in W as W2. destruct W2 as [WF _]. now apply (@fill_object F F ts).
  Qed.
  (** JsonObjectDetachKey *)
  Lemma object_detach h F ts p k : forest h (F ++ fill K (TC a n KObject ts)) -> content (F ++ fill K (TC a n KObject ts)) p k ->
    exists h', JsonObjectDetachKey h a p = Ok (h', option_map addr (hd_error (named k ts))) /\ forest h' (named k ts ++ F ++ fill K (TC a n KObject (others k ts))).
  Proof.
    intros FO C. apply fill_raw in FO as [R W]. pose proof (fill_members _ _ W) as MB. pose proof (others_members k MB) as [OM ON].
    assert (C1 : static_or (flat_map strings ts ++ olist n ++ cstrings K ++ flat_map strings F) p k).
    { revert C. unfold content. rewrite flat_map_app. pose proof (fill_strings K (TC a n KObject ts)) as Q. cbn [strings] in Q. fold (static_or (flat_map strings F ++ flat_map strings (fill K (TC a n KObject ts))) p k). apply static_perm. rewrite Q. perm. }
    destruct (DetachKey_spec _ _ _ _ MB C1 R) as (h1 & E1 & R1 & N1). exists h1. split; [exact E1|]. rewrite app_assoc. apply fill_raw. split; [rewrite !flat_map_app; eapply raw_perm; [exact R1|perm|perm]|].
    apply Forall_app in W as W2. destruct W2 as [WF _]. apply (@fill_object F (named k ts ++ F) ts); [exact W| |exact OM]. apply Forall_app. split; [|exact WF]. destruct MB as (MW & _). unfold named. rewrite Forall_forall in *. intros t I. apply filter_In in I as [I _]. now apply MW.
  Qed.
  (** JsonArrayRemoveRange *)
  Lemma array_remove h F l x r start fin : start = length l -> S fin = (length l + length x)%nat -> x <> [] -> forest h (F ++ fill K (TC a n KArray (l ++ x ++ r))) ->
    exists h', JsonArrayRemoveRange h a start fin = Ok h' /\ forest h' (F ++ fill K (TC a n KArray (l ++ r))).
  Proof.
    intros ES EF NX FO. apply fill_raw in FO as [R W]. unfold JsonArrayRemoveRange. rewrite (raw_children _ _ _ _ R (or_introl eq_refl)). cbn [bind]. pose proof (fill_children _ _ _ W) as WT. apply Forall_app in WT as [W1 WT]. apply Forall_app in WT as [W2 W3].
    destruct (@remove_range_spec h (cnodes K a ++ flat_map nodes F) (olist n ++ cstrings K ++ flat_map strings F) a (option_map fst n) KArray (l ++ x ++ r) l x r start fin eq_refl ES EF NX W2 R) as (h1 & E1 & R1 & N1).
    exists h1. split; [exact E1|]. apply fill_raw. split; [exact R1|]. apply Forall_app in W as W4. destruct W4 as [WF _]. apply (@fill_array F F (l ++ x ++ r)); [exact W|exact WF|]. apply Forall_app. auto.
  Qed.
  (** JsonContainerReverse *)
  Lemma array_reverse h F ts : forest h (F ++ fill K (TC a n KArray ts)) -> exists h', JsonContainerReverse h a = Ok h' /\ forest h' (F ++ fill K (TC a n KArray (rev ts))).
  Proof.
    intros FO. apply fill_raw in FO as [R W]. unfold JsonContainerReverse. rewrite (raw_children _ _ _ _ R (or_introl eq_refl)). cbn [bind].
    destruct (raw_set_children (rev (map addr ts)) R) as (h1 & E1 & R1 & N1). exists h1. split; [exact E1|]. apply fill_raw. split.
    - rewrite map_rev. eapply raw_perm; [exact R1| |].
      + constructor. apply Permutation_app_tail. apply Permutation_flat_map. apply Permutation_rev.
      + apply Permutation_app_tail. apply Permutation_flat_map. apply Permutation_rev.
    - apply Forall_app in W as W4. destruct W4 as [WF _]. apply (@fill_array F F ts); [exact W|exact WF|]. apply Forall_rev. apply (fill_children _ _ _ W).
  Qed.
End Container.
(** JsonDestroy *)
Lemma forest_destroy h e F : forest h (e :: F) -> exists h', JsonDestroy h (Some (addr e)) = Ok h' /\ forest h' F.
Proof.
  rewrite forest_raw. intros [R W]. inversion W; subst. cbn [flat_map] in R. destruct (@Destroy_spec e h (flat_map nodes F) (flat_map strings F)) as (h1 & E1 & R1 & _); [assumption|exact R|]. exists h1. split; [exact E1|]. apply forest_raw. auto.
Qed.
