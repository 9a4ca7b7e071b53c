(** Copying and reading. *)
From Coq Require Import Permutation.
From Verif Require Import Prelude PreludeFacts Str StrFacts Libc NumModel JsonModel JsonHeapModel JsonHeapSpec JsonHeapFacts JsonHeapProofs JsonHeapProofs2 JsonHeapProofs3.
Set Implicit Arguments.
Local Notation tkey := JsonHeapSpec.key.
Local Notation pair := (fun t => (tkey t, value t)).

(** ** values *)
Lemma index_value k ts : JsonModel.index_of (map pair ts) k = first_named k ts.
Proof. induction ts as [|t ts IH]; [reflexivity|]. cbn. now rewrite IH. Qed.
Lemma get_value k ts : JsonModel.JsonObjectGet (map pair ts) k = option_map value (hd_error (named k ts)).
Proof. induction ts as [|t ts IH]; [reflexivity|]. cbn. destruct (bytes_eqb k (tkey t)); [reflexivity|exact IH]. Qed.
Lemma remove_value k ts : NoDup (map tkey ts) -> JsonModel.JsonObjectRemoveKey (map pair ts) k = (negb (match named k ts with [] => true | _ => false end), map pair (others k ts)).
Proof.
  intros ND. unfold JsonModel.JsonObjectRemoveKey. rewrite index_value. destruct (pick k ts ND) as [(-> & -> & ->)|(l & t & r & -> & _ & -> & -> & ->)]; [reflexivity|]. cbn [negb]. f_equal. unfold remove_at.
  rewrite !map_app. cbn [map]. rewrite firstn_app_le by (rewrite map_length; lia). rewrite firstn_all2 by (rewrite map_length; lia). rewrite skipn_app_ge by (rewrite map_length; lia). rewrite map_length. replace (S (length l) - length l)%nat with 1%nat by lia. reflexivity.
Qed.
Lemma append_value k ts e m : NoDup (map tkey ts) -> map pair (others k ts ++ [renamed (Some (m, k)) e]) = JsonModel.JsonObjectAppendElement (map pair ts) k (value e).
Proof. intros ND. unfold JsonModel.JsonObjectAppendElement. rewrite (remove_value k ts ND). cbn [snd]. rewrite map_app. cbn [map]. unfold tkey at 2. now rewrite name_renamed, value_renamed. Qed.

(** ** what is in memory *)
Lemma nodup_disjoint A (l r : list A) x : NoDup (l ++ r) -> In x l -> In x r -> False.
Proof. induction l as [|y l IH]; intros ND I J; [destruct I|]. cbn in ND. inversion ND as [|? ? NI ND']; subst. destruct I as [->|I]; [apply NI; apply in_or_app; now right|now apply IH]. Qed.
Lemma forest_load h K x : forest h (fill K x) -> load h (addr x) = Ok (mkElem (option_map fst (name x)) (hbody x)).
Proof.
  rewrite forest_raw. intros [R _]. eapply raw_load; [exact R|]. apply (Permutation_in _ (Permutation_sym (fill_nodes K x))). apply in_or_app. left. rewrite nodes_head. now left.
Qed.
Lemma strings_nodup h F : forest h F -> NoDup (map fst (flat_map strings F)). Proof. intros (_ & [N _] & _). exact N. Qed.
Lemma fill_string h K x s : forest h (fill K x) -> In s (strings x) -> In s (flat_map strings (fill K x)).
Proof. intros _ I. apply (Permutation_in _ (Permutation_sym (fill_strings K x))). apply in_or_app. now left. Qed.
Lemma value_text h K a n t v s : forest h (fill K (TP a n t v s)) -> text h (pointer v s) = Ok s.
Proof.
  intros FO. destruct v as [p|]; [|reflexivity]. apply forest_raw in FO as FR. destruct FR as [R _]. cbn [pointer]. apply (raw_text p s R). apply (fill_string _ _ _ FO). cbn [strings]. apply in_or_app. right. now left.
Qed.
Definition extended (x : tree) (K : context) : context := mkCtx (c_frames K) (x :: c_left K) (c_right K).
Definition inner (a : nat) (n : option (nat * list byte)) (k : kind) (l r : list tree) (K : context) : context := mkCtx (mkFrame a n k l r :: c_frames K) (c_left K) (c_right K).
Lemma fill_extended y K x : y :: fill K x = fill (extended y K) x. Proof. reflexivity. Qed.
Lemma fill_inner a n k l r K x : fill K (TC a n k (l ++ x :: r)) = fill (inner a n k l r K) x. Proof. reflexivity. Qed.
Definition beside (F : list tree) : context := mkCtx [] [] F.
Lemma fill_beside F x : fill (beside F) x = x :: F. Proof. reflexivity. Qed.

Section Copy.
  Variable fmt4 : list byte -> list byte.
  Lemma copy_spec x : forall f h K j, (length (nodes x) <= f)%nat -> forest h (fill K x) -> JsonModel.JsonCopy fmt4 (value x) = Ok j ->
    exists h' t, JsonCopy_rec fmt4 f h (addr x) = Ok (h', addr t) /\ forest h' (t :: fill K x) /\ name t = None /\ value t = j.
  Proof.
    induction x as [a n p v s|a n k ts IH] using tree_ind'; intros f h K j L FO CJ; (destruct f as [|f]; [cbn in L; lia|]); cbn [JsonCopy_rec].
    - pose proof (value_text _ _ _ _ _ _ FO) as TX. pose proof (forest_load _ _ FO) as LD. cbn [addr hbody] in LD. cbn [addr]. rewrite LD. cbn [bind e_body]. unfold JsonPrimitiveCopy, JsonPrimitiveGetAsBool, JsonPrimitiveGetAsInteger, typed_text, primitive. rewrite LD. cbn [bind e_body].
      assert (D : forall r, created (fill K (TP a n p v s)) r j -> exists h' t, Ok r = Ok (h', addr t) /\ forest h' (t :: fill K (TP a n p v s)) /\ name t = None /\ value t = j).
      { intros [h' b] (t & A & N & V & FO'). cbn [fst snd] in *. subst b. exists h', t. auto. }
      cbn [value JsonModel.JsonCopy] in CJ. unfold JsonModel.JsonPrimitiveCopy in CJ. destruct p; cbn [bind is_int massert] in *.
      + injection CJ as <-. destruct (@created_string h (fill K (TP a n PString v s)) (pointer v s) s FO) as (r & -> & C).
        { destruct v as [q|]; cbn [pointer content]; [|reflexivity]. apply (fill_string _ _ _ FO). cbn [strings]. apply in_or_app. right. now left. }
        apply D, C.
      + rewrite TX. unfold massert. cbn [bind]. change (JsonModel.JsonPrimitiveGetAsInteger s) with (StringToLongExitOnError s) in CJ. destruct (StringToLongExitOnError s) as [z| | |]; try discriminate CJ. cbn [bind] in *. injection CJ as <-. apply D, created_integer, FO.
      + rewrite TX. cbn [bind]. injection CJ as <-. apply D, created_real, FO.
      + rewrite TX. unfold massert. cbn [bind]. injection CJ as <-. apply D, created_bool, FO.
      + injection CJ as <-. apply D, created_null, FO.
    - pose proof (forest_load _ _ FO) as LD. cbn [addr hbody] in LD. cbn [addr]. rewrite LD. cbn [bind e_body].
      assert (L' : Forall (fun t => (length (nodes t) <= f)%nat) ts).
      { apply Forall_forall. intros t I. pose proof (flat_map_length_in nodes _ _ I). cbn [nodes length] in L. lia. }
      destruct k; cbn [value JsonModel.JsonCopy] in CJ.
      + unfold JsonObjectCreate. pose proof (create_container KObject FO) as FO1. destruct (JsonElementCreateContainer h KObject) as [h1 c] eqn:CR. cbn [fst snd] in FO1.
        assert (X : forall l r acc h1 out, ts = l ++ r -> forest h1 (TC c None KObject acc :: fill K (TC a n KObject ts)) ->
           (fix loop (l : list (list byte * json)) (acc : list (list byte * json)) {struct l} : res (list (list byte * json)) :=
              match l with [] => Ok acc | (k, c) :: r => let* c' := JsonModel.JsonCopy fmt4 c in loop r (JsonModel.JsonObjectAppendElement acc k c') end)
             (map (fun t => (tkey t, value t)) r) (map pair acc) = Ok out ->
           exists h2 acc', (fix go (cs : list nat) (h : heap) {struct cs} : res heap :=
                         match cs with
                         | [] => Ok h
                         | c0 :: cs =>
                             let* n := JsonElementGetPropertyName h c0 in
                             let* ' (h, c') := JsonCopy_rec fmt4 f h c0 in
                             match n with
                             | Some n => let* h := JsonObjectAppendElement h c n c' in go cs h
                             | None => Abort
                             end
                         end) (map addr r) h1 = Ok h2 /\ forest h2 (TC c None KObject acc' :: fill K (TC a n KObject ts)) /\ map pair acc' = out).
        { clear CJ FO1 CR h1 LD. intros l r. revert l. induction r as [|x r IHr]; intros l acc h1 out ET FO1 LP; [injection LP as <-; exists h1, acc; auto|].
          cbn [map] in LP. destruct (JsonModel.JsonCopy fmt4 (value x)) as [jx| | |] eqn:CX; try discriminate LP. cbn [bind] in LP.
          assert (IX : In x ts) by (rewrite ET; apply in_elt). rewrite Forall_forall in IH, L'.
          assert (FX : TC c None KObject acc :: fill K (TC a n KObject ts) = fill (inner a n KObject l r (extended (TC c None KObject acc) K)) x) by (rewrite ET; reflexivity).
          assert (MB : members acc /\ name x <> None).
          { apply forest_raw in FO1 as [_ W]. inversion W as [|? ? W1 W2]; subst. split; [now apply members_wf in W1|]. apply fill_wf_in in W2. apply members_wf in W2 as (_ & NM & _). rewrite Forall_forall in NM. now apply NM. }
          destruct MB as [MB NX]. rewrite FX in FO1. cbn [map]. unfold JsonElementGetPropertyName. rewrite (forest_load _ _ FO1). cbn [bind e_name]. destruct (name x) as [[q k]|] eqn:NM; [|congruence]. clear NX.
          assert (KX : tkey x = k) by (unfold tkey; now rewrite NM). rewrite KX in LP. cbn [option_map fst].
          destruct (IH x IX f h1 _ jx (L' x IX) FO1 CX) as (h2 & t & E2 & FO2 & NT & VT). rewrite E2. cbn [bind]. rewrite <- FX in FO2.
          assert (QI : In (q, k) (flat_map strings (fill K (TC a n KObject ts)))).
          { rewrite ET. change (fill K (TC a n KObject (l ++ x :: r))) with (fill (inner a n KObject l r K) x). apply (Permutation_in _ (Permutation_sym (fill_strings _ x))). apply in_or_app. left. rewrite strings_head, NM. now left. }
          destruct (@object_append (beside (fill K (TC a n KObject ts))) c None h2 [] t acc (Block q) k) as (h3 & m & E3 & FO3).
          - cbn [app]. rewrite fill_beside. exact FO2.
          - cbn [app]. rewrite fill_beside. cbn [content flat_map]. apply in_or_app. right. apply in_or_app. right. exact QI.
          - rewrite NT. cbn [olist app outside]. intros Q. apply strings_nodup in FO2. cbn [flat_map] in FO2.
            assert (QA : In q (map fst (strings (TC c None KObject acc)))).
            { cbn [strings olist app]. clear - Q. unfold named in Q. apply in_map_iff in Q as (y & Y & Q). apply in_flat_map in Q as (z & Z & Q). apply filter_In in Z as [Z _]. apply in_map_iff. exists y. split; [exact Y|]. apply in_flat_map. eauto. }
            rewrite !map_app, app_assoc in FO2. apply (nodup_disjoint _ _ q FO2); [apply in_or_app; now right|]. now apply (in_map fst) in QI.
          - rewrite E3. cbn [bind]. cbn [app] in FO3. rewrite fill_beside in FO3.
            apply (IHr (l ++ [x]) (others k acc ++ [renamed (Some (m, k)) t]) h3 out); [rewrite <- app_assoc; exact ET|exact FO3|].
            rewrite append_value by apply MB. rewrite VT. exact LP. }
        match type of CJ with bind ?A _ = _ => destruct A as [out| | |] eqn:LP end; try discriminate CJ. cbn [bind] in CJ. injection CJ as <-.
        destruct (X [] ts [] h1 out eq_refl FO1 LP) as (h2 & acc & E2 & FO2 & V2).
        match goal with |- context[bind ?A _] => replace A with (Ok h2) by (symmetry; exact E2) end. cbn [bind]. exists h2, (TC c None KObject acc). split; [reflexivity|]. split; [exact FO2|]. split; [reflexivity|]. cbn [value]. now rewrite V2.
      + unfold JsonArrayCreate. pose proof (create_container KArray FO) as FO1. destruct (JsonElementCreateContainer h KArray) as [h1 c] eqn:CR. cbn [fst snd] in FO1.
        assert (X : forall l r acc h1 out, ts = l ++ r -> forest h1 (TC c None KArray acc :: fill K (TC a n KArray ts)) ->
           (fix loop (l : list json) (acc : list json) {struct l} : res (list json) :=
              match l with [] => Ok acc | c :: r => let* c' := JsonModel.JsonCopy fmt4 c in loop r (JsonModel.JsonArrayAppendElement acc c') end)
             (map value r) (map value acc) = Ok out ->
           exists h2 acc', (fix go (cs : list nat) (h : heap) {struct cs} : res heap :=
                         match cs with
                         | [] => Ok h
                         | c0 :: cs =>
                             let* ' (h, c') := JsonCopy_rec fmt4 f h c0 in
                             let* h := JsonArrayAppendElement h c c' in go cs h
                         end) (map addr r) h1 = Ok h2 /\ forest h2 (TC c None KArray acc' :: fill K (TC a n KArray ts)) /\ map value acc' = out).
        { clear CJ FO1 CR h1 LD. intros l r. revert l. induction r as [|x r IHr]; intros l acc h1 out ET FO1 LP; [injection LP as <-; exists h1, acc; auto|].
          cbn [map] in LP. destruct (JsonModel.JsonCopy fmt4 (value x)) as [jx| | |] eqn:CX; try discriminate LP. cbn [bind] in LP.
          assert (IX : In x ts) by (rewrite ET; apply in_elt). rewrite Forall_forall in IH, L'.
          assert (FX : TC c None KArray acc :: fill K (TC a n KArray ts) = fill (inner a n KArray l r (extended (TC c None KArray acc) K)) x) by (rewrite ET; reflexivity).
          rewrite FX in FO1. cbn [map].
          destruct (IH x IX f h1 _ jx (L' x IX) FO1 CX) as (h2 & t & E2 & FO2 & NT & VT). rewrite E2. cbn [bind]. rewrite <- FX in FO2.
          destruct (@array_append (beside (fill K (TC a n KArray ts))) c None h2 [] t acc) as (h3 & E3 & FO3); [cbn [app]; rewrite fill_beside; exact FO2|].
          rewrite E3. cbn [bind]. cbn [app] in FO3. rewrite fill_beside in FO3.
          apply (IHr (l ++ [x]) (acc ++ [t]) h3 out); [rewrite <- app_assoc; exact ET|exact FO3|].
          rewrite map_app. cbn [map]. rewrite VT. exact LP. }
        match type of CJ with bind ?A _ = _ => destruct A as [out| | |] eqn:LP end; try discriminate CJ. cbn [bind] in CJ. injection CJ as <-.
        destruct (X [] ts [] h1 out eq_refl FO1 LP) as (h2 & acc & E2 & FO2 & V2).
        match goal with |- context[bind ?A _] => replace A with (Ok h2) by (symmetry; exact E2) end. cbn [bind]. exists h2, (TC c None KArray acc). split; [reflexivity|]. split; [exact FO2|]. split; [reflexivity|]. cbn [value]. now rewrite V2.
  Qed.
  Lemma forest_copy h K x j : forest h (fill K x) -> JsonModel.JsonCopy fmt4 (value x) = Ok j ->
    exists h' t, JsonCopy fmt4 h (addr x) = Ok (h', addr t) /\ forest h' (t :: fill K x) /\ name t = None /\ value t = j.
  Proof.
    intros FO. apply copy_spec; [|exact FO]. apply forest_raw in FO as [R _]. pose proof (raw_size R) as L. rewrite (Permutation_length (fill_nodes K x)), app_length in L. lia.
  Qed.
End Copy.
