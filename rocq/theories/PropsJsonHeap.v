(** C105-C106: JSON elements in memory. *)
From Coq Require Import Permutation.
From Verif Require Import Prelude PreludeFacts Str StrFacts Libc NumModel JsonModel JsonHeapModel JsonHeapSpec JsonHeapFacts JsonHeapProofs JsonHeapProofs2 JsonHeapProofs3 JsonHeapProofs4 JsonHeapProofs5.
Set Implicit Arguments.
Local Notation tkey := JsonHeapSpec.key.

(** * C105 *)
(** Each call, made under its rule in a heap that is exactly the forest [F], touches no freed memory, fails no
    assert, and leaves a heap that is exactly a forest, changed as the rule says: nothing is freed that is still in
    a tree, and nothing is left that is in none. *)
Theorem C105_call fmt4 h F c P : forest h F -> rule fmt4 F c P ->
  exists h' r F', exec fmt4 h c = Ok (h', r) /\ forest h' F' /\ P F' r.
Proof. apply exec_spec. Qed.
Print Assumptions C105_call.

(** A whole program, whatever it does with the answers *)
Theorem C105_program fmt4 h F p Q : forest h F -> follows fmt4 F p Q ->
  exists h' F', run fmt4 h p = Ok h' /\ forest h' F' /\ Q F'.
Proof. apply run_spec. Qed.
Print Assumptions C105_program.

(** A program that starts with nothing and ends owning nothing leaves nothing allocated *)
Theorem C105_no_leak fmt4 p : follows fmt4 [] p (fun F => F = []) ->
  exists h, run fmt4 empty_heap p = Ok h /\ (forall a, h_elems h a = None) /\ (forall a, h_strs h a = None).
Proof.
  intros FL. destruct (run_spec fmt4 p _ forest_empty FL) as (h & F & E & FO & ->). exists h. split; [exact E|]. now apply forest_nothing.
Qed.
Print Assumptions C105_no_leak.

(** JsonDestroy of an element that belongs to no container frees its whole tree and nothing else *)
Theorem C105_destroy h e F : forest h (e :: F) ->
  exists h', JsonDestroy h (Some (addr e)) = Ok h' /\ forest h' F /\
    (forall a x, In (a, x) (flat_map nodes F) -> h_elems h' a = h_elems h a) /\ (forall a x, In (a, x) (nodes e) -> h_elems h' a = None).
Proof.
  intros FO. destruct (forest_destroy FO) as (h' & E & FO'). exists h'. split; [exact E|]. split; [exact FO'|]. destruct FO as (A & _), FO' as (A' & _). cbn [flat_map] in A. split; intros a x I.
  - rewrite (entries_get _ _ A' I). symmetry. apply (entries_get _ _ A). apply in_or_app. now right.
  - apply (entries_none a A'). intros J. apply in_map_iff in J as ([b y] & AB & J). cbn [fst] in AB. subst b. destruct A as [ND _]. rewrite map_app in ND. apply (nodup_disjoint _ _ a ND); [now apply (in_map fst) in I|now apply (in_map fst) in J].
Qed.
Print Assumptions C105_destroy.

(** The values of the trees: the operations in memory compute what the value-level operations of JsonModel.v
    (C21 and the claims around it) compute *)
Theorem C105_values a n ts k e m : wf (TC a n KObject ts) ->
  value (TC a n KObject (others k ts ++ [renamed (Some (m, k)) e])) = match value (TC a n KObject ts) with JObj kvs => JObj (JsonModel.JsonObjectAppendElement kvs k (value e)) | j => j end /\
  value (TC a n KObject (others k ts)) = match value (TC a n KObject ts) with JObj kvs => JObj (snd (JsonModel.JsonObjectRemoveKey kvs k)) | j => j end /\
  match value (TC a n KObject ts) with JObj kvs => JsonModel.JsonObjectGet kvs k | _ => None end = option_map value (hd_error (named k ts)).
Proof.
  intros W. apply members_wf in W as (_ & _ & ND). cbn [value]. split; [f_equal; now apply append_value|]. split; [f_equal; now rewrite remove_value|]. apply get_value.
Qed.
Print Assumptions C105_values.

(** A program and its run: {"a": [true, null], "b": "x"} with a copy, "a" replaced by its own copy, "b" detached, everything destroyed *)
Definition fmt4_none (s : list byte) : list byte := s.
Definition elem_or (k : nat -> program) (r : answer) : program := match r with AElem a => k a | AOpt (Some a) => k a | _ => Done end.
Definition demo : program :=
  Do (Create MObject) (elem_or (fun o =>
  Do (Create MArray) (elem_or (fun l =>
  Do (ArrayAppend l (MBool true)) (fun _ =>
  Do (ObjectAppendElement o (Static (lit "a")) l) (fun _ =>
  Do (ObjectAppend o (Static (lit "b")) (MString (Static (lit "x")))) (fun _ =>
  Do (Copy l) (elem_or (fun c =>
  Do (ObjectAppendElement o (Static (lit "a")) c) (fun _ =>
  Do (DetachKey o (Static (lit "b"))) (elem_or (fun d =>
  Do (Destroy (Some d)) (fun _ =>
  Do (Destroy (Some o)) (fun _ => Done)))))))))))))).
Example C105_demo : exists h, run fmt4_none empty_heap demo = Ok h /\ h_next h = 10%nat /\ forall a, (a < 10)%nat -> h_elems h a = None /\ h_strs h a = None.
Proof.
  eexists. split; [vm_compute; reflexivity|]. split; [reflexivity|]. intros a L. do 10 (destruct a as [|a]; [split; vm_compute; reflexivity|]). lia.
Qed.

Lemma made_object t : name t = None -> value t = JObj [] -> exists a, t = TC a None KObject [].
Proof. destruct t as [|a n [] [|]]; cbn; intros N V; try discriminate; subst; eauto. Qed.
Lemma made_array t j : name t = None -> value t = JArr j -> exists a ts, t = TC a None KArray ts /\ map value ts = j.
Proof. destruct t as [|a n [] ts]; cbn; intros N V; try discriminate; subst; injection V; eauto. Qed.
Example C105_demo_follows : follows fmt4_none [] demo (fun F => F = []).
Proof.
  unfold demo. cbn [follows]. eexists. split; [eapply R_create; reflexivity|]. intros F r (t & -> & N & V & ->). destruct (made_object _ N V) as (o & ->). clear N V. cbn [elem_or addr].
  cbn [follows]. eexists. split; [eapply R_create; reflexivity|]. intros F r (t & -> & N & V & ->). destruct (made_array _ N V) as (l & [|] & -> & E); [|discriminate E]. clear N V E. cbn [elem_or addr].
  cbn [follows]. eexists. split; [apply (@R_array_append _ _ (mkCtx [] [] [TC o None KObject []]) l None [] (MBool true) (JPrim PBool (lit "true"))); reflexivity|]. intros F r (t & V & -> & ->). unfold fill. cbn [c_frames c_left c_right fold_left app].
  cbn [follows]. eexists. split.
  { apply (@R_object_append_element _ _ (mkCtx [] [] []) o None [] (Static (lit "a")) (lit "a") (TC l None KArray [t])); [reflexivity|reflexivity|exact Logic.I]. }
  intros F r (m & -> & ->). unfold fill. cbn [c_frames c_left c_right fold_left app others filter renamed].
  cbn [follows]. eexists. split.
  { apply (@R_object_append _ _ (mkCtx [] [] []) o None [TC l (Some (m, lit "a")) KArray [t]] (Static (lit "b")) (lit "b") (MString (Static (lit "x"))) (JPrim PString (lit "x"))); [reflexivity|exists (lit "x"); split; reflexivity|reflexivity|exact Logic.I]. }
  intros F r (u & NU & KU & VU & -> & ->). change (fill (mkCtx [] [] []) (TC o None KObject (others (lit "b") [TC l (Some (m, lit "a")) KArray [t]] ++ [u]))) with [TC o None KObject [TC l (Some (m, lit "a")) KArray [t]; u]].
  cbn [follows]. eexists. split.
  { apply (@R_copy _ _ (mkCtx [mkFrame o None KObject [] [u]] [] []) (TC l (Some (m, lit "a")) KArray [t]) (JArr [JPrim PBool (lit "true")])); [reflexivity|]. cbn [value map]. rewrite V. reflexivity. }
  intros F r (c & -> & NC & VC & ->). cbn [elem_or]. destruct (made_array _ NC VC) as (ca & cs & -> & VS). cbn [addr].
  cbn [follows]. eexists. split.
  { apply (@R_object_append_element _ _ (mkCtx [] [] []) o None [TC l (Some (m, lit "a")) KArray [t]; u] (Static (lit "a")) (lit "a") (TC ca None KArray cs)); [reflexivity|reflexivity|exact Logic.I]. }
  intros F r (q & -> & ->).
  assert (O1 : others (lit "a") [TC l (Some (m, lit "a")) KArray [t]; u] = [u]).
  { unfold others. cbn [filter]. rewrite KU. reflexivity. }
  rewrite O1. cbn [app renamed]. change (fill (mkCtx [] [] []) (TC o None KObject [u; TC ca (Some (q, lit "a")) KArray cs])) with [TC o None KObject [u; TC ca (Some (q, lit "a")) KArray cs]].
  cbn [follows]. eexists. split.
  { apply (@R_detach_key _ _ (mkCtx [] [] []) o None [u; TC ca (Some (q, lit "a")) KArray cs] (Static (lit "b")) (lit "b")); reflexivity. }
  assert (O2 : others (lit "b") [u; TC ca (Some (q, lit "a")) KArray cs] = [TC ca (Some (q, lit "a")) KArray cs]) by (unfold others; cbn [filter]; rewrite KU; reflexivity).
  assert (O3 : named (lit "b") [u; TC ca (Some (q, lit "a")) KArray cs] = [u]) by (unfold named; cbn [filter]; rewrite KU; reflexivity).
  rewrite O2, O3. intros F r (-> & ->). cbn [hd_error option_map elem_or app].
  cbn [follows]. eexists. split; [apply R_destroy; reflexivity|]. intros F r (-> & ->).
  cbn [follows]. eexists. split; [apply (@R_destroy _ _ (TC o None KObject [TC ca (Some (q, lit "a")) KArray cs]) []); reflexivity|]. intros F r (-> & ->). reflexivity.
Qed.

(** The rules are needed.  The key is a name that the call frees before it copies it: of the element itself ... *)
Theorem C105_own_name_refuted : exists p, run fmt4_none empty_heap p = UB /\
  p = Do (Create MObject) (elem_or (fun o => Do (ObjectAppend o (Static (lit "k")) MNull) (fun _ => Do (DetachKey o (Static (lit "k"))) (elem_or (fun e =>
      Do (PropertyName e) (fun r => match r with AStr (Some k) => Do (ObjectAppendElement o k e) (fun _ => Done) | _ => Done end)))))).
Proof. eexists. split; [|reflexivity]. vm_compute. reflexivity. Qed.
Print Assumptions C105_own_name_refuted.
(** ... or of the member it replaces, e.g. got from JsonIteratorCurrentKey *)
Theorem C105_replaced_name_refuted : exists p, run fmt4_none empty_heap p = UB /\
  p = Do (Create MObject) (elem_or (fun o => Do (ObjectAppend o (Static (lit "k")) MNull) (fun _ => Do (ObjectGet o (Static (lit "k"))) (elem_or (fun e =>
      Do (PropertyName e) (fun r => match r with AStr (Some k) => Do (ObjectAppend o k (MInteger 1)) (fun _ => Done) | _ => Done end)))))).
Proof. eexists. split; [|reflexivity]. vm_compute. reflexivity. Qed.
Print Assumptions C105_replaced_name_refuted.
(** An element appended to two containers is freed twice *)
Theorem C105_shared_refuted : exists p, run fmt4_none empty_heap p = UB /\
  p = Do (Create MArray) (elem_or (fun l => Do (Create MNull) (elem_or (fun e => Do (ArrayAppendElement l e) (fun _ => Do (ArrayAppendElement l e) (fun _ => Do (Destroy (Some l)) (fun _ => Done))))))).
Proof. eexists. split; [|reflexivity]. vm_compute. reflexivity. Qed.
Print Assumptions C105_shared_refuted.

(** * C106 *)
Section Reading.
  Variables (h : heap) (K : context).
  (** members by name and type *)
  Theorem C106_object_typed a n ts p k : forest h (fill K (TC a n KObject ts)) -> content (fill K (TC a n KObject ts)) p k ->
    match hd_error (named k ts) with
    | None => JsonObjectGet h a p = Ok None /\ JsonObjectGetAsString h a p = Ok None /\ JsonObjectGetAsBool h a p = Ok false /\ JsonObjectGetAsObject h a p = Ok None /\ JsonObjectGetAsArray h a p = Ok None
    | Some (TP b _ t v s) =>
        JsonObjectGet h a p = Ok (Some b) /\ (exists q, JsonObjectGetAsString h a p = Ok (Some q) /\ text h q = Ok s) /\
        JsonObjectGetAsBool h a p = match t with PBool => Ok (bytes_eqb (lit "true") s) | _ => Abort end /\
        JsonObjectGetAsObject h a p = Abort /\ JsonObjectGetAsArray h a p = Abort
    | Some (TC b _ k' us) =>
        JsonObjectGet h a p = Ok (Some b) /\ JsonObjectGetAsString h a p = Abort /\ JsonObjectGetAsBool h a p = Abort /\
        JsonObjectGetAsObject h a p = match k' with KObject => Ok (Some b) | KArray => Abort end /\ JsonObjectGetAsArray h a p = match k' with KArray => Ok (Some b) | KObject => Abort end
    end.
  Proof.
    intros FO C. unfold JsonObjectGetAsString, JsonObjectGetAsBool, JsonObjectGetAsObject, JsonObjectGetAsArray. rewrite (@read_object h K a n ts p k FO C). destruct (hd_error (named k ts)) as [t|] eqn:HD; cbn [option_map bind]; [|auto].
    assert (IT : In t ts). { unfold named in HD. assert (I : In t (filter (fun t => bytes_eqb k (tkey t)) ts)) by (destruct (filter (fun t => bytes_eqb k (tkey t)) ts); [discriminate HD|injection HD as ->; now left]). now apply filter_In in I. }
    apply in_split in IT as (l & r & ->). rewrite fill_inner in FO. destruct t as [b m t v s|b m k' us]; cbn [addr].
    - destruct (@read_primitive h (inner a n KObject l r K) b m t v s FO) as (E & T & _). pose proof (forest_load _ _ FO) as L. cbn [addr hbody] in L. unfold JsonPrimitiveGetAsBool, typed_text, children_of, container. rewrite E, L. cbn [bind e_body massert]. split; [reflexivity|]. split; [exists (pointer v s); auto|].
      split; [|auto]. unfold massert. destruct t; try reflexivity. rewrite T. reflexivity.
    - pose proof (forest_load _ _ FO) as L. cbn [addr hbody] in L. unfold JsonPrimitiveGetAsBool, typed_text, primitive, children_of, container. rewrite L. cbn [bind e_body]. split; [reflexivity|]. split; [reflexivity|]. split; [reflexivity|]. unfold massert. destruct k'; auto.
  Qed.
  (** children by index; an index that is too large fails the assert *)
  Theorem C106_array_get a n ts i : forest h (fill K (TC a n KArray ts)) ->
    JsonArrayGet h a i = match nth_error ts i with Some t => Ok (addr t) | None => Abort end /\
    JsonArrayGetAsObject h a i = match nth_error ts i with Some (TC b _ KObject _) => Ok b | _ => Abort end /\
    match nth_error ts i with Some (TP _ _ PString _ s) => exists q, JsonArrayGetAsString h a i = Ok q /\ text h q = Ok s | _ => JsonArrayGetAsString h a i = Abort end.
  Proof.
    intros FO. assert (G : JsonArrayGet h a i = match nth_error ts i with Some t => Ok (addr t) | None => Abort end).
    { unfold JsonArrayGet, JsonAt. destruct (@read_children h K a n KArray ts FO) as [-> ->]. cbn [bind]. rewrite nth_error_map. destruct (nth_error ts i); reflexivity. }
    split; [exact G|]. unfold JsonArrayGetAsObject, JsonArrayGetAsString. rewrite G. destruct (nth_error ts i) as [t|] eqn:NT; cbn [bind]; [|auto]. apply nth_error_In in NT as IT. apply in_split in IT as (l & r & ->). rewrite fill_inner in FO. pose proof (forest_load _ _ FO) as L. unfold children_of, container, primitive. rewrite L. cbn [bind e_body]. destruct t as [b m t v s|b m k' us]; cbn [addr hbody bind].
    - split; [reflexivity|]. unfold massert. destruct t; try reflexivity. exists (pointer v s). split; [reflexivity|]. exact (value_text _ _ _ _ _ _ FO).
    - unfold massert. destruct k'; cbn [same_kind]; auto.
  Qed.
  (** primitives *)
  Theorem C106_primitives a n t v s : forest h (fill K (TP a n t v s)) ->
    (exists q, JsonPrimitiveGetAsString h a = Ok q /\ text h q = Ok s) /\ JsonLength h a = Ok (length s) /\ JsonGetType h a = Ok (TPrimitive t) /\
    JsonPrimitiveGetAsBool h a = match t with PBool => Ok (bytes_eqb (lit "true") s) | _ => Abort end /\
    JsonPrimitiveGetAsInteger h a = match t with PInt => StringToLongExitOnError s | _ => Abort end /\
    JsonPrimitiveGetAsInt64 h a = match t with PInt => StringToInt64 s | _ => Abort end /\
    (forall d, JsonPrimitiveGetAsInt64DefaultOnError h a d = match t with PInt => StringToInt64DefaultOnError s d | _ => Abort end) /\
    JsonPrimitiveGetAsInt64ExitOnError h a = match t with PInt => StringToInt64ExitOnError s | _ => Abort end.
  Proof.
    intros FO. destruct (@read_primitive h K a n t v s FO) as (E & T & _). pose proof (forest_load _ _ FO) as L. cbn [addr hbody] in L.
    unfold JsonPrimitiveGetAsString, JsonLength, JsonGetType, JsonGetElementType, JsonGetPrimitiveType, JsonPrimitiveGetAsBool, JsonPrimitiveGetAsInteger, JsonPrimitiveGetAsInt64, JsonPrimitiveGetAsInt64DefaultOnError, JsonPrimitiveGetAsInt64ExitOnError, typed_text. rewrite E, L. cbn [bind e_body]. rewrite T. unfold massert. cbn [bind].
    split; [exists (pointer v s); auto|]. split; [reflexivity|]. split; [reflexivity|]. destruct t; cbn [is_int bind]; repeat (split; [reflexivity|]); auto.
  Qed.
  (** containers *)
  Theorem C106_containers a n k ts : forest h (fill K (TC a n k ts)) ->
    JsonLength h a = Ok (length ts) /\ JsonGetType h a = Ok (TContainer k) /\ JsonArrayContainsOnlyPrimitives h a = match k with KArray => Ok (forallb (fun t => negb (is_container t)) ts) | KObject => Abort end.
  Proof.
    intros FO. split; [exact (@read_length h K a n k ts FO)|]. pose proof (forest_load _ _ FO) as L. cbn [addr hbody] in L. split; [unfold JsonGetType, JsonGetElementType, JsonGetContainerType, container; rewrite L; reflexivity|].
    unfold JsonArrayContainsOnlyPrimitives, children_of, container. rewrite L. cbn [bind e_body]. unfold massert. destruct k; [reflexivity|]. cbn [same_kind bind].
    assert (X : forall l r, ts = l ++ r -> only_primitives h (map addr r) = Ok (forallb (fun t => negb (is_container t)) r)).
    { intros l r. revert l. induction r as [|t r IH]; intros l E; [reflexivity|]. cbn [map only_primitives forallb]. rewrite E, fill_inner in FO. rewrite (forest_load _ _ FO). cbn [bind e_body]. destruct t as [b m t v s|b m k' us]; cbn [hbody is_container negb andb]; [|reflexivity]. apply (IH (l ++ [TP b m t v s])). rewrite <- app_assoc. exact E. }
    exact (X [] ts eq_refl).
  Qed.

  (** iterators: every child once, in order *)
  Theorem C106_iterate a n k ts : forest h (fill K (TC a n k ts)) ->
    exists it, JsonIteratorInit h a = Ok it /\ yields (JsonIteratorNextValue h) it (map addr ts).
  Proof.
    intros FO. destruct (@read_children h K a n k ts FO) as [_ C]. unfold JsonIteratorInit. rewrite C. cbn [bind]. exists (a, 0%nat). split; [reflexivity|].
    assert (X : forall l r, ts = l ++ r -> yields (JsonIteratorNextValue h) (a, length l) (map addr r)).
    { intros l r. revert l. induction r as [|t r IH]; intros l E; cbn [map].
      - eapply yields_end. unfold JsonIteratorNextValue. cbn [fst snd]. rewrite C. cbn [bind]. rewrite app_nil_r in E. subst l. assert (N : nth_error (map addr ts) (length ts) = None) by (apply nth_error_None; rewrite map_length; lia). rewrite N. reflexivity.
      - eapply yields_more.
        + unfold JsonIteratorNextValue. cbn [fst snd]. rewrite C. cbn [bind]. rewrite E, map_app. cbn [map]. rewrite nth_error_app2 by (rewrite map_length; lia). rewrite map_length, Nat.sub_diag. reflexivity.
        + replace (S (length l)) with (length (l ++ [t])) by (rewrite app_length; cbn; lia). apply IH. rewrite <- app_assoc. exact E. }
    exact (X [] ts eq_refl).
  Qed.
  (** where an iterator stands after [i] values: HasMore, the current value and its name; the type functions need a current value *)
  Theorem C106_position a n k ts i : forest h (fill K (TC a n k ts)) -> (i <= length ts)%nat ->
    JsonIteratorHasMore h (a, i) = Ok (i <? length ts)%nat /\
    JsonIteratorNextValue h (a, i) = Ok ((a, if (i <? length ts)%nat then S i else i), option_map addr (nth_error ts i)) /\
    JsonIteratorCurrentValue h (a, i) = Ok (match i with O => None | S j => option_map addr (nth_error ts j) end) /\
    (k = KObject -> exists p, JsonIteratorCurrentKey h (a, i) = Ok p /\ match i with O => p = None | S j => exists q t, p = Some q /\ nth_error ts j = Some t /\ text h q = Ok (tkey t) end) /\
    JsonIteratorCurrentElementType h (a, i) = match i with O => UB | S j => match nth_error ts j with Some t => Ok (is_container t) | None => UB end end.
  Proof.
    intros FO L. destruct (@read_children h K a n k ts FO) as [CH C]. pose proof (@read_length h K a n k ts FO) as LN.
    assert (CV : JsonIteratorCurrentValue h (a, i) = Ok (match i with O => None | S j => option_map addr (nth_error ts j) end)).
    { unfold JsonIteratorCurrentValue. cbn [fst snd]. rewrite C. cbn [bind]. destruct i; [reflexivity|]. now rewrite nth_error_map. }
    split; [unfold JsonIteratorHasMore; cbn [fst snd]; rewrite LN; reflexivity|]. split.
    { unfold JsonIteratorNextValue. cbn [fst snd]. rewrite C. cbn [bind]. rewrite nth_error_map. destruct (Nat.ltb_spec i (length ts)) as [LT|GE]; [destruct (nth_error ts i) eqn:N; [reflexivity|apply nth_error_None in N; lia]|]. assert (N : nth_error ts i = None) by (apply nth_error_None; lia). rewrite N. reflexivity. }
    split; [exact CV|]. unfold JsonIteratorCurrentKey, JsonIteratorCurrentElementType. cbn [fst]. rewrite CV.
    assert (HOLE : forall j t, nth_error ts j = Some t -> exists l r, ts = l ++ t :: r) by (intros j t N; apply nth_error_In in N; apply in_split in N; exact N).
    split.
    - intros ->. rewrite CH. cbn [bind]. destruct i as [|j]; [exists None; auto|]. destruct (nth_error ts j) as [t|] eqn:N; [|apply nth_error_None in N; lia]. cbn [option_map]. destruct (HOLE _ _ N) as (l & r & E).
      pose proof FO as FO0. apply forest_raw in FO0 as [_ W]. apply fill_wf_in in W. apply members_wf in W as (_ & NM & _). rewrite Forall_forall in NM. assert (NT : name t <> None) by (apply NM; rewrite E; apply in_elt). rewrite E, fill_inner in FO.
      rewrite (@read_name h (inner a n KObject l r K) t FO). destruct (name t) as [[q s]|] eqn:NE; [|congruence]. cbn [option_map fst]. eexists. split; [reflexivity|]. exists (Block q), t. split; [reflexivity|]. split; [reflexivity|]. unfold tkey. rewrite NE. apply forest_raw in FO as FR. destruct FR as [R _]. apply (raw_text q s R). apply (fill_string _ _ _ FO). rewrite strings_head, NE. now left.
    - cbn [bind]. destruct i as [|j]; [reflexivity|]. destruct (nth_error ts j) as [t|] eqn:N; cbn [option_map]; [|reflexivity]. destruct (HOLE _ _ N) as (l & r & E). rewrite E, fill_inner in FO. unfold JsonGetElementType. rewrite (forest_load _ _ FO). destruct t; reflexivity.
  Qed.
  (** the names, in order *)
  Theorem C106_iterate_keys a n ts : forest h (fill K (TC a n KObject ts)) ->
    exists it l, JsonIteratorInit h a = Ok it /\ yields (JsonIteratorNextKey h) it l /\ Forall2 (fun p t => text h p = Ok (tkey t)) l ts.
  Proof.
    intros FO. destruct (@read_children h K a n KObject ts FO) as [CH C]. unfold JsonIteratorInit. rewrite C. cbn [bind].
    assert (X : forall l r, ts = l ++ r -> exists ps, yields (JsonIteratorNextKey h) (a, length l) ps /\ Forall2 (fun p t => text h p = Ok (tkey t)) ps r).
    { intros l r. revert l. induction r as [|t r IH]; intros l E.
      - exists []. split; [|constructor]. eapply yields_end. unfold JsonIteratorNextKey, JsonIteratorNextValue. cbn [fst snd]. rewrite CH, C. cbn [bind]. rewrite app_nil_r in E. subst l. assert (N : nth_error (map addr ts) (length ts) = None) by (apply nth_error_None; rewrite map_length; lia). rewrite N. reflexivity.
      - pose proof FO as FO0. apply forest_raw in FO0 as [_ W]. apply fill_wf_in in W. apply members_wf in W as (_ & NM & _). rewrite Forall_forall in NM. assert (NT : name t <> None) by (apply NM; rewrite E; apply in_elt). pose proof FO as FT. rewrite E, fill_inner in FT.
        pose proof (@read_name h (inner a n KObject l r K) t FT) as RN. destruct (name t) as [[q s]|] eqn:NE; [|congruence]. cbn [option_map fst] in RN. destruct (IH (l ++ [t])) as (ps & Y & F2); [rewrite <- app_assoc; exact E|].
        rewrite app_length in Y. cbn [length] in Y. rewrite Nat.add_1_r in Y. exists (Block q :: ps). split.
        + eapply yields_more; [|exact Y]. unfold JsonIteratorNextKey, JsonIteratorNextValue. cbn [fst snd]. rewrite CH, C. cbn [bind]. rewrite E, map_app. cbn [map]. rewrite nth_error_app2 by (rewrite map_length; lia). rewrite map_length, Nat.sub_diag. cbn [nth_error bind]. rewrite RN. reflexivity.
        + constructor; [|exact F2]. unfold tkey. rewrite NE. apply forest_raw in FT as FR. destruct FR as [R _]. apply (raw_text q s R). apply (fill_string _ _ _ FT). rewrite strings_head, NE. now left. }
    destruct (X [] ts eq_refl) as (ps & Y & F2). exists (a, 0%nat), ps. auto.
  Qed.
  (** only the values of one kind, without nulls if wanted *)
  Theorem C106_iterate_by_type a n k ts cont skip_null : forest h (fill K (TC a n k ts)) ->
    exists it, JsonIteratorInit h a = Ok it /\
      yields (fun it => JsonIteratorNextValueByType h it cont skip_null) it (map addr (filter (fun t => Bool.eqb (is_container t) cont && negb (skip_null && is_null t)) ts)).
  Proof.
    intros FO. destruct (@read_children h K a n k ts FO) as [_ C]. pose proof (@read_length h K a n k ts FO) as LN. unfold JsonIteratorInit. rewrite C. cbn [bind]. exists (a, 0%nat). split; [reflexivity|].
    set (want := fun t => Bool.eqb (is_container t) cont && negb (skip_null && is_null t)).
    assert (NX : forall l t r, ts = l ++ t :: r -> JsonIteratorNextValue h (a, length l) = Ok ((a, S (length l)), Some (addr t))).
    { intros l t r E. unfold JsonIteratorNextValue. cbn [fst snd]. rewrite C. cbn [bind]. rewrite E, map_app. cbn [map]. rewrite nth_error_app2 by (rewrite map_length; lia). rewrite map_length, Nat.sub_diag. reflexivity. }
    assert (NE : JsonIteratorNextValue h (a, length ts) = Ok ((a, length ts), None)).
    { unfold JsonIteratorNextValue. cbn [fst snd]. rewrite C. cbn [bind]. assert (N : nth_error (map addr ts) (length ts) = None) by (apply nth_error_None; rewrite map_length; lia). rewrite N. reflexivity. }
    assert (TY : forall l t r, ts = l ++ t :: r -> JsonGetElementType h (addr t) = Ok (is_container t) /\ exists ty, JsonGetType h (addr t) = Ok ty /\ (match ty with TPrimitive PNull => true | _ => false end) = is_null t).
    { intros l t r E. pose proof FO as FT. rewrite E, fill_inner in FT. pose proof (forest_load _ _ FT) as L. unfold JsonGetType, JsonGetElementType, JsonGetContainerType, JsonGetPrimitiveType, container, primitive. rewrite L. cbn [bind e_body]. destruct t as [b m t v s|b m k' us]; cbn [hbody bind is_container is_null]; (split; [reflexivity|]); eexists; (split; [reflexivity|]); [destruct t|]; reflexivity. }
    assert (ST : forall r l f, ts = l ++ r -> (length r <= f)%nat ->
       (filter want r = [] /\ next_by_type f h (a, length l) cont skip_null = Ok ((a, length ts), None)) \/
       exists x t y, r = x ++ t :: y /\ filter want r = t :: filter want y /\ next_by_type f h (a, length l) cont skip_null = Ok ((a, S (length (l ++ x))), Some (addr t))).
    { induction r as [|t r IH]; intros l f E L.
      - left. split; [reflexivity|]. rewrite app_nil_r in E. subst l. destruct f; cbn [next_by_type]; rewrite NE; reflexivity.
      - destruct f as [|f]; [cbn in L; lia|]. destruct (TY _ _ _ E) as (T1 & ty & T2 & T3).
        assert (GO : next_by_type (S f) h (a, length l) cont skip_null = if want t then Ok ((a, S (length l)), Some (addr t)) else next_by_type f h (a, S (length l)) cont skip_null).
        { cbn [next_by_type]. rewrite (NX _ _ _ E). cbn [bind]. unfold want. rewrite T1, T2. cbn [bind]. destruct skip_null; cbn [bind]; [rewrite T3; destruct (is_null t)|]; destruct (Bool.eqb (is_container t) cont); reflexivity. }
        cbn [filter].
        rewrite GO. destruct (want t).
        + right. exists [], t, r. split; [reflexivity|]. split; [reflexivity|]. now rewrite app_nil_r.
        + replace (S (length l)) with (length (l ++ [t])) by (rewrite app_length; cbn; lia). destruct (IH (l ++ [t]) f) as [[FN EN]|(x & u & y & -> & FY & EY)]; [rewrite <- app_assoc; exact E|cbn [length] in L; lia|left; auto|].
          right. exists (t :: x), u, y. split; [reflexivity|]. split; [exact FY|]. rewrite EY. now rewrite <- app_assoc. }
    assert (X : forall m l r, (length r <= m)%nat -> ts = l ++ r -> yields (fun it => JsonIteratorNextValueByType h it cont skip_null) (a, length l) (map addr (filter want r))).
    { induction m as [|m IH]; intros l r LM E; (destruct (ST r l (length ts) E) as [[-> EN]|(x & t & y & -> & -> & EN)]; [rewrite E, app_length; lia| |]).
      - cbn [map]. eapply yields_end. unfold JsonIteratorNextValueByType. cbn [fst]. rewrite LN. cbn [bind]. exact EN.
      - rewrite app_length in LM. cbn in LM. lia.
      - cbn [map]. eapply yields_end. unfold JsonIteratorNextValueByType. cbn [fst]. rewrite LN. cbn [bind]. exact EN.
      - cbn [map]. eapply yields_more; [unfold JsonIteratorNextValueByType; cbn [fst]; rewrite LN; cbn [bind]; exact EN|]. replace (S (length (l ++ x))) with (length ((l ++ x) ++ [t])) by (rewrite (app_length _ [t]); cbn; lia). apply IH; [rewrite app_length in LM; cbn in LM; lia|]. rewrite <- !app_assoc. exact E. }
    exact (X (length ts) [] ts (le_n _) eq_refl).
  Qed.
End Reading.
Print Assumptions C106_object_typed.
Print Assumptions C106_array_get.
Print Assumptions C106_primitives.
Print Assumptions C106_containers.
Print Assumptions C106_iterate.
Print Assumptions C106_position.
Print Assumptions C106_iterate_keys.
Print Assumptions C106_iterate_by_type.
(** [yields] determines the list *)
Theorem C106_yields_unique A (next : iterator -> res (iterator * option A)) it l l' : yields next it l -> yields next it l' -> l = l'.
Proof.
  intros Y. revert l'. induction Y as [it it1 E|it it1 x l E Y IH]; intros l' Y'; inversion Y' as [? ? E'|? ? ? ? E' Y2]; subst; rewrite E in E'; try discriminate E'; [reflexivity|]. injection E' as <- <-. f_equal. now apply IH.
Qed.
Print Assumptions C106_yields_unique.

(** A heap with {"a": [true], "b": null} *)
Example C106_case : exists h, run fmt4_none empty_heap
    (Do (Create MObject) (elem_or (fun o => Do (Create MArray) (elem_or (fun l => Do (ArrayAppend l (MBool true)) (fun _ => Do (ObjectAppendElement o (Static (lit "a")) l) (fun _ => Do (ObjectAppend o (Static (lit "b")) MNull) (fun _ => Done)))))))) = Ok h /\
  forest h (fill (mkCtx [] [] []) (TC 0 None KObject [TC 1 (Some (3%nat, lit "a")) KArray [TP 2 None PBool None (lit "true")]; TP 4 (Some (5%nat, lit "b")) PNull None (lit "null")])).
Proof.
  eexists. split; [vm_compute; reflexivity|]. unfold forest, has_entries. cbn [fill c_left c_right c_frames fold_left app flat_map nodes strings olist option_map fst map addr h_elems h_strs h_next].
  assert (ND : forall l : list nat, forallb (fun x => (count_occ Nat.eq_dec l x =? 1)%nat) l = true -> NoDup l).
  { intros l H. apply (NoDup_count_occ' Nat.eq_dec). intros x I. rewrite forallb_forall in H. apply H in I. now apply Nat.eqb_eq in I. }
  split; [split; [apply ND; reflexivity|]|split; [split; [apply ND; reflexivity|]|split; [|split]]].
  - intros a x. do 5 (destruct a as [|a]; [cbn; split; [intros [= <-]; tauto|intuition congruence]|]). cbn. split; [discriminate|intuition congruence].
  - intros a x. do 6 (destruct a as [|a]; [cbn; split; [(discriminate || intros [= <-]; tauto)|intuition congruence]|]). cbn. split; [discriminate|intuition congruence].
  - intros a x. do 6 (destruct a as [|a]; [intros _; lia|]). cbn. discriminate.
  - intros a x. do 6 (destruct a as [|a]; [intros _; lia|]). cbn. discriminate.
  - constructor; [|constructor]. constructor.
    + constructor; [constructor; constructor; [constructor; tauto|constructor]|constructor; [constructor; tauto|constructor]].
    + constructor; [discriminate|constructor; [discriminate|constructor]].
    + cbn. constructor; [intros [H|[]]; discriminate H|constructor; [intros []|constructor]].
Qed.

(** An iterator does not follow changes: replacing the current member while going through {"a": 1, "b": 2} skips "b" *)
Theorem C106_replace_in_loop_refuted : exists h o h' it x,
  run fmt4_none empty_heap (Do (Create MObject) (elem_or (fun o => Do (ObjectAppend o (Static (lit "a")) (MInteger 1)) (fun _ => Do (ObjectAppend o (Static (lit "b")) (MInteger 2)) (fun _ => Done))))) = Ok h /\
  (let* it := JsonIteratorInit h o in JsonIteratorNextKey h it) = Ok (it, Some x) /\ text h x = Ok (lit "a") /\
  JsonObjectAppendInteger h o (Static (lit "a")) 3 = Ok h' /\
  (exists it2 y it3, JsonIteratorNextKey h' it = Ok (it2, Some y) /\ text h' y = Ok (lit "a") /\ JsonIteratorNextKey h' it2 = Ok (it3, None)).
Proof.
  match goal with |- context[run ?f ?e ?p] => let r := eval vm_compute in (run f e p) in match r with Ok ?h => exists h end end. exists 0%nat.
  match goal with |- context[JsonObjectAppendInteger ?h ?o ?k ?z] => let r := eval vm_compute in (JsonObjectAppendInteger h 0%nat k z) in match r with Ok ?h' => exists h' end end.
  exists (0%nat, 1%nat), (Block 3). split; [vm_compute; reflexivity|]. split; [vm_compute; reflexivity|]. split; [vm_compute; reflexivity|]. split; [vm_compute; reflexivity|].
  exists (0%nat, 2%nat), (Block 9), (0%nat, 2%nat). repeat split; vm_compute; reflexivity.
Qed.
Print Assumptions C106_replace_in_loop_refuted.
