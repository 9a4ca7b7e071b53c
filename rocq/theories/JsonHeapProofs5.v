(** Calls and programs. *)
From Coq Require Import Permutation.
From Verif Require Import Prelude PreludeFacts Str StrFacts Libc NumModel JsonModel JsonHeapModel JsonHeapSpec JsonHeapFacts JsonHeapProofs JsonHeapProofs2 JsonHeapProofs3 JsonHeapProofs4.
Set Implicit Arguments.
Local Notation tkey := JsonHeapSpec.key.

Lemma to_int_small z : (- 2 ^ 31 <= z < 2 ^ 31)%Z -> to_int z = z.
Proof. intros H. unfold to_int. cbv zeta. change (2 ^ 31)%Z with 2147483648%Z in *. change (2 ^ 32)%Z with 4294967296%Z in *. destruct (Z.leb_spec 2147483648 (z mod 4294967296)); Z.div_mod_to_equations; lia. Qed.
Section Reads.
  Variables (h : heap) (K : context).
  Lemma read_children a n k ts : forest h (fill K (TC a n k ts)) -> children_of h k a = Ok (map addr ts) /\ container h a = Ok (k, map addr ts).
  Proof.
    intros FO. pose proof (forest_load _ _ FO) as L. cbn [addr hbody] in L. unfold children_of, container. rewrite L. cbn [bind e_body]. split; [unfold massert; destruct k|]; reflexivity.
  Qed.
  Lemma read_members a n ts M S : forest h (fill K (TC a n KObject ts)) -> M = flat_map nodes (fill K (TC a n KObject ts)) -> S = flat_map strings (fill K (TC a n KObject ts)) -> raw h M S /\ Forall (in_memory M S) ts.
  Proof.
    intros FO -> ->. apply forest_raw in FO as [R W]. split; [exact R|]. apply fill_wf_in in W. apply members_wf in W as (_ & NM & _). apply in_memory_all; [| |exact NM].
    - intros x I. apply (Permutation_in _ (Permutation_sym (fill_nodes K _))). apply in_or_app. left. cbn [nodes]. now right.
    - intros x I. apply (Permutation_in _ (Permutation_sym (fill_strings K _))). apply in_or_app. left. cbn [strings]. apply in_or_app. now right.
  Qed.
  Lemma read_object a n ts p k : forest h (fill K (TC a n KObject ts)) -> content (fill K (TC a n KObject ts)) p k -> JsonObjectGet h a p = Ok (option_map addr (hd_error (named k ts))).
  Proof.
    intros FO C. unfold JsonObjectGet. destruct (read_children _ _ _ _ FO) as [-> _]. cbn [bind]. destruct (read_members _ _ _ FO eq_refl eq_refl) as [R IM]. exact (lookup_spec _ _ R C IM).
  Qed.
  Lemma read_at a n k l x y : forest h (fill K (TC a n k (l ++ x :: y))) -> JsonAt h a (length l) = Ok (addr x).
  Proof.
    intros FO. unfold JsonAt. destruct (read_children _ _ _ _ FO) as [_ ->]. cbn [bind]. rewrite map_app. cbn [map]. rewrite nth_error_app2 by (rewrite map_length; lia). rewrite map_length, Nat.sub_diag. reflexivity.
  Qed.
  Lemma read_length a n k ts : forest h (fill K (TC a n k ts)) -> JsonLength h a = Ok (length ts).
  Proof. intros FO. pose proof (forest_load _ _ FO) as L. cbn [addr hbody] in L. unfold JsonLength. rewrite L. cbn [bind e_body]. now rewrite map_length. Qed.
  Lemma read_name x : forest h (fill K x) -> JsonElementGetPropertyName h (addr x) = Ok (option_map (fun n => Block (fst n)) (name x)).
  Proof. intros FO. unfold JsonElementGetPropertyName. rewrite (forest_load _ _ FO). cbn [bind e_name]. destruct (name x) as [[? ?]|]; reflexivity. Qed.
  Lemma read_primitive a n t v s : forest h (fill K (TP a n t v s)) -> primitive h a = Ok (t, pointer v s) /\ text h (pointer v s) = Ok s /\ content (fill K (TP a n t v s)) (pointer v s) s.
  Proof.
    intros FO. pose proof (forest_load _ _ FO) as L. cbn [addr hbody] in L. split; [unfold primitive; rewrite L; reflexivity|]. split; [exact (value_text _ _ _ _ _ _ FO)|].
    destruct v as [q|]; cbn [pointer content]; [|reflexivity]. apply (fill_string _ _ _ FO). cbn [strings]. apply in_or_app. right. now left.
  Qed.
End Reads.

Section Calls.
  Variable fmt4 : list byte -> list byte.
  (** creating *)
  Lemma make_spec h F m j : forest h F -> made F m j -> exists h' t, make h m = Ok (h', addr t) /\ forest h' (t :: F) /\ name t = None /\ value t = j.
  Proof.
    intros FO MD.
    assert (D : forall r, created F r j -> exists h' t, Ok r = Ok (h', addr t) /\ forest h' (t :: F) /\ name t = None /\ value t = j).
    { intros [h' b] (t & A & N & V & FO'). cbn [fst snd] in *. subst b. exists h', t. auto. }
    destruct m; cbn [make made] in *.
    - subst j. apply D, created_object, FO.
    - subst j. apply D, created_array, FO.
    - destruct MD as (s & C & ->). destruct (created_string _ _ FO C) as (r & -> & CR). apply D, CR.
    - destruct MD as (B & ->). apply D. pose proof (created_integer z FO) as C. unfold JsonModel.JsonIntegerCreate in C. now rewrite (to_int_small B) in C.
    - subst j. apply D, created_integer64, FO.
    - subst j. apply D, created_real, FO.
    - subst j. apply D, created_bool, FO.
    - subst j. apply D, created_null, FO.
  Qed.
  (** the kind of what was created *)
  Lemma container_made h F t k : forest h (t :: F) -> value t = match k with KObject => JObj [] | KArray => JArr [] end -> children_of h k (addr t) = Ok [].
  Proof.
    intros FO V. destruct t as [a n p v s|a n k' ts]; [destruct k; discriminate V|]. rewrite <- (fill_beside F) in FO. assert (k' = k /\ ts = []) as [-> ->].
    { destruct k, k'; cbn in V; try discriminate V; (split; [reflexivity|]); destruct ts; [reflexivity|discriminate V|reflexivity|discriminate V]. }
    destruct (read_children _ _ _ _ _ FO) as [E _]. exact E.
  Qed.
  Lemma append_made h a p m : exec fmt4 h (ObjectAppend a p m) = (let* ' (h, e) := make h m in let* _ := match m with MObject => children_of h KObject e | MArray => children_of h KArray e | _ => Ok [] end in let* h := JsonObjectAppendElement h a p e in Ok (h, ANone)).
  Proof.
    destruct m; cbn [exec make]; unfold JsonObjectAppendString, JsonObjectAppendInteger, JsonObjectAppendInteger64, JsonObjectAppendReal, JsonObjectAppendBool, JsonObjectAppendNull, JsonObjectAppendObject, JsonObjectAppendArray.
    - destruct (JsonObjectCreate h) as [h1 e]. cbn [bind]. destruct (children_of h1 KObject e); reflexivity.
    - destruct (JsonArrayCreate h) as [h1 e]. cbn [bind]. destruct (children_of h1 KArray e); reflexivity.
    - destruct (JsonStringCreate h p0) as [[h1 e]| | |]; reflexivity.
    - destruct (JsonIntegerCreate h z); reflexivity.
    - destruct (JsonIntegerCreate64 h z); reflexivity.
    - destruct (JsonRealCreate h printed); reflexivity.
    - destruct (JsonBoolCreate h b); reflexivity.
    - destruct (JsonNullCreate h); reflexivity.
  Qed.
  Lemma array_made h a m : exec fmt4 h (ArrayAppend a m) = (let* ' (h, e) := make h m in let* _ := match m with MObject => children_of h KObject e | MArray => children_of h KArray e | _ => Ok [] end in let* h := JsonArrayAppendElement h a e in Ok (h, ANone)).
  Proof.
    destruct m; cbn [exec make]; unfold JsonArrayAppendString, JsonArrayAppendInteger, JsonArrayAppendReal, JsonArrayAppendBool, JsonArrayAppendNull, JsonArrayAppendObject, JsonArrayAppendArray.
    - destruct (JsonObjectCreate h) as [h1 e]. cbn [bind]. destruct (children_of h1 KObject e); reflexivity.
    - destruct (JsonArrayCreate h) as [h1 e]. cbn [bind]. destruct (children_of h1 KArray e); reflexivity.
    - destruct (JsonStringCreate h p) as [[h1 e]| | |]; reflexivity.
    - destruct (JsonIntegerCreate h z); reflexivity.
    - destruct (JsonIntegerCreate64 h z); reflexivity.
    - destruct (JsonRealCreate h printed); reflexivity.
    - destruct (JsonBoolCreate h b); reflexivity.
    - destruct (JsonNullCreate h); reflexivity.
  Qed.
  Lemma kind_checked h F m j t : forest h (t :: F) -> made F m j -> value t = j -> exists l, match m with MObject => children_of h KObject (addr t) | MArray => children_of h KArray (addr t) | _ => Ok [] end = Ok l.
  Proof.
    intros FO MD V. destruct m; try (eexists; reflexivity); cbn [made] in MD; subst j; exists []; [apply (container_made KObject FO)|apply (container_made KArray FO)]; exact V.
  Qed.
  Lemma content_perm F G p s : Permutation F G -> content F p s -> content G p s.
  Proof. intros P. rewrite !content_static. apply static_perm. now apply Permutation_flat_map. Qed.

  Theorem exec_spec h F c P : forest h F -> rule fmt4 F c P -> exists h' r F', exec fmt4 h c = Ok (h', r) /\ forest h' F' /\ P F' r.
  Proof.
    intros FO RU. destruct RU as [m j MD|K a n ts p k m j -> MD C NA|K a n ts p k e PE C NA|K a n ts m j -> MD|K a n ts e PE|K a n ts b nb us PE|K a n ts p k -> C|K a n ts p k -> C|K a n l x y NX ->|K a n ts ->|e G PE| |K x j -> CJ|K a n ts p k -> C|K a n k l x y ->|K a n k ts ->|K x ->|K a n t v s ->].
    - destruct (make_spec m j FO MD) as (h' & t & E & FO' & N & V). cbn [exec]. rewrite E. cbn [bind]. exists h', (AElem (addr t)), (t :: F). split; [reflexivity|]. split; [exact FO'|]. exists t. auto.
    - rewrite append_made. destruct (make_spec m j FO MD) as (h1 & t & E & FO1 & N & V). rewrite E. cbn [bind]. destruct (@kind_checked _ _ m j t FO1 MD V) as (l & ->). cbn [bind].
      destruct (@object_append K a n h1 [] t ts p k) as (h2 & q & E2 & FO2); [exact FO1| | |].
      + destruct p; cbn [content app] in *; [exact C|]. cbn [flat_map]. apply in_or_app. now right.
      + rewrite N. cbn [olist app]. exact NA.
      + rewrite E2. cbn [bind]. exists h2, ANone, (fill K (TC a n KObject (others k ts ++ [renamed (Some (q, k)) t]))). split; [reflexivity|]. split; [exact FO2|]. exists (renamed (Some (q, k)) t). unfold tkey. rewrite name_renamed, value_renamed. split; [discriminate|auto].
    - destruct (@object_append K a n h [] e ts p k) as (h2 & q & E2 & FO2); [exact (forest_perm FO PE)|exact (content_perm _ _ PE C)|exact NA|].
      cbn [exec]. rewrite E2. cbn [bind]. exists h2, ANone. eexists. split; [reflexivity|]. split; [exact FO2|]. exists q. auto.
    - rewrite array_made. destruct (make_spec m j FO MD) as (h1 & t & E & FO1 & N & V). rewrite E. cbn [bind]. destruct (@kind_checked _ _ m j t FO1 MD V) as (l & ->). cbn [bind].
      destruct (@array_append K a n h1 [] t ts FO1) as (h2 & E2 & FO2). rewrite E2. cbn [bind]. exists h2, ANone. eexists. split; [reflexivity|]. split; [exact FO2|]. exists t. auto.
    - destruct (@array_append K a n h [] e ts (forest_perm FO PE)) as (h2 & E2 & FO2). cbn [exec]. rewrite E2. cbn [bind]. exists h2, ANone. eexists. split; [reflexivity|]. split; [exact FO2|]. auto.
    - destruct (@array_extend K a n h [] b nb us ts (forest_perm FO PE)) as (h2 & E2 & FO2). cbn [exec]. rewrite E2. cbn [bind]. exists h2, ANone. eexists. split; [reflexivity|]. split; [exact FO2|]. auto.
    - destruct (@object_remove K a n h [] ts p k FO C) as (h2 & E2 & FO2). cbn [exec]. rewrite E2. cbn [bind]. eexists h2, _, _. split; [reflexivity|]. split; [exact FO2|]. split; [reflexivity|]. destruct (named k ts); reflexivity.
    - destruct (@object_detach K a n h [] ts p k FO C) as (h2 & E2 & FO2). cbn [exec]. rewrite E2. cbn [bind]. eexists h2, _, _. split; [reflexivity|]. split; [exact FO2|]. auto.
    - assert (LX : (0 < length x)%nat) by (destruct x; [congruence|cbn; lia]). destruct (@array_remove K a n h [] l x y (length l) (length l + length x - 1)) as (h2 & E2 & FO2); [reflexivity|lia|exact NX|exact FO|]. cbn [exec]. rewrite E2. cbn [bind]. eexists h2, _, _. split; [reflexivity|]. split; [exact FO2|]. auto.
    - destruct (@array_reverse K a n h [] ts FO) as (h2 & E2 & FO2). cbn [exec]. rewrite E2. cbn [bind]. eexists h2, _, _. split; [reflexivity|]. split; [exact FO2|]. auto.
    - destruct (forest_destroy (forest_perm FO PE)) as (h2 & E2 & FO2). cbn [exec]. rewrite E2. cbn [bind]. eexists h2, _, _. split; [reflexivity|]. split; [exact FO2|]. auto.
    - cbn [exec JsonDestroy bind]. eexists h, _, _. split; [reflexivity|]. split; [exact FO|]. auto.
    - destruct (forest_copy fmt4 K x FO CJ) as (h2 & t & E2 & FO2 & N & V). cbn [exec]. rewrite E2. cbn [bind]. eexists h2, _, _. split; [reflexivity|]. split; [exact FO2|]. exists t. auto.
    - cbn [exec]. rewrite (@read_object h K a n ts p k FO C). cbn [bind]. eexists h, _, _. split; [reflexivity|]. split; [exact FO|]. auto.
    - cbn [exec]. rewrite (@read_at h K a n k l x y FO). cbn [bind]. eexists h, _, _. split; [reflexivity|]. split; [exact FO|]. auto.
    - cbn [exec]. rewrite (@read_length h K a n k ts FO). cbn [bind]. eexists h, _, _. split; [reflexivity|]. split; [exact FO|]. auto.
    - cbn [exec]. rewrite (@read_name h K x FO). cbn [bind]. eexists h, _, _. split; [reflexivity|]. split; [exact FO|]. auto.
    - destruct (@read_primitive h K a n t v s FO) as (E & _ & C). cbn [exec]. unfold JsonPrimitiveGetAsString. rewrite E. cbn [bind]. eexists h, _, _. split; [reflexivity|]. split; [exact FO|]. eauto.
  Qed.
  Theorem run_spec p : forall h F Q, forest h F -> follows fmt4 F p Q -> exists h' F', run fmt4 h p = Ok h' /\ forest h' F' /\ Q F'.
  Proof.
    induction p as [|c next IH]; intros h F Q FO FL; cbn [follows run] in *; [exists h, F; auto|]. destruct FL as (P & RU & FL). destruct (exec_spec FO RU) as (h1 & r & F1 & E & FO1 & PF). rewrite E. cbn [bind]. exact (IH r h1 F1 Q FO1 (FL F1 r PF)).
  Qed.
End Calls.
Lemma forest_empty : forest empty_heap [].
Proof. unfold forest, empty_heap, has_entries. cbn. repeat split; try constructor; try discriminate; intros []. Qed.
Lemma forest_nothing h : forest h [] -> (forall a, h_elems h a = None) /\ (forall a, h_strs h a = None).
Proof. intros (A & B & _). split; intros a; [exact (entries_none a A (fun x => x))|exact (entries_none a B (fun x => x))]. Qed.
