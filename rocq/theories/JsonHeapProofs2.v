(** Operations on objects and arrays in memory. *)
From Coq Require Import Permutation.
From Verif Require Import Prelude PreludeFacts Str StrFacts Libc JsonModel JsonHeapModel JsonHeapSpec JsonHeapFacts JsonHeapProofs.
Set Implicit Arguments.
Local Notation tkey := JsonHeapSpec.key.

Definition hbody (t : tree) : body := match t with TP _ _ t v s => Prim t (pointer v s) | TC _ _ k ts => Cont k (map addr ts) end.
Definition below (t : tree) : list (nat * elem) := match t with TP _ _ _ _ _ => [] | TC _ _ _ ts => flat_map nodes ts end.
Definition sbelow (t : tree) : list (nat * list byte) := match t with TP _ _ _ v s => olist (option_map (fun p => (p, s)) v) | TC _ _ _ ts => flat_map strings ts end.
Lemma nodes_head t : nodes t = (addr t, mkElem (option_map fst (name t)) (hbody t)) :: below t. Proof. destruct t; reflexivity. Qed.
Lemma strings_head t : strings t = olist (name t) ++ sbelow t. Proof. destruct t; reflexivity. Qed.
Lemma nodes_renamed n t : nodes (renamed n t) = (addr t, mkElem (option_map fst n) (hbody t)) :: below t. Proof. destruct t; reflexivity. Qed.
Lemma strings_renamed n t : strings (renamed n t) = olist n ++ sbelow t. Proof. destruct t; reflexivity. Qed.
Lemma addr_renamed n t : addr (renamed n t) = addr t. Proof. destruct t; reflexivity. Qed.
Lemma name_renamed n t : name (renamed n t) = n. Proof. destruct t; reflexivity. Qed.
Lemma value_renamed n t : value (renamed n t) = value t. Proof. destruct t; reflexivity. Qed.
Lemma wf_renamed n t : wf t -> wf (renamed n t). Proof. intros W. inversion W; subst; constructor; auto. Qed.

(** ** the member with a name *)
Fixpoint first_named (k : list byte) (ts : list tree) : option nat :=
  match ts with [] => None | t :: ts => if bytes_eqb k (tkey t) then Some 0%nat else option_map S (first_named k ts) end.
Lemma others_all k ts : ~ In k (map tkey ts) -> others k ts = ts /\ named k ts = [] /\ first_named k ts = None.
Proof.
  induction ts as [|t ts IH]; intros N; [cbn; auto|]. cbn [others named filter first_named map In] in *. assert (BE : bytes_eqb k (tkey t) = false) by (apply bytes_eqb_neq; intros ->; apply N; auto). rewrite BE. cbn [negb].
  destruct IH as (A & B & C); [intros I; apply N; auto|]. fold (others k ts) (named k ts). rewrite A, B, C. auto.
Qed.
Lemma pick k ts : NoDup (map tkey ts) -> (others k ts = ts /\ named k ts = [] /\ first_named k ts = None) \/
  exists l t r, ts = l ++ t :: r /\ tkey t = k /\ others k ts = l ++ r /\ named k ts = [t] /\ first_named k ts = Some (length l).
Proof.
  induction ts as [|t ts IH]; intros ND; [left; cbn; auto|]. cbn [map] in ND. inversion ND as [|? ? NI ND']; subst. cbn [others named filter first_named].
  destruct (bytes_eqb k (tkey t)) eqn:B.
  - apply bytes_eqb_eq in B. subst k. right. exists [], t, ts. cbn [negb app length]. fold (others (tkey t) ts) (named (tkey t) ts). destruct (others_all _ _ NI) as (-> & -> & _). auto.
  - cbn [negb]. fold (others k ts) (named k ts). destruct (IH ND') as [(-> & -> & ->)|(l & t' & r & -> & K & -> & -> & ->)]; [left; auto|]. right. exists (t :: l), t', r. cbn. auto.
Qed.
Definition in_memory (M : list (nat * elem)) (S : list (nat * list byte)) (t : tree) : Prop :=
  In (addr t, mkElem (option_map fst (name t)) (hbody t)) M /\ exists n, name t = Some (n, tkey t) /\ In (n, tkey t) S.
Lemma in_memory_all M S ts : incl (flat_map nodes ts) M -> incl (flat_map strings ts) S -> Forall (fun t => name t <> None) ts -> Forall (in_memory M S) ts.
Proof.
  intros I J N. rewrite Forall_forall in *. intros t IT. specialize (N t IT). destruct (name t) as [[n k]|] eqn:NT; [|congruence]. split.
  - apply I. apply in_flat_map. exists t. split; [exact IT|]. rewrite nodes_head, NT. now left.
  - unfold tkey. rewrite NT. exists n. split; [reflexivity|]. apply J. apply in_flat_map. exists t. split; [exact IT|]. rewrite strings_head, NT. now left.
Qed.
Lemma index_spec h M S p k : raw h M S -> static_or S p k -> forall ts i, Forall (in_memory M S) ts -> index_of h (map addr ts) p i = Ok (option_map (Nat.add i) (first_named k ts)).
Proof.
  intros R C. induction ts as [|t ts IH]; intros i F; [reflexivity|]. inversion F as [|? ? (I & n & N & J) F']; subst. cbn [map index_of first_named]. rewrite (raw_load _ _ R I). cbn [bind e_name]. rewrite N. cbn [option_map fst].
  rewrite (raw_content _ _ R C). cbn [bind]. rewrite (raw_text _ _ R J). cbn [bind]. destruct (bytes_eqb k (tkey t)); [cbn [option_map]; now rewrite Nat.add_0_r|]. rewrite IH by exact F'. destruct (first_named k ts); cbn [option_map]; [do 2 f_equal; lia|reflexivity].
Qed.
Lemma lookup_spec h M S p k : raw h M S -> static_or S p k -> forall ts, Forall (in_memory M S) ts -> lookup h (map addr ts) p = Ok (option_map addr (hd_error (named k ts))).
Proof.
  intros R C. induction ts as [|t ts IH]; intros F; [reflexivity|]. inversion F as [|? ? (I & n & N & J) F']; subst. cbn [map lookup named filter]. rewrite (raw_load _ _ R I). cbn [bind e_name]. rewrite N. cbn [option_map fst].
  rewrite (raw_content _ _ R C). cbn [bind]. rewrite (raw_text _ _ R J). cbn [bind]. fold (named k ts). destruct (bytes_eqb k (tkey t)); [reflexivity|]. now apply IH.
Qed.
Lemma incl_perm_l A (a b m : list A) : Permutation m (a ++ b) -> incl a m. Proof. intros P x I. apply (Permutation_in _ (Permutation_sym P)). apply in_or_app. now left. Qed.
Lemma static_incl S S' p k : incl S S' -> static_or S p k -> static_or S' p k. Proof. intros I. destruct p; cbn; auto. Qed.

(** ** the children of a container *)
Lemma remove_range_spec h M S a n k ts l x r start fin : ts = l ++ x ++ r -> start = length l -> Datatypes.S fin = (length l + length x)%nat -> x <> [] -> Forall wf x ->
  raw h ((a, mkElem n (Cont k (map addr ts))) :: flat_map nodes ts ++ M) (flat_map strings ts ++ S) ->
  exists h', remove_range h a (map addr ts) start fin = Ok h' /\ raw h' ((a, mkElem n (Cont k (map addr (l ++ r)))) :: flat_map nodes (l ++ r) ++ M) (flat_map strings (l ++ r) ++ S) /\ h_next h' = h_next h.
Proof.
  intros -> -> FX NX W R. unfold remove_range. rewrite map_length, !app_length. assert (LX : (0 < length x)%nat) by (destruct x; [congruence|cbn; lia]).
  unfold massert. destruct (Nat.ltb_spec fin (length l + (length x + length r))); [|lia]. destruct (Nat.leb_spec (length l) fin); [|lia]. cbn [andb]. rewrite FX.
  rewrite !map_app. replace (length l + length x - length l)%nat with (length (map addr x)) by (rewrite map_length; lia).
  rewrite skipn_app_ge by (rewrite map_length; lia). replace (length l - length (map addr l))%nat with 0%nat by (rewrite map_length; lia). cbn [skipn]. rewrite firstn_app_le by lia. rewrite firstn_all.
  rewrite !flat_map_app in R. destruct (@destroy_all_spec x W h ((a, mkElem n (Cont k (map addr (l ++ x ++ r)))) :: flat_map nodes (l ++ r) ++ M) (flat_map strings (l ++ r) ++ S)) as (h1 & E1 & R1 & N1).
  { eapply raw_perm; [exact R|rewrite flat_map_app; perm|rewrite flat_map_app; perm]. }
  rewrite E1. cbn [bind]. destruct (raw_set_children (map addr (l ++ r)) R1) as (h2 & E2 & R2 & N2).
  replace (firstn (length l) (map addr l ++ map addr x ++ map addr r) ++ skipn (length l + length x) (map addr l ++ map addr x ++ map addr r)) with (map addr (l ++ r)).
  - exists h2. split; [exact E2|]. split; [rewrite <- map_app; exact R2|lia].
  - rewrite firstn_app_le by (rewrite map_length; lia). rewrite firstn_all2 by (rewrite map_length; lia). rewrite skipn_app_ge by (rewrite map_length; lia). rewrite map_length. rewrite skipn_app_ge by (rewrite map_length; lia). rewrite map_length.
    replace (length l + length x - length l - length x)%nat with 0%nat by lia. cbn [skipn]. apply map_app.
Qed.
Definition members (ts : list tree) : Prop := Forall wf ts /\ Forall (fun t => name t <> None) ts /\ NoDup (map tkey ts).
Lemma RemoveKey_spec h M S a n ts p k : members ts -> static_or (flat_map strings ts ++ S) p k ->
  raw h ((a, mkElem n (Cont KObject (map addr ts))) :: flat_map nodes ts ++ M) (flat_map strings ts ++ S) ->
  exists h', JsonObjectRemoveKey h a p = Ok (h', negb (match named k ts with [] => true | _ => false end)) /\
    raw h' ((a, mkElem n (Cont KObject (map addr (others k ts)))) :: flat_map nodes (others k ts) ++ M) (flat_map strings (others k ts) ++ S) /\ h_next h' = h_next h.
Proof.
  intros (W & NM & ND) C R. unfold JsonObjectRemoveKey, JsonElementIndexInParentObject. rewrite (raw_children _ _ _ _ R (or_introl eq_refl)). cbn [bind].
  rewrite (index_spec _ _ R C) by (apply in_memory_all; [intros x I; right; apply in_or_app; now left|intros x I; apply in_or_app; now left|exact NM]). cbn [bind].
  destruct (pick k ts ND) as [(-> & -> & ->)|(l & t & r & E & K & -> & -> & ->)]; cbn [option_map bind negb]; [eauto|].
  assert (WT : Forall wf [t]) by (constructor; [rewrite Forall_forall in W; apply W; rewrite E; apply in_elt|constructor]).
  destruct (@remove_range_spec h M S a n KObject ts l [t] r (0 + length l) (0 + length l)) as (h1 & E1 & R1 & N1); [exact E|reflexivity|cbn; lia|discriminate|exact WT|exact R|].
  rewrite E1. cbn [bind]. eauto.
Qed.
Lemma others_members k ts : members ts -> members (others k ts) /\ ~ In k (map tkey (others k ts)).
Proof.
  intros (W & NM & ND). destruct (pick k ts ND) as [(E & Nn & F)|(l & t & r & E & K & O & _)].
  - rewrite E. split; [split; auto|]. intros I. apply in_map_iff in I as (t & KT & I). assert (J : In t (named k ts)) by (unfold named; apply filter_In; split; [exact I|rewrite <- KT; apply bytes_eqb_refl]). rewrite Nn in J. destruct J.
  - rewrite O. subst ts. rewrite Forall_app in W, NM. destruct W as [W1 W2], NM as [N1 N2]. inversion W2; subst. inversion N2; subst. rewrite map_app in ND. cbn [map] in ND. pose proof (NoDup_remove_1 _ _ _ ND) as ND1. pose proof (NoDup_remove_2 _ _ _ ND) as ND2.
    split; [split; [apply Forall_app; auto|split; [apply Forall_app; auto|now rewrite map_app]]|now rewrite map_app].
Qed.
Lemma DetachKey_spec h M S a n ts p k : members ts -> static_or (flat_map strings ts ++ S) p k ->
  raw h ((a, mkElem n (Cont KObject (map addr ts))) :: flat_map nodes ts ++ M) (flat_map strings ts ++ S) ->
  exists h', JsonObjectDetachKey h a p = Ok (h', option_map addr (hd_error (named k ts))) /\
    raw h' ((a, mkElem n (Cont KObject (map addr (others k ts)))) :: flat_map nodes (named k ts) ++ flat_map nodes (others k ts) ++ M) (flat_map strings (named k ts) ++ flat_map strings (others k ts) ++ S) /\ h_next h' = h_next h.
Proof.
  intros (W & NM & ND) C R. unfold JsonObjectDetachKey, JsonElementIndexInParentObject. rewrite (raw_children _ _ _ _ R (or_introl eq_refl)). cbn [bind].
  assert (IM : Forall (in_memory ((a, mkElem n (Cont KObject (map addr ts))) :: flat_map nodes ts ++ M) (flat_map strings ts ++ S)) ts).
  { apply in_memory_all; [intros x I; right; apply in_or_app; now left|intros x I; apply in_or_app; now left|exact NM]. }
  rewrite (index_spec _ _ R C) by exact IM. cbn [bind]. rewrite (lookup_spec _ _ R C IM).
  destruct (pick k ts ND) as [(-> & -> & ->)|(l & t & r & E & K & -> & -> & ->)]; cbn [option_map bind hd_error]; [exists h; auto|].
  destruct (raw_set_children (map addr (l ++ r)) R) as (h1 & E1 & R1 & N1).
  replace (firstn (0 + length l) (map addr ts) ++ skipn (Datatypes.S (0 + length l)) (map addr ts)) with (map addr (l ++ r)).
  - rewrite E1. cbn [bind]. exists h1. split; [reflexivity|]. split; [|exact N1]. eapply raw_perm; [exact R1| |]; subst ts; rewrite !flat_map_app; cbn [flat_map]; perm.
  - subst ts. rewrite !map_app. cbn [map Nat.add]. rewrite firstn_app_le by (rewrite map_length; lia). rewrite firstn_all2 by (rewrite map_length; lia). rewrite skipn_app_ge by (rewrite map_length; lia). rewrite map_length.
    replace (Datatypes.S (length l) - length l)%nat with 1%nat by lia. reflexivity.
Qed.
