(** The steps of json.c on memory. *)
From Coq Require Import Permutation.
From Verif Require Import Prelude PreludeFacts Str StrFacts Libc JsonModel JsonHeapModel JsonHeapSpec JsonHeapFacts.
Set Implicit Arguments.

Definition raw (h : heap) (M : list (nat * elem)) (S : list (nat * list byte)) : Prop :=
  has_entries (h_elems h) M /\ has_entries (h_strs h) S /\
  (forall a x, h_elems h a = Some x -> (a < h_next h)%nat) /\ (forall a x, h_strs h a = Some x -> (a < h_next h)%nat).
Lemma forest_raw h F : forest h F <-> raw h (flat_map nodes F) (flat_map strings F) /\ Forall wf F.
Proof. unfold forest, raw. tauto. Qed.
Lemma raw_perm h M M' S S' : raw h M S -> Permutation M M' -> Permutation S S' -> raw h M' S'.
Proof. intros (A & B & C & D) P Q. repeat (split; [eapply entries_perm; eassumption|]). auto. Qed.
Lemma raw_load h M S a e : raw h M S -> In (a, e) M -> load h a = Ok e.
Proof. intros (A & _) I. unfold load. now rewrite (entries_get _ _ A I). Qed.
Lemma raw_text h M S n s : raw h M S -> In (n, s) S -> text h (Block n) = Ok s.
Proof. intros (_ & B & _) I. unfold text. now rewrite (entries_get _ _ B I). Qed.
Definition static_or (S : list (nat * list byte)) (p : sptr) (s : list byte) : Prop := match p with Static t => s = t | Block n => In (n, s) S end.
Lemma raw_content h M S p s : raw h M S -> static_or S p s -> text h p = Ok s.
Proof. intros R C. destruct p; cbn in C; [subst; reflexivity|now apply (raw_text _ _ R)]. Qed.

Lemma raw_store h M S a e e' : raw h ((a, e) :: M) S -> exists h', store h a e' = Ok h' /\ raw h' ((a, e') :: M) S /\ h_next h' = h_next h.
Proof.
  intros R. unfold store. rewrite (raw_load a e R (or_introl eq_refl)). cbn [bind]. eexists. split; [reflexivity|]. split; [|reflexivity]. destruct R as (A & B & C & D).
  split; [exact (entries_set e' A)|]. split; [exact B|]. split; [|exact D]. cbn. intros b x. unfold at_nat. destruct (Nat.eqb_spec b a) as [->|]; [|apply C]. intros _. apply (C a e). apply (entries_head A).
Qed.
Lemma raw_free_str h M S n s : raw h M ((n, s) :: S) -> exists h', free_str h (Block n) = Ok h' /\ raw h' M S /\ h_next h' = h_next h.
Proof.
  intros (A & B & C & D). unfold free_str. rewrite (entries_head B). eexists. split; [reflexivity|]. split; [|reflexivity]. split; [exact A|]. split; [exact (entries_del B)|]. split; [exact C|].
  cbn. intros b x. unfold at_nat. destruct (Nat.eqb_spec b n); [discriminate|apply D].
Qed.
Lemma raw_free_elem h M S a e : raw h ((a, e) :: M) S -> exists h', free_elem h a = Ok h' /\ raw h' M S /\ h_next h' = h_next h.
Proof.
  intros R. unfold free_elem. rewrite (raw_load a e R (or_introl eq_refl)). cbn [bind]. destruct R as (A & B & C & D). eexists. split; [reflexivity|]. split; [|reflexivity]. split; [exact (entries_del A)|]. split; [exact B|]. split; [|exact D].
  cbn. intros b x. unfold at_nat. destruct (Nat.eqb_spec b a); [discriminate|apply C].
Qed.
Lemma raw_fresh_str h M S : raw h M S -> h_strs h (h_next h) = None.
Proof. intros (A & B & C & D). destruct (h_strs h (h_next h)) eqn:E; [|reflexivity]. apply D in E. lia. Qed.
Lemma raw_fresh_elem h M S : raw h M S -> h_elems h (h_next h) = None.
Proof. intros (A & B & C & D). destruct (h_elems h (h_next h)) eqn:E; [|reflexivity]. apply C in E. lia. Qed.
Lemma raw_new_str h M S s : raw h M S -> raw (fst (new_str h s)) M ((h_next h, s) :: S).
Proof.
  intros R. pose proof (raw_fresh_str R) as N. destruct R as (A & B & C & D). unfold new_str. cbn [fst]. split; [exact A|]. split; [exact (entries_add _ s B N)|]. cbn. split.
  - intros a x H. apply C in H. lia.
  - intros a x. unfold at_nat. destruct (Nat.eqb_spec a (h_next h)); [lia|]. intros H. apply D in H. lia.
Qed.
Lemma raw_new_elem h M S e : raw h M S -> raw (fst (new_elem h e)) ((h_next h, e) :: M) S.
Proof.
  intros R. pose proof (raw_fresh_elem R) as N. destruct R as (A & B & C & D). unfold new_elem. cbn [fst]. split; [exact (entries_add _ e A N)|]. split; [exact B|]. cbn. split.
  - intros a x. unfold at_nat. destruct (Nat.eqb_spec a (h_next h)); [lia|]. intros H. apply C in H. lia.
  - intros a x H. apply D in H. lia.
Qed.
Lemma raw_set_children h M S a n k cs cs' : raw h ((a, mkElem n (Cont k cs)) :: M) S ->
  exists h', set_children h a cs' = Ok h' /\ raw h' ((a, mkElem n (Cont k cs')) :: M) S /\ h_next h' = h_next h.
Proof. intros R. unfold set_children. rewrite (raw_load a _ R (or_introl eq_refl)). cbn [bind e_body e_name]. apply (raw_store _ R). Qed.
Lemma raw_children h M S a n k cs : raw h M S -> In (a, mkElem n (Cont k cs)) M -> children_of h k a = Ok cs.
Proof. intros R I. unfold children_of, container. rewrite (raw_load a _ R I). cbn [bind e_body]. unfold massert. destruct k; reflexivity. Qed.
Lemma raw_container h M S a n k cs : raw h M S -> In (a, mkElem n (Cont k cs)) M -> container h a = Ok (k, cs).
Proof. intros R I. unfold container. rewrite (raw_load a _ R I). reflexivity. Qed.
Lemma raw_primitive h M S a n t v : raw h M S -> In (a, mkElem n (Prim t v)) M -> primitive h a = Ok (t, v).
Proof. intros R I. unfold primitive. rewrite (raw_load a _ R I). reflexivity. Qed.
Lemma raw_size h M S : raw h M S -> (length M <= h_next h)%nat.
Proof.
  intros ([N E] & _ & C & _). rewrite <- (map_length fst). replace (h_next h) with (length (seq 0 (h_next h))) by apply seq_length. apply NoDup_incl_length; [exact N|].
  intros a I. apply in_map_iff in I as ([b x] & <- & I). apply E in I. apply C in I. apply in_seq. cbn. lia.
Qed.

(** the name of an element *)
Lemma raw_free_name h M S (n : option (nat * list byte)) : raw h M (olist n ++ S) ->
  exists h', match option_map fst n with Some n => free_str h (Block n) | None => Ok h end = Ok h' /\ raw h' M S /\ h_next h' = h_next h.
Proof. intros R. destruct n as [[n s]|]; cbn [option_map fst olist app] in *; [apply (raw_free_str R)|eauto]. Qed.
Lemma set_name_spec h M S a n b p k : raw h ((a, mkElem (option_map fst n) b) :: M) (olist n ++ S) -> static_or S p k ->
  exists h' m, JsonElementSetPropertyName h a (Some p) = Ok h' /\ raw h' ((a, mkElem (Some m) b) :: M) ((m, k) :: S) /\ m = h_next h /\ h_next h' = Datatypes.S (h_next h).
Proof.
  intros R C. unfold JsonElementSetPropertyName. rewrite (raw_load a _ R (or_introl eq_refl)). cbn [bind e_name e_body].
  assert (X : exists h1 e, match option_map fst n with Some n => let* h := free_str h (Block n) in store h a (mkElem None b) | None => Ok h end = Ok h1 /\ raw h1 ((a, e) :: M) S /\ h_next h1 = h_next h).
  { destruct n as [[n s]|]; cbn [option_map fst olist app] in *.
    - destruct (raw_free_str R) as (h1 & -> & R1 & N1). cbn [bind]. destruct (raw_store (mkElem None b) R1) as (h2 & -> & R2 & N2). exists h2. eexists. split; [reflexivity|]. split; [exact R2|lia].
    - eauto. }
  destruct X as (h1 & e & -> & R1 & N1). cbn [bind]. rewrite (raw_content _ _ R1 C). cbn [bind].
  pose proof (raw_new_str k R1) as R2. destruct (new_str h1 k) as [h2 m] eqn:NS. assert (m = h_next h1 /\ h_next h2 = Datatypes.S (h_next h1)) as [-> N2] by (unfold new_str in NS; injection NS as <- <-; auto). cbn [fst] in R2.
  destruct (raw_store (mkElem (Some (h_next h1)) b) R2) as (h3 & -> & R3 & N3). exists h3, (h_next h1). rewrite <- N1 in *. split; [reflexivity|]. split; [exact R3|]. split; [reflexivity|lia].
Qed.

(** JsonDestroy frees exactly the memory of the tree *)
Lemma flat_map_length_in A B (f : A -> list B) x l : In x l -> (length (f x) <= length (flat_map f l))%nat.
Proof. induction l as [|y l IH]; intros I; [destruct I|]. cbn. rewrite app_length. destruct I as [->|I]; [lia|]. apply IH in I. lia. Qed.
Lemma destroy_spec t : wf t -> forall f h M S, (length (nodes t) <= f)%nat -> raw h (nodes t ++ M) (strings t ++ S) ->
  exists h', JsonDestroy_rec f h (addr t) = Ok h' /\ raw h' M S /\ h_next h' = h_next h.
Proof.
  induction t as [a n p v s|a n k ts IH] using tree_ind'; intros W f h M S L R; (destruct f as [|f]; [cbn in L; lia|]); cbn [JsonDestroy_rec addr].
  - cbn [nodes app strings] in *. rewrite (raw_load a _ R (or_introl eq_refl)). cbn [bind e_body e_name].
    assert (X : exists h1, match p with PNull | PBool => Ok h | _ => free_str h (pointer v s) end = Ok h1 /\ raw h1 ((a, mkElem (option_map fst n) (Prim p (pointer v s))) :: M) (olist n ++ S) /\ h_next h1 = h_next h).
    { inversion W as [? ? ? ? ? V| |]; subst. destruct v as [q|]; cbn [pointer option_map olist] in *.
      - assert (R' : raw h ((a, mkElem (option_map fst n) (Prim p (Block q))) :: M) ((q, s) :: olist n ++ S)) by (eapply raw_perm; [exact R|reflexivity|perm]).
        destruct (raw_free_str R') as (h1 & E & R1 & N1). destruct p; try (exists h1; rewrite E; auto; fail); exfalso; assert (Some q = None) by (apply V; auto); discriminate.
      - assert (p = PBool \/ p = PNull) as [->| ->] by (now apply V); exists h; rewrite app_nil_r in R; auto. }
    destruct X as (h1 & E & R1 & N1).
    replace (match p with PNull | PBool => Ok h | PString | PInt | PReal => free_str h (pointer v s) end) with (Ok h1) by (symmetry; exact E). cbn [bind].
    destruct (raw_free_name _ _ R1) as (h2 & E2 & R2 & N2). match goal with |- context[bind ?A _] => replace A with (Ok h2) by (symmetry; exact E2) end. cbn [bind].
    destruct (raw_free_elem R2) as (h3 & E3 & R3 & N3). exists h3. split; [exact E3|]. split; [exact R3|lia].
  - cbn [nodes app strings length] in *. rewrite (raw_load a _ R (or_introl eq_refl)). cbn [bind e_body e_name].
    assert (FW : Forall wf ts) by (inversion W; assumption). clear W.
    assert (X : exists h1, (fix go (cs : list nat) (h : heap) : res heap := match cs with [] => Ok h | c :: cs => let* h := JsonDestroy_rec f h c in go cs h end) (map addr ts) h = Ok h1 /\
      raw h1 ((a, mkElem (option_map fst n) (Cont k (map addr ts))) :: M) (olist n ++ S) /\ h_next h1 = h_next h).
    { revert R. generalize (mkElem (option_map fst n) (Cont k (map addr ts))). intros e R. assert (L' : Forall (fun t => (length (nodes t) <= f)%nat) ts).
      { apply Forall_forall. intros t I. pose proof (flat_map_length_in nodes _ _ I). lia. }
      clear L. revert h R. induction ts as [|t ts IHts]; intros h R; cbn [map flat_map app] in *; [exists h; rewrite app_nil_r in R; auto|].
      inversion IH as [|? ? IHt IHr]; subst. inversion FW as [|? ? Wt Wr]; subst. inversion L' as [|? ? Lt Lr]; subst.
      destruct (IHt Wt f h ((a, e) :: flat_map nodes ts ++ M) (olist n ++ flat_map strings ts ++ S) Lt) as (h1 & E1 & R1 & N1); [eapply raw_perm; [exact R|perm|perm]|].
      rewrite E1. cbn [bind]. destruct (IHts IHr Wr Lr h1) as (h2 & E2 & R2 & N2); [eapply raw_perm; [exact R1|reflexivity|perm]|]. exists h2. rewrite E2. split; [reflexivity|]. split; [exact R2|lia]. }
    destruct X as (h1 & E & R1 & N1). match goal with |- context[bind ?A _] => replace A with (Ok h1) by (symmetry; exact E) end. cbn [bind].
    destruct (raw_free_name _ _ R1) as (h2 & E2 & R2 & N2). match goal with |- context[bind ?A _] => replace A with (Ok h2) by (symmetry; exact E2) end. cbn [bind].
    destruct (raw_free_elem R2) as (h3 & E3 & R3 & N3). exists h3. split; [exact E3|]. split; [exact R3|lia].
Qed.
Lemma Destroy_spec t h M S : wf t -> raw h (nodes t ++ M) (strings t ++ S) ->
  exists h', JsonDestroy h (Some (addr t)) = Ok h' /\ raw h' M S /\ h_next h' = h_next h.
Proof. intros W R. apply destroy_spec; [exact W| |exact R]. pose proof (raw_size R) as L. rewrite app_length in L. lia. Qed.
Lemma destroy_all_spec ts : Forall wf ts -> forall h M S, raw h (flat_map nodes ts ++ M) (flat_map strings ts ++ S) ->
  exists h', destroy_all h (map addr ts) = Ok h' /\ raw h' M S /\ h_next h' = h_next h.
Proof.
  induction 1 as [|t ts W F IH]; intros h M S R; cbn [map destroy_all flat_map app] in *; [eauto|]. rewrite <- !app_assoc in R.
  destruct (Destroy_spec _ _ W R) as (h1 & E1 & R1 & N1). rewrite E1. cbn [bind]. destruct (IH _ _ _ R1) as (h2 & E2 & R2 & N2). exists h2. split; [exact E2|]. split; [exact R2|lia].
Qed.
