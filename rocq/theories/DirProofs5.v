(** Proofs about DirModel.v, V: absolute paths; checking that a small file system is a tree. *)
From Verif Require Import Prelude PreludeFacts Str StrFacts Libc LibcFacts FsModel SafeModel SafeSpec SafeProofs SafeProofs2 SafeProofs3 SafeProofs4 SafeProofs5 DirModel DirSpec DirProofs DirProofs2 DirProofs3 DirProofs4.
Set Implicit Arguments.

Lemma text_snoc ns n : text (ns ++ [n]) = text ns ++ SLASH :: n.
Proof. unfold text. rewrite map_app, concat_app. cbn. now rewrite app_nil_r. Qed.
Definition proper (n : name) : Prop := n <> [] /\ Forall (fun c => c <> SLASH) n.
Lemma text_pieces ns : Forall proper ns -> pieces (text ns) = ns.
Proof.
  induction ns as [|n ns IH] using rev_ind; intros F; [reflexivity|]. apply Forall_app in F as [F1 F2]. inversion F2 as [|? ? [NE PL] _]; subst.
  rewrite text_snoc, pieces_sub by (auto using plain_of). now rewrite IH.
Qed.
Lemma text_names ns : Forall proper ns -> path_names (text ns) = ns.
Proof.
  intros F. destruct ns as [|n ns _] using rev_ind; [reflexivity|]. pose proof F as F'. apply Forall_app in F' as [F1 F2]. inversion F2 as [|? ? [NE PL] _]; subst.
  rewrite text_snoc, names_sub by (auto using plain_of). now rewrite (text_pieces F1).
Qed.
Lemma text_len ns : length (text ns) = text_length ns.
Proof. unfold text. induction ns as [|n ns IH]; cbn; [reflexivity|]. rewrite app_length, IH. reflexivity. Qed.

Section Absolute.
  Variable E : environment.
  Variables (f : fs) (d : nat) (full : list name).
  Hypothesis TR : tree f (rootdir f).
  Hypothesis DD : is_dir f d = true.
  Hypothesis BD : below f (rootdir f) full d.
  Lemma way_down f' : pruned f d f' -> forall ns pre a, below f (rootdir f) pre a -> below f a ns d -> pre ++ ns = full ->
    safely (trusted_uid E) f' a ns d /\ forall L, walk L f' true a ns = inr d.
  Proof.
    intros P. induction ns as [|n ns IH]; intros pre a BA BN EQ; inversion BN as [|? ? b ? ? C B]; subst.
    - split; [constructor|intros; apply walk_nil].
    - assert (BB : below f (rootdir f) (pre ++ [n]) b) by (eapply below_app; [exact BA|now apply below_child]).
      assert (SAME : inodes f' a = inodes f a).
      { destruct P as (_ & _ & _ & P). destruct (P a) as [X|((ms & BM & DM) & _)]; auto. exfalso.
        pose proof (tree_unique TR BA (below_app BD BM) DM) as X. apply (f_equal (@length name)) in X. rewrite !app_length in X. cbn in X. lia. }
      assert (ND : NoDup (map fst (contents f' a))) by (unfold contents; rewrite SAME; apply (tree_nodup TR BA)).
      assert (C' : child f' a n b) by (destruct C as (I & N); split; auto; unfold contents in *; now rewrite SAME).
      pose proof (child_lookup ND C') as LK.
      assert (DB : is_dir f' b = true). { rewrite (pruned_dir b P). inversion B as [|? ? ? ? ? CB]; subst; [exact DD|exact (child_dir CB)]. }
      destruct (IH (pre ++ [n]) b BB B) as [S W]; [now rewrite <- app_assoc|].
      destruct (tree_name TR BA C) as [NE PL]. apply plain_of in PL. apply is_dir_inode in DB as (es & u & g & p & DB). split.
      + eapply safely_step; [exact LK|exact DB| |exact DB|right; split; reflexivity|exact S].
        rewrite resolve_names; auto. 2:{ rewrite <- (app_nil_r n). now apply plain_abs. }
        rewrite plain_names by auto. rewrite walk_eq, LK, DB. apply walk_nil.
      + intros L. rewrite walk_eq, LK, DB. apply W.
  Qed.
  Lemma below_proper : forall ns pre a b, below f (rootdir f) pre a -> below f a ns b -> Forall proper ns.
  Proof.
    induction ns as [|n ns IH]; intros pre a b BA BN; inversion BN as [|? ? c ? ? C B]; subst; constructor.
    - exact (tree_name TR BA C).
    - exact (IH _ _ _ (below_app BA (below_child C)) B).
  Qed.
  Lemma absolute_leads : full <> [] -> leads_to E f (text full) d.
  Proof.
    intros NE f' P. destruct (@way_down f' P full [] (rootdir f)) as [S W]; auto; [constructor|].
    assert (AA : forall l, l <> [] -> absolute (text l) = true /\ text l <> []) by (intros [|x l] X; [now elim X|split; [reflexivity|discriminate]]).
    destruct (AA full NE) as [A TN].
    assert (R : rootdir f' = rootdir f) by apply P.
    assert (N : path_names (text full) = full) by (apply text_names; eapply below_proper; [constructor|exact BD]).
    unfold start. rewrite A, R, N. split; auto. unfold resolve. rewrite A, R, N. destruct (text full); [now elim TN|apply W].
  Qed.
End Absolute.

(** ** Small file systems *)
Section Check.
  Variable f : fs.
  Fixpoint descend (h : nat) (d : nat) : list (list name * nat) :=
    ([], d) :: match h with
               | O => []
               | S h => flat_map (fun e => if bytes_eqb (fst e) DOT || bytes_eqb (fst e) PARENT then [] else map (fun x => (fst e :: fst x, snd x)) (descend h (snd e))) (contents f d)
               end.
  Lemma descend_complete : forall ns h d i, below f d ns i -> length ns <= h -> In (ns, i) (descend h d).
  Proof.
    induction ns as [|n ns IH]; intros h d i B L; inversion B as [|? ? c ? ? C B']; subst; [destruct h; now left|].
    cbn in L. destruct h as [|h]; [lia|]. right. apply in_flat_map. destruct C as (I & N1 & N2). exists (n, c). split; auto. cbn [fst snd].
    rewrite (proj2 (bytes_eqb_neq _ _) N1), (proj2 (bytes_eqb_neq _ _) N2). cbn [orb]. apply in_map_iff. exists (ns, i). split; auto. apply IH; auto. lia.
  Qed.
  Lemma below_split : forall ns k d i, below f d ns i -> k <= length ns -> exists j, below f d (firstn k ns) j.
  Proof.
    induction ns as [|n ns IH]; intros k d i B L; destruct k as [|k]; cbn [firstn]; try (eexists; constructor).
    inversion B as [|? ? c ? ? C B']; subst. cbn in L. destruct (IH k c i B') as [j J]; [lia|]. exists j. econstructor; eauto.
  Qed.
  Lemma descend_bounded h d : forallb (fun x => length (fst x) <=? h) (descend (S h) d) = true -> forall ns i, below f d ns i -> length ns <= h.
  Proof.
    intros H ns i B. destruct (le_lt_dec (length ns) h) as [L|L]; auto. destruct (@below_split ns (S h) d i B L) as [j J].
    assert (X : In (firstn (S h) ns, j) (descend (S h) d)) by (apply descend_complete; auto; rewrite firstn_length; lia). rewrite forallb_forall in H. apply H in X. apply Nat.leb_le in X. cbn [fst] in X. rewrite firstn_length in X. lia.
  Qed.
  Fixpoint nodupb (l : list name) : bool := match l with [] => true | n :: l => negb (existsb (bytes_eqb n) l) && nodupb l end.
  Lemma nodupb_ok l : nodupb l = true -> NoDup l.
  Proof.
    induction l as [|n l IH]; cbn; intros H; [constructor|]. apply andb_true_iff in H as [A B]. constructor; auto. intros I. apply negb_true_iff in A.
    assert (X : existsb (bytes_eqb n) l = true) by (apply existsb_exists; exists n; split; auto; apply bytes_eqb_refl). congruence.
  Qed.
  Definition names_eqb (a b : list name) : bool := if list_eq_dec (list_eq_dec ascii_dec) a b then true else false.
  Lemma names_eqb_eq a b : names_eqb a b = true -> a = b.
  Proof. unfold names_eqb. destruct (list_eq_dec (list_eq_dec ascii_dec) a b); [auto|discriminate]. Qed.
  Definition checkb (h : nat) (d : nat) : bool :=
    let l := descend h d in
    forallb (fun x =>
      nodupb (DOT :: map fst (contents f (snd x))) &&
      forallb (fun e => nonempty (fst e) && forallb (fun c => negb (beq c SLASH)) (fst e)) (contents f (snd x)) &&
      (match inodes f (snd x) with Some _ => true | None => false end) &&
      (negb (snd x =? rootdir f) || names_eqb (fst x) []) &&
      forallb (fun y => negb (is_dir f (snd x) && (snd x =? snd y)) || names_eqb (fst x) (fst y)) l) l.
  Lemma checkb_tree h d : forallb (fun x => length (fst x) <=? h) (descend (S h) d) = true -> checkb h d = true -> tree f d.
  Proof.
    intros HB HC. pose proof (@descend_bounded h d HB) as BO. unfold checkb in HC. rewrite forallb_forall in HC.
    assert (H : forall ns i, below f d ns i -> In (ns, i) (descend h d)) by (intros ns i B; apply descend_complete; eauto).
    constructor; intros ns.
    - intros i B. specialize (HC _ (H _ _ B)). cbn [fst snd] in HC. rewrite !andb_true_iff in HC. destruct HC as [[[[HC _] _] _] _]. now apply nodupb_ok.
    - intros i n j B (I & _). specialize (HC _ (H _ _ B)). cbn [fst snd] in HC. rewrite !andb_true_iff in HC. destruct HC as [[[[_ HC] _] _] _].
      rewrite forallb_forall in HC. specialize (HC _ I). cbn [fst] in HC. apply andb_true_iff in HC as [A C]. split; [now destruct n|].
      apply Forall_forall. intros c IC ->. rewrite forallb_forall in C. specialize (C _ IC). discriminate C.
    - intros i B X. specialize (HC _ (H _ _ B)). cbn [fst snd] in HC. rewrite X, !andb_true_iff in HC. destruct HC as [[[_ HC] _] _]. discriminate HC.
    - intros ns' i B B' D. specialize (HC _ (H _ _ B)). cbn [fst snd] in HC. rewrite !andb_true_iff in HC. destruct HC as [_ HC].
      rewrite forallb_forall in HC. specialize (HC _ (H _ _ B')). cbn [fst snd] in HC. rewrite D, Nat.eqb_refl in HC. cbn [andb negb orb] in HC.
      now apply names_eqb_eq.
    - intros B. specialize (HC _ (H _ _ B)). cbn [fst snd] in HC. rewrite !andb_true_iff in HC. destruct HC as [[_ HC] _].
      rewrite Nat.eqb_refl in HC. cbn [negb orb] in HC. now apply names_eqb_eq in HC.
  Qed.
End Check.
