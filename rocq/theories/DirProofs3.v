(** Proofs about DirModel.v, III: paths, and file systems with things removed. *)
From Verif Require Import Prelude PreludeFacts Str StrFacts Libc LibcFacts FsModel SafeModel SafeSpec SafeProofs SafeProofs2 SafeProofs3 SafeProofs4 SafeProofs5 DirModel DirSpec DirProofs.
Set Implicit Arguments.

(** ** Paths *)
Lemma plain_of n : Forall (fun c => c <> SLASH) n -> plain n.
Proof.
  intros F. apply forallb_forall. rewrite Forall_forall in F. intros c I. apply F in I. apply negb_true_iff. destruct (beq c SLASH) eqn:B; auto. apply slash_beq in B. contradiction.
Qed.
Lemma split_app a b : split_slash (a ++ SLASH :: b) = split_slash a ++ split_slash b.
Proof.
  induction a as [|c a IH]; [reflexivity|]. cbn [app split_slash]. rewrite IH. destruct (beq c SLASH); [reflexivity|].
  assert (NE : split_slash a <> []). { clear. destruct a as [|c a]; cbn; [easy|]. destruct (beq c SLASH); [easy|]. destruct (split_slash a); easy. }
  destruct (split_slash a) as [|x r]; [easy|]. reflexivity.
Qed.
Section Sub.
  Variables (path n : list byte).
  Hypothesis PL : plain n.
  Hypothesis NE : n <> [].
  Lemma pieces_sub : pieces (path ++ SLASH :: n) = pieces path ++ [n].
  Proof.
    unfold pieces. rewrite split_app, filter_app, (split_plain n PL). f_equal. destruct n; [easy|reflexivity].
  Qed.
  Lemma ends_sub : ends_in_slash (path ++ SLASH :: n) = false.
  Proof. change (SLASH :: n) with ([SLASH] ++ n). rewrite app_assoc, ends_app by exact NE. now apply plain_noslash_end. Qed.
  Lemma names_sub : path_names (path ++ SLASH :: n) = pieces path ++ [n].
  Proof. unfold path_names. rewrite pieces_sub, ends_sub. destruct (pieces path ++ [n]) eqn:X; [destruct (pieces path); discriminate X|reflexivity]. Qed.
  Lemma absolute_sub : path <> [] -> absolute (path ++ SLASH :: n) = absolute path.
  Proof. destruct path; [easy|reflexivity]. Qed.
End Sub.
Lemma subpath_eq path n : length path + S (length n) < PATH_MAX -> subpath path n = path ++ SLASH :: n.
Proof. intros L. unfold subpath. apply firstn_all2. rewrite app_length. cbn [length]. lia. Qed.

Lemma is_dir_inode f i : is_dir f i = true <-> exists es u g p, inodes f i = Some (mkInode (Dir es) u g p).
Proof. unfold is_dir. split; [|intros (es & u & g & p & ->); reflexivity]. destruct (inodes f i) as [[[] u g p]|]; intros; try discriminate; eauto. Qed.
Lemma walk_names L f d p e : walk L f true d (path_names p) = inr e -> is_dir f e = true -> walk L f true d (pieces p) = inr e.
Proof.
  unfold path_names. destruct (pieces p) as [|x r] eqn:P; auto. destruct (ends_in_slash p); auto.
  rewrite walk_dot. destruct (walk L f true d (x :: r)) as [|j]; [discriminate|]. rewrite lookup_dot. destruct (inodes f j) as [[[] ? ? ?]|]; congruence.
Qed.
Definition no_link (f : fs) (i : nat) : Prop := forall t u g p, inodes f i <> Some (mkInode (Lnk t) u g p).
Lemma walk_snoc L f n i follow : follow = false \/ no_link f i ->
  forall ns d e, walk L f true d ns = inr e -> lookup f e n = inr i -> walk L f follow d (ns ++ [n]) = inr i.
Proof.
  intros FL. induction L as [L IHL] using lt_wf_ind. induction ns as [|m ns IH]; intros d e.
  - cbn [app]. rewrite walk_eq, !walk_nil. intros X; injection X as <-. intros ->. destruct (inodes f i) as [[[] ? ? ?]|] eqn:I; rewrite ?walk_nil; auto.
    destruct FL as [->|NL]; [reflexivity|]. exfalso. eapply NL; eauto.
  - cbn [app]. rewrite !(@walk_eq L). destruct (lookup f d m) as [|j]; [discriminate|].
    destruct (inodes f j) as [[[] ? ? ?]|]; try apply IH.
    replace (match ns ++ [n] with [] => negb follow | _ => false end) with false by (destruct ns; auto).
    replace (match ns with [] => negb true | _ => false end) with false by (destruct ns; auto).
    destruct target; [discriminate|]. destruct L; [discriminate|]. rewrite app_assoc. apply IHL. lia.
Qed.
Lemma safely_names T f d p e : safely T f d (path_names p) e -> safely T f d (pieces p) e.
Proof.
  unfold path_names. destruct (pieces p) as [|x r] eqn:P; auto. destruct (ends_in_slash p); auto. clear P. generalize (x :: r). clear x r.
  intros l. revert d. induction l as [|n l IH]; cbn [app]; intros d S; inversion S as [|d' n' s xx j y ns k LK X R Y A S']; subst.
  - inversion S'; subst. assert (D : lookup f d DOT = inr d) by (rewrite lookup_dot in *; destruct (inodes f d) as [[[] ? ? ?]|]; congruence).
    assert (e = d); [|subst; constructor].
    rewrite resolve_names in R by (easy || reflexivity). rewrite plain_names in R by (easy || reflexivity). rewrite walk_eq, D in R.
    rewrite lookup_dot in D. destruct (inodes f d) as [[[] ? ? ?]|]; try discriminate. rewrite walk_nil in R. congruence.
  - econstructor; eauto.
Qed.
Lemma safely_app T f ns ms : forall d e i, safely T f d ns e -> safely T f e ms i -> safely T f d (ns ++ ms) i.
Proof. induction ns as [|n ns IH]; cbn [app]; intros d e i S S'; inversion S; subst; auto. econstructor; eauto. Qed.

(** ** Below *)
Lemma entries_contents f d : entries f d = contents f d.
Proof. unfold entries, contents. destruct (inodes f d) as [[[] ? ? ?]|]; reflexivity. Qed.
Lemma assoc_in es n i : NoDup (map fst es) -> In (n, i) es -> assoc es n = Some i.
Proof.
  induction es as [|[m j] es IH]; cbn; intros ND I; [easy|]. inversion ND as [|? ? NI ND']; subst. destruct I as [X|I].
  - injection X as -> ->. now rewrite bytes_eqb_refl.
  - destruct (bytes_eqb m n) eqn:B; [|now apply IH]. apply bytes_eqb_eq in B. subst. exfalso. apply NI. apply in_map_iff. exists (n, i). auto.
Qed.
Lemma child_dir f d n i : child f d n i -> is_dir f d = true.
Proof. intros (I & _). unfold contents, is_dir in *. destruct (inodes f d) as [[[] ? ? ?]|]; cbn in I; try contradiction. reflexivity. Qed.
Lemma child_lookup f d n i : NoDup (map fst (contents f d)) -> child f d n i -> lookup f d n = inr i.
Proof.
  intros ND C. pose proof (child_dir C) as D. destruct C as (I & N1 & _). apply is_dir_inode in D as (es & u & g & p & D).
  unfold lookup, contents in *. rewrite D in *. cbn in *. rewrite (proj2 (bytes_eqb_neq _ _) N1). now rewrite (assoc_in _ _ _ ND I).
Qed.
Lemma below_app f d ns i ms j : below f d ns i -> below f i ms j -> below f d (ns ++ ms) j.
Proof. induction 1; cbn [app]; auto. intros B. econstructor; eauto. Qed.
Lemma below_child f d n i : child f d n i -> below f d [n] i.
Proof. intros C. econstructor; [exact C|constructor]. Qed.
Lemma dir_below_child f d n i j : child f d n i -> dir_below f i j -> dir_below f d j.
Proof. intros C (ns & B & D). exists (n :: ns). split; auto. econstructor; eauto. Qed.
Lemma tree_nodup f d ns i : tree f d -> below f d ns i -> NoDup (map fst (contents f i)) /\ ~ In DOT (map fst (contents f i)).
Proof. intros T B. pose proof (tree_names T B) as N. inversion N; subst. auto. Qed.
Lemma tree_child f d n i : tree f d -> child f d n i -> tree f i.
Proof.
  intros T C. assert (UP : forall ns j, below f i ns j -> below f d (n :: ns) j) by (intros; econstructor; eauto). constructor.
  - intros ns j B. eapply tree_names; eauto.
  - intros ns j m k B. eapply tree_name; eauto.
  - intros ns j B. eapply tree_sound; eauto.
  - intros ns ns' j B B' D. pose proof (tree_unique T (UP _ _ B) (UP _ _ B') D). congruence.
  - intros ns B. pose proof (tree_root T (UP _ _ B)). discriminate.
Qed.
(** the directories below two objects in a directory are different *)
Lemma tree_apart f d n i n' i' j ns ns' : tree f d -> child f d n i -> child f d n' i' -> below f i ns j -> below f i' ns' j -> is_dir f j = true -> n = n'.
Proof.
  intros T C C' B B' D. assert (X : n :: ns = n' :: ns') by (eapply (tree_unique T); [econstructor|econstructor|]; eauto). congruence.
Qed.
Lemma tree_not_above f d n i ns : tree f d -> child f d n i -> ~ below f i ns d.
Proof.
  intros T C B. pose proof (child_dir C) as D. pose proof (tree_unique T (below_here f d) (below_step C B) D). discriminate.
Qed.

(** ** Removing names *)
Lemma pruned_refl f d : pruned f d f.
Proof. repeat (split; auto). Qed.
Lemma pruned_dir f d f' i : pruned f d f' -> is_dir f' i = is_dir f i.
Proof. intros (_ & _ & _ & P). destruct (P i) as [X|(_ & es & u & g & p & k & X & Y & _)]; unfold is_dir; [now rewrite X|now rewrite X, Y]. Qed.
Lemma pruned_contents f d f' i : pruned f d f' -> exists keep, contents f' i = filter (fun e => keep (fst e)) (contents f i) /\ keep PARENT = true.
Proof.
  intros (_ & _ & _ & P). destruct (P i) as [X|(_ & es & u & g & p & k & X & Y & K)]; unfold contents.
  - exists (fun _ => true). split; auto. rewrite X. symmetry. induction (match inodes f i with Some _ => _ | None => _ end) as [|? ? IH]; cbn; [reflexivity|now rewrite IH].
  - exists k. rewrite X, Y. auto.
Qed.
Lemma pruned_child f d f' i n j : pruned f d f' -> child f' i n j -> child f i n j.
Proof. intros P (I & N). destruct (pruned_contents i P) as (k & C & _). rewrite C in I. apply filter_In in I as [I _]. split; auto. Qed.
Lemma pruned_below f d f' i ns j : pruned f d f' -> below f' i ns j -> below f i ns j.
Proof. intros P B. induction B; [constructor|]. econstructor; eauto. eapply pruned_child; eauto. Qed.
Lemma pruned_dir_below f d f' i j : pruned f d f' -> dir_below f' i j -> dir_below f i j.
Proof. intros P (ns & B & D). exists ns. split; [eapply pruned_below; eauto|]. now rewrite <- (pruned_dir j P). Qed.
Lemma pruned_inode f d f' i : pruned f d f' -> is_dir f i = false -> inodes f' i = inodes f i.
Proof. intros (_ & _ & _ & P) D. destruct (P i) as [X|((ns & _ & D') & _)]; [auto|congruence]. Qed.
Lemma pruned_none f d f' i : pruned f d f' -> inodes f' i = None -> inodes f i = None.
Proof. intros (_ & _ & _ & P). destruct (P i) as [X|(_ & es & u & g & p & k & X & Y & _)]; congruence. Qed.
Lemma filter_filter A (p q : A -> bool) l : filter p (filter q l) = filter (fun x => q x && p x) l.
Proof. induction l as [|a l IH]; cbn; [reflexivity|]. destruct (q a); cbn; [destruct (p a); now rewrite IH|exact IH]. Qed.
Lemma pruned_trans f d f1 i f2 : pruned f d f1 -> (forall j, dir_below f1 i j -> dir_below f d j) -> pruned f1 i f2 -> pruned f d f2.
Proof.
  intros (R1 & C1 & N1 & P1) UP (R2 & C2 & N2 & P2). split; [congruence|]. split; [congruence|]. split; [congruence|].
  intros j. destruct (P2 j) as [X2|(B2 & es & u & g & p & k & X2 & Y2 & K2)].
  - rewrite X2. apply P1.
  - right. split; [now apply UP|]. destruct (P1 j) as [X1|(_ & es1 & u1 & g1 & p1 & k1 & X1 & Y1 & K1)].
    + exists es, u, g, p, k. rewrite <- X1. auto.
    + rewrite Y1 in X2. injection X2 as X U G PP. subst es u g p. exists es1, u1, g1, p1, (fun n => k1 n && k n).
      split; auto. split; [|now rewrite K1, K2]. rewrite Y2. now rewrite filter_filter.
Qed.
Lemma filter_nodup A B (h : A -> B) p (l : list A) : NoDup (map h l) -> NoDup (map h (filter p l)).
Proof.
  induction l as [|a l IH]; cbn; [auto|]. intros N. inversion N as [|? ? NI ND]; subst. destruct (p a); cbn; auto. constructor; auto.
  intros I. apply NI. apply in_map_iff in I as (x & X & I). apply filter_In in I as [I _]. apply in_map_iff. eauto.
Qed.
Lemma tree_pruned f d f' d' : tree f d -> pruned f d' f' -> tree f' d.
Proof.
  intros T P. assert (DN : forall i ns j, below f' i ns j -> below f i ns j) by (intros; eapply pruned_below; eauto). constructor.
  - intros ns i B. destruct (pruned_contents i P) as (k & -> & _). pose proof (tree_names T (DN _ _ _ B)) as N. inversion N as [|? ? NI ND]; subst. constructor; [|now apply filter_nodup].
    intros X. apply NI. apply in_map_iff in X as (x & X & I). apply filter_In in I as [I _]. apply in_map_iff. eauto.
  - intros ns i n j B C. eapply tree_name; eauto. eapply pruned_child; eauto.
  - intros ns i B X. apply (pruned_none i P) in X. exact (tree_sound T (DN _ _ _ B) X).
  - intros ns ns' i B B' D. rewrite (pruned_dir i P) in D. eapply (tree_unique T); eauto.
  - intros ns B. destruct P as (R & P). rewrite R in B. eapply (tree_root T); eauto.
Qed.
(** removing the name of one object *)
Lemma remove_pruned f d d' n : is_dir f d = true -> n <> PARENT -> dir_below f d' d -> pruned f d' (remove_entry f d n).
Proof.
  intros D N B. apply is_dir_inode in D as (es & u & g & p & D). unfold remove_entry. rewrite D. repeat (split; [reflexivity|]).
  intros i. cbn [inodes set_inode]. destruct (Nat.eqb_spec i d) as [->|]; [|now left]. right. split; auto.
  exists es, u, g, p, (fun m => negb (bytes_eqb m n)). split; auto. split; auto. now rewrite (proj2 (bytes_eqb_neq _ _) (not_eq_sym N)).
Qed.
Lemma remove_other f d n i : i <> d -> inodes (remove_entry f d n) i = inodes f i.
Proof. intros X. unfold remove_entry. destruct (inodes f d) as [[[] ? ? ?]|]; auto. cbn. now rewrite (proj2 (Nat.eqb_neq i d) X). Qed.
Lemma remove_contents f d n : contents (remove_entry f d n) d = without n (contents f d).
Proof. unfold remove_entry, contents. destruct (inodes f d) as [[[] ? ? ?]|] eqn:X; cbn; rewrite ?X; cbn; rewrite ?Nat.eqb_refl; reflexivity. Qed.
