(** Proofs about SafeModel.v, III: safe_open when nobody else is at work. *)
From Verif Require Import Prelude PreludeFacts Str StrFacts Libc LibcFacts FsModel SafeModel SafeSpec SafeProofs SafeProofs2.
Set Implicit Arguments.

Notation plain n := (forallb (fun c => negb (beq c SLASH)) n = true).

(** one layer of [walk] *)
Lemma walk_eq L f follow d n rest :
  walk L f follow d (n :: rest) =
    match lookup f d n with
    | inl e => inl e
    | inr i =>
        match inodes f i with
        | Some (mkInode (Lnk t) _ _ _) =>
            if match rest with [] => negb follow | _ => false end then inr i
            else match t with
                 | [] => inl ENOENT
                 | _ => match L with O => inl ELOOP | S l => walk l f follow (if absolute t then rootdir f else d) (path_names t ++ rest) end
                 end
        | _ => walk L f follow i rest
        end
    end.
Proof. destruct L; reflexivity. Qed.
Lemma walk_nil L f follow d : walk L f follow d [] = inr d.
Proof. destruct L; reflexivity. Qed.

Lemma resolve_plain_no f d n : n <> [] -> plain n -> resolve f false d n = lookup f d n.
Proof.
  intros NE P. unfold resolve. destruct n as [|c n]; [easy|].
  rewrite plain_names by auto. cbn in P. apply andb_true_iff in P as [P _]. apply negb_true_iff in P.
  cbn [absolute]. rewrite P. rewrite walk_eq. destruct (lookup f d (c :: n)) as [|i]; auto.
  destruct (inodes f i) as [[[] ? ? ?]|]; rewrite ?walk_nil; auto.
Qed.
Lemma resolve_names f d p : p <> [] -> absolute p = false -> resolve f true d p = walk MAXLINKS f true d (path_names p).
Proof. intros NE A. unfold resolve. destruct p; [easy|]. now rewrite A. Qed.
Lemma plain_abs n s : n <> [] -> plain n -> absolute (n ++ s) = false.
Proof. destruct n as [|c n]; [easy|]. cbn. intros _ H. apply andb_true_iff in H as [H _]. now apply negb_true_iff. Qed.

Lemma lookup_dot f d : lookup f d DOT = match inodes f d with Some (mkInode (Dir _) _ _ _) => inr d | Some _ => inl ENOTDIR | None => inl ENOENT end.
Proof. unfold lookup. destruct (inodes f d) as [[[] ? ? ?]|]; auto. Qed.
Lemma walk_dot L f : forall ns d, walk L f true d (ns ++ [DOT]) = match walk L f true d ns with inl e => inl e | inr j => lookup f j DOT end.
Proof.
  induction L as [L IHL] using lt_wf_ind. induction ns as [|n ns IH]; intros d.
  - cbn [app]. rewrite walk_eq, walk_nil, lookup_dot. destruct (inodes f d) as [[[] ? ? ?]|] eqn:I; auto. now rewrite I, walk_nil.
  - cbn [app]. rewrite !(@walk_eq L). destruct (lookup f d n) as [|i]; auto.
    destruct (inodes f i) as [[[] ? ? ?]|]; auto.
    replace (match ns ++ [DOT] with [] => negb true | _ => false end) with false by (destruct ns; auto).
    replace (match ns with [] => negb true | _ => false end) with false by (destruct ns; auto).
    destruct target; auto. destruct L; auto. rewrite app_assoc. apply IHL. lia.
Qed.

Lemma walk_resolves L f : forall ns d i, walk L f true d ns = inr i -> resolves f d ns i.
Proof.
  induction L as [L IHL] using lt_wf_ind. induction ns as [|n ns IH]; intros d i.
  - rewrite walk_nil. intros X; injection X as <-. constructor.
  - rewrite walk_eq. destruct (lookup f d n) as [|j] eqn:LK; [discriminate|].
    destruct (inodes f j) as [[[] ? ? ?]|] eqn:I.
    1,2,4,5,6: (intros W; eapply res_step; [exact LK|congruence|auto]).
    replace (match ns with [] => negb true | _ => false end) with false by (destruct ns; auto).
    destruct target as [|c t]; [discriminate|]. destruct L; [discriminate|]. intros W.
    eapply res_link; [exact LK|exact I|easy|]. apply (IHL L); auto.
Qed.
Lemma resolves_app f d ns i ms j : resolves f d ns i -> resolves f i ms j -> resolves f d (ns ++ ms) j.
Proof.
  intros R M. induction R as [|? ? ? ? ? ? ? ? IH|? ? ? ? ? ? ? ? ? ? ? ? ? IH]; cbn [app]; auto.
  - eapply res_step; eauto.
  - eapply res_link; eauto. rewrite app_assoc. auto.
Qed.
Lemma resolves_fun f d ns i : resolves f d ns i -> forall j, resolves f d ns j -> i = j.
Proof.
  induction 1 as [|? ? ? ? ? LK NL ? IH|? ? ? ? ? ? ? ? ? LK I ? ? IH]; intros k R; inversion R; subst; auto.
  - assert (i0 = i) by congruence. subst. auto.
  - assert (i0 = i) by congruence. subst. exfalso. eapply NL; eauto.
  - assert (i0 = i) by congruence. subst. exfalso. eapply H5; eauto.
  - assert (i0 = i) by congruence. subst.
    match goal with X : inodes f i = Some (mkInode (Lnk t0) _ _ _) |- _ => rewrite I in X; injection X; intros; subst end. auto.
Qed.

Lemma safely_resolves T f d ns i : Forall (fun n => n <> [] /\ plain n) ns -> safely T f d ns i -> resolves f d ns i.
Proof.
  intros F S. induction S as [|d n seen x j y ns k LK I R J A S IH]; [constructor|].
  inversion F as [|? ? [NE P] F']; subst.
  change (n :: ns) with ([n] ++ ns). eapply resolves_app; [|apply IH; auto].
  rewrite resolve_names in R; auto. 2:{ rewrite <- (app_nil_r n). now apply plain_abs. }
  rewrite plain_names in R by auto. eapply walk_resolves; eauto.
Qed.
Lemma safely_fun T f d ns i : safely T f d ns i -> forall j, safely T f d ns j -> i = j.
Proof.
  induction 1 as [|d n seen x j y ns k LK I R J A S IH]; intros k' S'; inversion S'; subst; auto.
  assert (j0 = j) by congruence. subst. auto.
Qed.

(** pieces are plain names *)
Lemma split_slash_plain p : Forall (fun n => plain n) (split_slash p).
Proof.
  induction p as [|c p IH]; cbn; [repeat constructor|]. destruct (beq c SLASH) eqn:B; [now constructor|].
  destruct (split_slash p) as [|x r]; [repeat constructor; cbn; now rewrite B|]. inversion IH; subst. constructor; auto. cbn. now rewrite B.
Qed.
Lemma pieces_plain p : Forall (fun n => n <> [] /\ plain n) (pieces p).
Proof.
  unfold pieces. pose proof (split_slash_plain p) as F. induction F as [|n l P F IH]; cbn; [constructor|].
  destruct n as [|c n]; cbn; auto. constructor; auto. split; [easy|auto].
Qed.
Lemma names_plain p : Forall (fun n => n <> [] /\ plain n) (path_names p).
Proof.
  unfold path_names. pose proof (pieces_plain p) as F. destruct (pieces p); [constructor|]. destruct (ends_in_slash p); auto.
  apply Forall_app; split; auto. constructor; [split; [easy|reflexivity]|constructor].
Qed.
Lemma ends_app a b : b <> [] -> ends_in_slash (a ++ b) = ends_in_slash b.
Proof.
  intros NE. destruct b as [|x l _] using rev_ind; [easy|]. now rewrite app_assoc, !ends_snoc.
Qed.
Lemma names_cons path comp sl r : path = comp ++ sl ++ r -> pieces path = comp :: pieces r -> pieces r <> [] -> path_names path = comp :: path_names r.
Proof.
  intros -> P NE. unfold path_names. rewrite P. assert (R : r <> []) by (intros ->; now apply NE).
  rewrite app_assoc, ends_app by auto. destruct (pieces r); [easy|]. destruct (ends_in_slash r); reflexivity.
Qed.
Lemma names_drop p : drop_slashes p <> [] -> path_names (drop_slashes p) = path_names p.
Proof.
  intros NE. unfold path_names. rewrite pieces_drop.
  assert (E : ends_in_slash p = ends_in_slash (drop_slashes p)).
  { unfold drop_slashes in *. destruct (span _ p) as [a b] eqn:SP. apply span_eq in SP as (-> & _). now apply ends_app. }
  now rewrite E.
Qed.
