From Verif Require Import Prelude PreludeFacts Str.
Set Implicit Arguments.

Lemma beq_spec a b : reflect (a = b) (beq a b).
Proof. apply Ascii.eqb_spec. Qed.
Lemma beq_refl a : beq a a = true.
Proof. apply Ascii.eqb_refl. Qed.
Lemma beq_true a b : beq a b = true <-> a = b.
Proof. apply Ascii.eqb_eq. Qed.
Lemma beq_false a b : beq a b = false <-> a <> b.
Proof. apply Ascii.eqb_neq. Qed.

Lemma bytes_eqb_eq a : forall b, bytes_eqb a b = true <-> a = b.
Proof.
  induction a as [|x a IH]; intros [|y b]; simpl; split; intros H; try discriminate; auto.
  - apply andb_true_iff in H. destruct H as [H1 H2]. apply beq_true in H1. apply IH in H2. congruence.
  - inversion H; subst. rewrite beq_refl. apply IH. auto.
Qed.
Lemma bytes_eqb_refl a : bytes_eqb a a = true.
Proof. apply bytes_eqb_eq; auto. Qed.
Lemma bytes_eqb_neq a b : bytes_eqb a b = false <-> a <> b.
Proof.
  split.
  - intros H E. subst. rewrite bytes_eqb_refl in H. discriminate.
  - intros H. destruct (bytes_eqb a b) eqn:E; auto. apply bytes_eqb_eq in E. congruence.
Qed.

Lemma code_lt c : (code c < 256)%N.
Proof. apply N_ascii_bounded. Qed.
Lemma code_inj a b : code a = code b -> a = b.
Proof. intros H. unfold code in H. rewrite <- (ascii_N_embedding a), <- (ascii_N_embedding b). congruence. Qed.
Lemma code_NUL : code NUL = 0%N.
Proof. reflexivity. Qed.

Lemma is_cstr_cons c s : is_cstr (c :: s) <-> c <> NUL /\ is_cstr s.
Proof. unfold is_cstr. simpl. tauto. Qed.
Lemma is_cstr_app a b : is_cstr (a ++ b) <-> is_cstr a /\ is_cstr b.
Proof. unfold is_cstr. rewrite in_app_iff. tauto. Qed.

Lemma chr_lt s i : i < length s -> chr s i = Ok (nth i s NUL).
Proof.
  intros H. unfold chr. rewrite nth_error_app1 by auto. rewrite (nth_error_nth' s NUL) by auto. auto.
Qed.
Lemma chr_end s : chr s (length s) = Ok NUL.
Proof. unfold chr. rewrite nth_error_app2, Nat.sub_diag by lia. auto. Qed.
Lemma chr_app_mid a c b : chr (a ++ c :: b) (length a) = Ok c.
Proof.
  unfold chr. rewrite <- app_assoc, nth_error_app2, Nat.sub_diag by lia. reflexivity.
Qed.
Lemma chr_app_end a : chr (a ++ []) (length a) = Ok NUL.
Proof. rewrite app_nil_r. apply chr_end. Qed.

Lemma upto_nul_cstr s r : is_cstr s -> upto_nul (s ++ NUL :: r) = s.
Proof.
  induction s as [|c s IH]; simpl; intros H; auto.
  apply is_cstr_cons in H. destruct H as [H1 H2].
  destruct (beq_spec c NUL); [congruence|]. rewrite IH; auto.
Qed.
Lemma upto_nul_id s : is_cstr s -> upto_nul s = s.
Proof.
  induction s as [|c s IH]; simpl; intros H; auto.
  apply is_cstr_cons in H. destruct H as [H1 H2].
  destruct (beq_spec c NUL); [congruence|]. rewrite IH; auto.
Qed.
Lemma upto_nul_is_cstr s : is_cstr (upto_nul s).
Proof.
  induction s as [|c s IH]; simpl; [intros []|]. destruct (beq_spec c NUL); [intros []|].
  apply is_cstr_cons; auto.
Qed.
