(** The order of CmpSpec.v is a strict total order. *)
From Verif Require Import Prelude PreludeFacts Str StrFacts Libc LibcFacts CmpSpec.
Set Implicit Arguments.

Fixpoint lexcmp (a b : list byte) : comparison :=
  match a, b with
  | [], [] => Datatypes.Eq
  | [], _ => Datatypes.Lt
  | _, [] => Datatypes.Gt
  | x :: a', y :: b' => match N.compare (code x) (code y) with Datatypes.Eq => lexcmp a' b' | c => c end
  end.

Lemma lexcmp_refl a : lexcmp a a = Datatypes.Eq.
Proof. induction a as [|x a IH]; cbn; [reflexivity|]. rewrite N.compare_refl. exact IH. Qed.

Lemma lexcmp_eq a b : lexcmp a b = Datatypes.Eq <-> a = b.
Proof.
  revert b; induction a as [|x a IH]; intros [|y b]; cbn; try (split; congruence).
  destruct (N.compare_spec (code x) (code y)) as [E|L|G].
  - apply code_inj in E. subst y. rewrite IH. split; [intros ->; reflexivity|congruence].
  - split; [discriminate|]. intros H; injection H as -> _. lia.
  - split; [discriminate|]. intros H; injection H as -> _. lia.
Qed.

Lemma lexcmp_antisym a b : lexcmp b a = CompOpp (lexcmp a b).
Proof.
  revert b; induction a as [|x a IH]; intros [|y b]; cbn; try reflexivity.
  rewrite (N.compare_antisym (code x) (code y)). destruct (N.compare (code x) (code y)); cbn; auto.
Qed.

Lemma lexcmp_app p a b : lexcmp (p ++ a) (p ++ b) = lexcmp a b.
Proof. induction p as [|x p IH]; cbn; [reflexivity|]. rewrite N.compare_refl. exact IH. Qed.

Lemma lexcmp_lt a b : lexcmp a b = Datatypes.Lt <-> before a b.
Proof.
  split.
  - revert b; induction a as [|x a IH]; intros [|y b]; cbn; try discriminate.
    + intros _. left. exists y, b. reflexivity.
    + destruct (N.compare_spec (code x) (code y)) as [E|L|G]; intros H.
      * apply code_inj in E. subst y. destruct (IH b H) as [[c [t ->]]|[p [u [v [t [w [-> [-> L]]]]]]]].
        -- left. exists c, t. reflexivity.
        -- right. exists (x :: p), u, v, t, w. auto.
      * right. exists [], x, y, a, b. auto.
      * discriminate.
  - intros [[c [t ->]]|[p [u [v [t [w [-> [-> L]]]]]]]].
    + rewrite <- (app_nil_r a) at 1. rewrite lexcmp_app. reflexivity.
    + rewrite lexcmp_app. cbn. apply N.compare_lt_iff in L. rewrite L. reflexivity.
Qed.

Lemma lexcmp_gt a b : lexcmp a b = Datatypes.Gt <-> before b a.
Proof.
  rewrite <- lexcmp_lt, (lexcmp_antisym a b). destruct (lexcmp a b); cbn; split; congruence.
Qed.

Lemma lexcmp_trans a b c : lexcmp a b = Datatypes.Lt -> lexcmp b c = Datatypes.Lt -> lexcmp a c = Datatypes.Lt.
Proof.
  revert b c; induction a as [|x a IH]; intros [|y b] [|z c]; cbn; try discriminate; auto.
  destruct (N.compare_spec (code x) (code y)) as [E|L|G]; try discriminate;
  destruct (N.compare_spec (code y) (code z)) as [E'|L'|G']; try discriminate; intros H1 H2.
  - rewrite E, E', N.compare_refl. eauto.
  - rewrite E. apply N.compare_lt_iff in L'. rewrite L'. reflexivity.
  - rewrite <- E'. apply N.compare_lt_iff in L. rewrite L. reflexivity.
  - assert (X : (code x < code z)%N) by lia. apply N.compare_lt_iff in X. rewrite X. reflexivity.
Qed.

Lemma before_irrefl a : ~ before a a.
Proof. rewrite <- lexcmp_lt, lexcmp_refl. discriminate. Qed.
Lemma before_trans a b c : before a b -> before b c -> before a c.
Proof. rewrite <- !lexcmp_lt. apply lexcmp_trans. Qed.
Lemma before_asym a b : before a b -> ~ before b a.
Proof. intros H1 H2. apply (before_irrefl (before_trans H1 H2)). Qed.
Lemma before_total a b : before a b \/ a = b \/ before b a.
Proof. rewrite <- lexcmp_lt, <- lexcmp_gt, <- lexcmp_eq. destruct (lexcmp a b); auto. Qed.

(** a comparison result in the form -1/0/1 *)
Definition zcmp (a b : list byte) : Z := match lexcmp a b with Datatypes.Lt => -1 | Datatypes.Eq => 0 | Datatypes.Gt => 1 end%Z.
Lemma zcmp_compares a b : compares (zcmp a b) a b.
Proof.
  unfold compares, zcmp. rewrite <- lexcmp_lt, <- lexcmp_gt, <- lexcmp_eq.
  destruct (lexcmp a b); (split; [|split]); split; (lia || congruence).
Qed.

Lemma compares_sgn r a b : compares r a b -> Z.sgn r = zcmp a b.
Proof.
  unfold compares, zcmp. rewrite <- lexcmp_lt, <- lexcmp_gt, <- lexcmp_eq.
  intros [H1 [H2 H3]]. destruct (lexcmp a b).
  - rewrite (proj2 H2); reflexivity.
  - apply Z.sgn_neg, H1; reflexivity.
  - apply Z.sgn_pos, H3; reflexivity.
Qed.

Lemma before0_irrefl a : ~ before0 a a.
Proof. destruct a; cbn; auto using before_irrefl. Qed.
Lemma before0_trans a b c : before0 a b -> before0 b c -> before0 a c.
Proof. destruct a, b, c; cbn; try tauto. apply before_trans. Qed.
Lemma before0_total a b : before0 a b \/ a = b \/ before0 b a.
Proof. destruct a as [a|], b as [b|]; cbn; auto. destruct (before_total a b) as [|[->|]]; auto. Qed.
