(** Lemmas about the vocabulary of Prelude.v *)
From Verif Require Import Prelude.
From Coq Require Export ZifyBool ZifyNat ZifyN.
Set Implicit Arguments.
Ltac Zify.zify_post_hook ::= Z.div_mod_to_equations.
Global Arguments skipn {A} n l : simpl nomatch.
Global Arguments firstn {A} n l : simpl nomatch.

Lemma bind_Ok A B (x : res A) (f : A -> res B) b :
  bind x f = Ok b -> exists a, x = Ok a /\ f a = Ok b.
Proof. destruct x; simpl; intros H; try discriminate. eauto. Qed.

Lemma length_upd A (l : list A) i x : length (upd l i x) = length l.
Proof. revert i; induction l as [|h t IH]; intros [|i]; simpl; auto. Qed.

Lemma upd_nth_error A (l : list A) i j x :
  nth_error (upd l i x) j =
  if (i =? j) && (i <? length l) then Some x else nth_error l j.
Proof.
  revert i j; induction l as [|h t IH]; intros i j; simpl.
  - replace (i <? 0) with false by (symmetry; apply Nat.ltb_ge; lia).
    rewrite andb_false_r. reflexivity.
  - destruct i as [|i], j as [|j]; simpl; auto. rewrite IH. reflexivity.
Qed.

Lemma upd_nth A (l : list A) i j x d :
  i < length l -> nth j (upd l i x) d = if i =? j then x else nth j l d.
Proof.
  revert i j; induction l as [|h t IH]; intros [|i] [|j] H; simpl in *; try lia; auto.
  apply IH; lia.
Qed.

Lemma upd_app_l A (l r : list A) i x : i < length l -> upd (l ++ r) i x = upd l i x ++ r.
Proof.
  revert i; induction l as [|h t IH]; intros [|i] H; simpl in *; try lia; auto.
  rewrite IH by lia; auto.
Qed.

Lemma upd_app_r A (l r : list A) i x :
  length l <= i -> upd (l ++ r) i x = l ++ upd r (i - length l) x.
Proof.
  revert i; induction l as [|h t IH]; intros i H; simpl in *.
  - rewrite Nat.sub_0_r; auto.
  - destruct i as [|i]; [lia|]. rewrite IH by lia. auto.
Qed.

Lemma upd_map A B (f : A -> B) l i x : upd (map f l) i (f x) = map f (upd l i x).
Proof. revert i; induction l as [|h t IH]; intros [|i]; simpl; auto. rewrite IH; auto. Qed.

Lemma upd_spec A (l : list A) i x :
  i < length l -> upd l i x = firstn i l ++ x :: skipn (S i) l.
Proof.
  revert i; induction l as [|h t IH]; intros [|i] H; simpl in *; try lia; auto.
  rewrite IH by lia; auto.
Qed.

Lemma upd_same A (l : list A) i d : i < length l -> upd l i (nth i l d) = l.
Proof.
  revert i; induction l as [|h t IH]; intros [|i] H; simpl in *; try lia; auto.
  rewrite IH by lia; auto.
Qed.

Lemma nth_ext_lt A (l l' : list A) d :
  length l = length l' -> (forall i, i < length l -> nth i l d = nth i l' d) -> l = l'.
Proof. intros H1 H2. apply nth_ext with (d := d) (d' := d); auto. Qed.

Lemma nth_firstn A (l : list A) n i d : i < n -> nth i (firstn n l) d = nth i l d.
Proof.
  revert n i; induction l as [|h t IH]; intros [|n] [|i] H; simpl; try lia; auto.
  apply IH; lia.
Qed.

Lemma nth_skipn A (l : list A) n i d : nth i (skipn n l) d = nth (n + i) l d.
Proof.
  revert n; induction l as [|h t IH]; intros [|n]; simpl; auto.
  destruct i; auto.
Qed.

Lemma nth_default_out A (l : list A) i d d' : i < length l -> nth i l d = nth i l d'.
Proof. apply nth_indep. Qed.

(** ** arrays that hold a list of values followed by junk *)
Lemma aget_rep A (l : list A) (j : cells A) i d :
  i < length l -> aget (map Some l ++ j) i = Ok (nth i l d).
Proof.
  intros H. unfold aget. rewrite nth_error_app1 by (rewrite map_length; lia).
  rewrite nth_error_map, (nth_error_nth' l d) by lia. reflexivity.
Qed.

Lemma aget_rep0 A (l : list A) i d : i < length l -> aget (map Some l) i = Ok (nth i l d).
Proof. intros H. rewrite <- (app_nil_r (map Some l)). apply aget_rep; auto. Qed.

Lemma aset_rep A (l : list A) (j : cells A) i x :
  i < length l -> aset (map Some l ++ j) i x = Ok (map Some (upd l i x) ++ j).
Proof.
  intros H. unfold aset. rewrite app_length, map_length.
  destruct (Nat.ltb_spec i (length l + length j)); try lia.
  rewrite upd_app_l by (rewrite map_length; lia). rewrite upd_map. reflexivity.
Qed.

Lemma aset_rep_end A (l : list A) c (j : cells A) x :
  aset (map Some l ++ c :: j) (length l) x = Ok (map Some (l ++ [x]) ++ j).
Proof.
  unfold aset. rewrite app_length, map_length. simpl.
  destruct (Nat.ltb_spec (length l) (length l + S (length j))); try lia.
  rewrite upd_app_r by (rewrite map_length; lia).
  rewrite map_length, Nat.sub_diag. simpl. rewrite map_app, <- app_assoc. reflexivity.
Qed.

Lemma firstn_app_le A (l r : list A) n : n <= length l -> firstn n (l ++ r) = firstn n l.
Proof. intros H. rewrite firstn_app. replace (n - length l) with 0 by lia. simpl. apply app_nil_r. Qed.

Lemma skipn_app_le A (l r : list A) n : n <= length l -> skipn n (l ++ r) = skipn n l ++ r.
Proof. intros H. rewrite skipn_app. replace (n - length l) with 0 by lia. reflexivity. Qed.

Lemma skipn_app_ge A (l r : list A) n : length l <= n -> skipn n (l ++ r) = skipn (n - length l) r.
Proof. intros H. rewrite skipn_app. rewrite skipn_all2 by lia. reflexivity. Qed.

Lemma firstn_app_ge A (l r : list A) n : length l <= n -> firstn n (l ++ r) = l ++ firstn (n - length l) r.
Proof. intros H. rewrite firstn_app. rewrite firstn_all2 by lia. reflexivity. Qed.

Lemma arealloc_grow A (l : cells A) n : length l <= n -> arealloc l n = l ++ repeat None (n - length l).
Proof. intros H. unfold arealloc. rewrite firstn_all2 by lia. reflexivity. Qed.

Lemma length_arealloc A (l : cells A) n : length (arealloc l n) = n.
Proof. unfold arealloc. rewrite app_length, firstn_length, repeat_length. lia. Qed.

Lemma skipn_skipn A (l : list A) a b : skipn a (skipn b l) = skipn (a + b) l.
Proof.
  revert b; induction l as [|h t IH]; intros b.
  - rewrite !skipn_nil. reflexivity.
  - destruct b as [|b]; simpl.
    + rewrite Nat.add_0_r. reflexivity.
    + replace (a + S b) with (S (a + b)) by lia. simpl. apply IH.
Qed.

Lemma firstn_skipn_split A (l : list A) i d :
  i < length l -> l = firstn i l ++ nth i l d :: skipn (S i) l.
Proof.
  revert i; induction l as [|h t IH]; intros [|i] H; simpl in *; try lia; auto.
  rewrite <- IH by lia. reflexivity.
Qed.

Lemma skipn_cons_nth A (l : list A) i d :
  i < length l -> skipn i l = nth i l d :: skipn (S i) l.
Proof.
  revert i; induction l as [|h t IH]; intros [|i] H; simpl in *; try lia; auto.
  apply IH; lia.
Qed.

Lemma firstn_S_nth A (l : list A) i d :
  i < length l -> firstn (S i) l = firstn i l ++ [nth i l d].
Proof.
  revert i; induction l as [|h t IH]; intros [|i] H; simpl in *; try lia; auto.
  rewrite IH by lia; auto.
Qed.
