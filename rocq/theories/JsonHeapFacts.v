(** Permutations by reflection, entries of maps, forests with holes. *)
From Coq Require Import Permutation.
From Verif Require Import Prelude PreludeFacts Str StrFacts Libc JsonModel JsonHeapModel JsonHeapSpec.
Set Implicit Arguments.

(** ** a tactic for permutations of appended lists *)
Section Perm.
  Variable A : Type.
  Definition pden (env : list (list A)) (is : list nat) : list A := flat_map (fun i => nth i env []) is.
  Fixpoint rem1 (i : nat) (l : list nat) : option (list nat) :=
    match l with [] => None | j :: l => if (i =? j)%nat then Some l else option_map (cons j) (rem1 i l) end.
  Fixpoint permb (l l' : list nat) : bool :=
    match l with [] => match l' with [] => true | _ => false end | i :: l => match rem1 i l' with Some l' => permb l l' | None => false end end.
  Lemma rem1_perm i : forall l l', rem1 i l = Some l' -> Permutation l (i :: l').
  Proof.
    induction l as [|j l IH]; intros l' R; [discriminate R|]. cbn in R. destruct (Nat.eqb_spec i j) as [->|]; [injection R as <-; reflexivity|].
    destruct (rem1 i l) as [l1|]; [|discriminate R]. injection R as <-. rewrite (IH _ eq_refl). apply perm_swap.
  Qed.
  Lemma permb_perm l : forall l', permb l l' = true -> Permutation l l'.
  Proof.
    induction l as [|i l IH]; intros l' P; cbn in P; [destruct l'; [reflexivity|discriminate P]|]. destruct (rem1 i l') as [l1|] eqn:R; [|discriminate P].
    rewrite (rem1_perm _ _ R). constructor. now apply IH.
  Qed.
  Lemma pden_perm env l l' : permb l l' = true -> Permutation (pden env l) (pden env l').
  Proof. intros P. apply permb_perm in P. unfold pden. now apply Permutation_flat_map. Qed.
  Lemma pden_app env a b : pden env (a ++ b) = pden env a ++ pden env b. Proof. apply flat_map_app. Qed.
  Lemma pden_one env i : pden env [i] = nth i env []. Proof. cbn. apply app_nil_r. Qed.
End Perm.
Ltac plook x env k := lazymatch env with
  | ?y :: ?r => match constr:(tt) with _ => let _ := match constr:(tt) with _ => constr_eq x y end in k constr:(O) | _ => plook x r ltac:(fun n => k constr:(S n)) end
  end.
Ltac padd x env := lazymatch env with
  | @nil ?T => constr:(x :: @nil T)
  | ?y :: ?r => match constr:(tt) with
     | _ => let _ := match constr:(tt) with _ => constr_eq x y end in constr:(env)
     | _ => let r' := padd x r in constr:(y :: r') end
  end.
Ltac penv e env := lazymatch e with
  | ?a ++ ?b => let env := penv a env in penv b env
  | @nil _ => constr:(env)
  | @cons ?T ?x (@nil _) => padd constr:(@cons T x (@nil T)) env
  | @cons ?T ?x ?l => let env := padd constr:(@cons T x (@nil T)) env in penv l env
  | _ => padd e env
  end.
Ltac pidx x env := lazymatch env with
  | ?y :: ?r => match constr:(tt) with
     | _ => let _ := match constr:(tt) with _ => constr_eq x y end in constr:(O)
     | _ => let n := pidx x r in constr:(S n) end
  end.
Ltac preify e env := lazymatch e with
  | ?a ++ ?b => let a' := preify a env in let b' := preify b env in constr:(a' ++ b')
  | @nil _ => constr:(@nil nat)
  | @cons ?T ?x (@nil _) => let i := pidx constr:(@cons T x (@nil T)) env in constr:([i])
  | @cons ?T ?x ?l => let i := pidx constr:(@cons T x (@nil T)) env in let l' := preify l env in constr:(i :: l')
  | _ => let i := pidx e env in constr:([i])
  end.
Ltac perm :=
  lazymatch goal with |- @Permutation ?A ?l ?r =>
    let env := penv l constr:(@nil (list A)) in let env := penv r env in
    let l' := preify l env in let r' := preify r env in
    let E := fresh in
    assert (E : Permutation (pden env l') (pden env r')) by (apply pden_perm; vm_compute; reflexivity);
    repeat (rewrite pden_app in E); cbn [app pden flat_map nth] in E; rewrite ?app_nil_r in E; cbn [app] in E; rewrite ?app_nil_r; cbn [app];
    first [exact E | rewrite <- ?app_assoc in *; cbn [app] in *; exact E | repeat (rewrite <- app_assoc in E; cbn [app] in E); repeat (rewrite <- app_assoc; cbn [app]); exact E]
  end.
Goal forall A (x y : A) (a b c : list A), Permutation (x :: a ++ y :: b ++ c) (b ++ (x :: c) ++ y :: a).
Proof. intros. perm. Qed.
Goal forall A (x : A) (f : A -> list A) (a b c : list A), Permutation ((x :: f x ++ a) ++ b ++ c) (c ++ b ++ (f x ++ [x]) ++ a).
Proof. intros. perm. Qed.

(** ** entries *)
Section Entries.
  Variable A : Type.
  Implicit Types (m : nat -> option A) (l : list (nat * A)).
  Lemma entries_perm m l l' : has_entries m l -> Permutation l l' -> has_entries m l'.
  Proof. intros [N E] P. split; [now rewrite <- P|]. intros a x. rewrite E. split; apply Permutation_in; [exact P|now apply Permutation_sym]. Qed.
  Lemma entries_get m l a x : has_entries m l -> In (a, x) l -> m a = Some x. Proof. intros [_ E]. apply E. Qed.
  Lemma entries_none m l a : has_entries m l -> ~ In a (map fst l) -> m a = None.
  Proof. intros [_ E] N. destruct (m a) as [x|] eqn:X; [|reflexivity]. apply E in X. destruct N. apply (in_map fst) in X. exact X. Qed.
  Lemma entries_add m l a x : has_entries m l -> m a = None -> has_entries (at_nat m a (Some x)) ((a, x) :: l).
  Proof.
    intros [N E] M. assert (NI : ~ In a (map fst l)). { intros I. apply in_map_iff in I as ([b y] & <- & I). cbn in M. apply E in I. congruence. }
    split; [now constructor|]. intros b y. unfold at_nat. destruct (Nat.eqb_spec b a) as [->|NE].
    - split; [intros [= ->]; now left|]. intros [[= ->]|I]; [reflexivity|]. destruct NI. now apply (in_map fst) in I.
    - rewrite E. split; [now right|]. intros [[= <- _]|I]; [congruence|exact I].
  Qed.
  Lemma entries_del m l a x : has_entries m ((a, x) :: l) -> has_entries (at_nat m a None) l.
  Proof.
    intros [N E]. inversion N as [|? ? NI N']; subst. split; [exact N'|]. intros b y. unfold at_nat. destruct (Nat.eqb_spec b a) as [->|NE].
    - split; [discriminate|]. intros I. destruct NI. now apply (in_map fst) in I.
    - rewrite E. split; [|now right]. intros [[= <- _]|I]; [congruence|exact I].
  Qed.
  Lemma entries_set m l a x y : has_entries m ((a, x) :: l) -> has_entries (at_nat m a (Some y)) ((a, y) :: l).
  Proof.
    intros [N E]. split; [exact N|]. inversion N as [|? ? NI N']; subst. intros b z. unfold at_nat. destruct (Nat.eqb_spec b a) as [->|NE].
    - split; [intros [= ->]; now left|]. intros [[= ->]|I]; [reflexivity|]. destruct NI. now apply (in_map fst) in I.
    - rewrite E. cbn [In]. split; (intros [[= <- _]|I]; [congruence|now right]).
  Qed.
  Lemma entries_head m l a x : has_entries m ((a, x) :: l) -> m a = Some x. Proof. intros E. apply (entries_get a x E). now left. Qed.
  Lemma entries_ext m m' l : (forall a, m a = m' a) -> has_entries m l -> has_entries m' l.
  Proof. intros X [N E]. split; [exact N|]. intros a x. rewrite <- X. apply E. Qed.
End Entries.

(** ** induction on trees *)
Lemma tree_ind' (P : tree -> Prop) : (forall a n t v s, P (TP a n t v s)) -> (forall a n k ts, Forall P ts -> P (TC a n k ts)) -> forall t, P t.
Proof.
  intros HP HC. fix IH 1. intros [a n t v s|a n k ts]; [apply HP|]. apply HC. induction ts as [|x ts IHts]; constructor; [apply IH|exact IHts].
Qed.

(** ** forests with holes *)
Fixpoint fnodes (fs : list frame) (x : nat) : list (nat * elem) :=
  match fs with
  | [] => []
  | f :: fs => (f_addr f, mkElem (option_map fst (f_name f)) (Cont (f_kind f) (map addr (f_left f) ++ x :: map addr (f_right f)))) ::
               flat_map nodes (f_left f) ++ flat_map nodes (f_right f) ++ fnodes fs (f_addr f)
  end.
Definition fstrings (fs : list frame) : list (nat * list byte) := flat_map (fun f => olist (f_name f) ++ flat_map strings (f_left f) ++ flat_map strings (f_right f)) fs.
Definition cnodes (K : context) (x : nat) : list (nat * elem) := fnodes (c_frames K) x ++ flat_map nodes (c_left K) ++ flat_map nodes (c_right K).
Definition cstrings (K : context) : list (nat * list byte) := fstrings (c_frames K) ++ flat_map strings (c_left K) ++ flat_map strings (c_right K).

Lemma frames_nodes fs : forall x, Permutation (nodes (fold_left fill1 fs x)) (nodes x ++ fnodes fs (addr x)).
Proof.
  induction fs as [|f fs IH]; intros x; cbn [fold_left fnodes]; [now rewrite app_nil_r|]. rewrite IH. unfold fill1 at 1. cbn [nodes addr fill1]. rewrite map_app, flat_map_app. cbn [map flat_map]. perm.
Qed.
Lemma frames_strings fs : forall x, Permutation (strings (fold_left fill1 fs x)) (strings x ++ fstrings fs).
Proof.
  induction fs as [|f fs IH]; intros x; cbn [fold_left]; [unfold fstrings; cbn; now rewrite app_nil_r|]. rewrite IH. unfold fill1, fstrings at 2. cbn [strings flat_map]. fold (fstrings fs). rewrite flat_map_app. cbn [flat_map]. perm.
Qed.
Lemma fill_nodes K x : Permutation (flat_map nodes (fill K x)) (nodes x ++ cnodes K (addr x)).
Proof. unfold fill, cnodes. rewrite flat_map_app. cbn [flat_map]. rewrite frames_nodes. perm. Qed.
Lemma fill_strings K x : Permutation (flat_map strings (fill K x)) (strings x ++ cstrings K).
Proof. unfold fill, cstrings. rewrite flat_map_app. cbn [flat_map]. rewrite frames_strings. perm. Qed.

Lemma frames_wf fs : forall x x', name x' = name x -> (wf x -> wf x') -> wf (fold_left fill1 fs x) -> wf (fold_left fill1 fs x').
Proof.
  induction fs as [|f fs IH]; intros x x' N W H; cbn [fold_left] in *; [now apply W|]. revert H. apply IH; [reflexivity|]. unfold fill1. intros H.
  inversion H as [|a n ts F|a n ts F NM ND]; subst.
  - constructor. rewrite Forall_app in *. destruct F as [F1 F2]. split; [exact F1|]. inversion F2; subst. constructor; auto.
  - rewrite Forall_app in *. destruct F as [F1 F2], NM as [N1 N2]. inversion F2; subst. inversion N2; subst. constructor.
    + rewrite Forall_app. split; [exact F1|constructor; auto].
    + rewrite Forall_app. split; [exact N1|constructor; [now rewrite N|auto]].
    + rewrite map_app in *. cbn [map] in *. unfold key at 2. rewrite N. exact ND.
Qed.
Lemma frames_wf_in fs : forall x, wf (fold_left fill1 fs x) -> wf x.
Proof.
  induction fs as [|f fs IH]; intros x H; cbn [fold_left] in *; [exact H|]. apply IH in H. unfold fill1 in H. inversion H as [|a n ts F|a n ts F NM ND]; subst; rewrite Forall_app in F; destruct F as [_ F]; now inversion F.
Qed.
Lemma fill_wf K x x' : name x' = name x -> (wf x -> wf x') -> Forall wf (fill K x) -> Forall wf (fill K x').
Proof. intros N W H. unfold fill in *. rewrite Forall_app in *. destruct H as [H1 H2]. split; [exact H1|]. inversion H2; subst. constructor; [|assumption]. eapply frames_wf; eauto. Qed.
Lemma fill_wf_in K x : Forall wf (fill K x) -> wf x.
Proof. unfold fill. rewrite Forall_app. intros [_ H]. inversion H; subst. eapply frames_wf_in; eauto. Qed.

(** every element of a forest is in a hole *)
Lemma tree_hole c : forall t e, In (c, e) (nodes t) -> exists fs x, t = fold_left fill1 fs x /\ addr x = c.
Proof.
  induction t as [a n p v s|a n k ts IH] using tree_ind'; intros e I; cbn [nodes] in I.
  - destruct I as [[= <- _]|[]]. exists [], (TP a n p v s). auto.
  - destruct I as [[= <- _]|I]; [exists [], (TC a n k ts); auto|]. apply in_flat_map in I as (t & IT & I). rewrite Forall_forall in IH. destruct (IH t IT e I) as (fs & x & -> & AX).
    apply in_split in IT as (l & r & ->). exists (fs ++ [mkFrame a n k l r]), x. split; [|exact AX]. rewrite fold_left_app. reflexivity.
Qed.
Lemma forest_hole F c e : In (c, e) (flat_map nodes F) -> exists K x, F = fill K x /\ addr x = c.
Proof.
  intros I. apply in_flat_map in I as (t & IT & I). destruct (tree_hole _ _ _ I) as (fs & x & -> & AX). apply in_split in IT as (l & r & ->). exists (mkCtx fs l r), x. auto.
Qed.
