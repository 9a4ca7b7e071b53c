(** No item is lost or duplicated in any history of the atomic queue or deque. *)
From Verif Require Import Prelude PreludeFacts ContModel ConcModel ConcProofs TQModel TQSpec.
From Coq Require Import Permutation.
Set Implicit Arguments.

Section P.
Variable A : Type.
Notation ptr := (option A).
Variable Op : Type.
Variable f : Op -> top A.
Notation spec := (fun s (o : Op) s' r => tspec s (f o) s' r).

Lemma rev_split (l : list ptr) n : Permutation l (rev (skipn n (rev l)) ++ firstn n (rev l)).
Proof.
  rewrite (Permutation_rev l) at 1. rewrite <- (firstn_skipn n (rev l)) at 1.
  rewrite Permutation_app_comm. apply Permutation_app_tail. apply Permutation_rev.
Qed.
Lemma tq_spec_conserve (l d : list ptr) op l' d' r : tq_spec (l, d) op = ((l', d'), r) -> Permutation ((l ++ d) ++ puts op) ((l' ++ d') ++ takes r).
Proof.
  assert (forall (a b c : list ptr), Permutation ((a ++ b) ++ c) ((a ++ c) ++ b)) as Sw.
  { intros a b c. rewrite <- !app_assoc. apply Permutation_app_head. apply Permutation_app_comm. }
  destruct op as [x|xs|t|n t| |x| | | |t|x|x|t|n t|]; cbn [tq_spec].
  - intros E. injection E as <- <- <-. simpl. rewrite app_nil_r. apply Sw.
  - intros E. injection E as <- <- <-. simpl. rewrite app_nil_r. apply Sw.
  - destruct l as [|x l]; intros E; injection E as <- <- <-; simpl; rewrite ?app_nil_r; auto. apply Permutation_cons_append.
  - intros E. injection E as <- <- <-. simpl. rewrite app_nil_r. 
    transitivity ((skipn n l ++ firstn n l) ++ d); [|apply Sw]. apply Permutation_app_tail. rewrite Permutation_app_comm. rewrite firstn_skipn. auto.
  - intros E. injection E as <- <- <-. simpl. rewrite !app_nil_r. apply Permutation_app_comm.
  - intros E. injection E as <- <- <-. simpl. rewrite !app_nil_r. rewrite <- Permutation_cons_append. constructor. apply Permutation_app_comm.
  - intros E. injection E as <- <- <-. simpl. auto.
  - intros E. injection E as <- <- <-. simpl. auto.
  - intros E. injection E as <- <- <-. simpl. auto.
  - intros E. injection E as <- <- <-. simpl. auto.
  - intros E. injection E as <- <- <-. simpl. rewrite app_nil_r. rewrite <- Permutation_cons_append. auto.
  - intros E. injection E as <- <- <-. simpl. rewrite app_nil_r. apply Sw.
  - destruct (rev l) as [|x r0] eqn:Er; intros E; injection E as <- <- <-; simpl; rewrite ?app_nil_r; auto.
    pose proof (Permutation_rev l) as Hp. rewrite Er in Hp. rewrite Hp at 1. rewrite <- Permutation_cons_append. simpl. constructor. apply Permutation_app_tail. apply Permutation_rev.
  - intros E. injection E as <- <- <-. simpl. rewrite app_nil_r. transitivity ((rev (skipn n (rev l)) ++ firstn n (rev l)) ++ d); [|apply Sw]. apply Permutation_app_tail. apply rev_split.
  - intros E. injection E as <- <- <-. simpl. auto.
Qed.
Lemma tspec_conserve (s : abst A) op s' r : tspec s op s' r -> Permutation ((fst s ++ snd s) ++ puts op) ((fst s' ++ snd s') ++ takes r).
Proof.
  unfold tspec. destruct s as [l d], s' as [l' d']. cbn [fst snd]. destruct (waits op) as [[[t e] g]|] eqn:Ew.
  - intros [(_ & H)|(_ & H & ->)]; [eapply tq_spec_conserve; eauto|]. injection H as -> ->.
    destruct op; simpl in Ew; try discriminate; injection Ew as <- <- <-; simpl; auto.
  - apply tq_spec_conserve.
Qed.
Definition pend (x : astat Op (tret A)) : list ptr := match x with APend op => puts (f op) | _ => [] end.
Definition done (x : astat Op (tret A)) : list ptr := match x with ADone r => takes r | _ => [] end.
Lemma flat_upd X (g : X -> list ptr) : forall (l : list X) t x y, nth_error l t = Some x -> Permutation (flat_map g (upd l t y) ++ g x) (flat_map g l ++ g y).
Proof.
  induction l as [|z l IH]; intros [|t] x y E; simpl in *; try discriminate.
  - injection E as ->. rewrite <- !app_assoc. rewrite (Permutation_app_comm (g y)). rewrite <- app_assoc. rewrite (Permutation_app_comm (g x) (flat_map g l ++ g y)). rewrite <- app_assoc.
    apply Permutation_app_head. apply Permutation_app_comm.
  - rewrite <- !app_assoc. apply Permutation_app_head. auto.
Qed.
Lemma conserve n h am : asteps spec (ainit Op (tret A) ([], []) n) h am ->
  Permutation (hist_puts f h) (flat_map pend (ath am) ++ (hist_takes h ++ flat_map done (ath am)) ++ fst (ab am) ++ snd (ab am)).
Proof.
  intros H. remember (ainit Op (tret A) ([], []) n) as a0. induction H; subst.
  - simpl. unfold ainit. cbn [ath ab]. assert (forall g : astat Op (tret A) -> list ptr, g AIdle = [] -> flat_map g (repeat AIdle n) = []) as E.
    { intros g Hg. induction n; simpl; auto. rewrite Hg. auto. }
    rewrite !E by reflexivity. auto.
  - specialize (IHasteps eq_refl). unfold hist_puts, hist_takes in *. rewrite !flat_map_app.
    set (P := flat_map _ h) in *. set (T := flat_map (fun e0 : event Op (tret A) => match e0 with ECall _ _ => [] | ERet _ r => takes r end) h) in *.
    inversion H0; subst; cbn [ath ab flat_map fst snd]; rewrite ?app_nil_r.
    + pose proof (flat_upd pend (ath s1) t (APend op) H1) as F1. pose proof (flat_upd done (ath s1) t (APend op) H1) as F2. simpl in F1, F2. rewrite !app_nil_r in *.
      rewrite F1, F2, IHasteps. rewrite <- !app_assoc. apply Permutation_app_head. rewrite !app_assoc. rewrite Permutation_app_comm. rewrite <- !app_assoc. auto.
    + pose proof (flat_upd pend (ath s1) t (ADone r) H1) as F1. pose proof (flat_upd done (ath s1) t (ADone r) H1) as F2. simpl in F1, F2. rewrite !app_nil_r in *.
      pose proof (tspec_conserve _ _ _ _ H2) as C. rewrite F2. rewrite IHasteps. rewrite <- F1.
      rewrite <- !app_assoc. apply Permutation_app_head.
      assert (forall a b c d : list ptr, Permutation (a ++ b ++ c ++ d) (b ++ c ++ d ++ a)) as Rot.
      { intros a b c d. rewrite Permutation_app_comm. rewrite <- !app_assoc. auto. }
      rewrite (Permutation_app_comm (puts (f op))). rewrite <- !app_assoc. apply Permutation_app_head. apply Permutation_app_head.
      rewrite app_assoc. rewrite C. rewrite Permutation_app_comm. auto.
    + pose proof (flat_upd pend (ath s1) t AIdle H1) as F1. pose proof (flat_upd done (ath s1) t AIdle H1) as F2. simpl in F1, F2. rewrite !app_nil_r in *.
      rewrite F1. rewrite IHasteps. rewrite <- F2. rewrite <- !app_assoc. apply Permutation_app_head. apply Permutation_app_head.
      rewrite !app_assoc. apply Permutation_app_tail. apply Permutation_app_tail. apply Permutation_app_comm.
Qed.
End P.
