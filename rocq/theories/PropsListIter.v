(** C139: a light iterator moves over a list like an index. *)
From Verif Require Import Prelude PreludeFacts DllModel DllFacts RefModel PropsRef ListModel ListSpec ListProofs ListOps PropsList ListIterModel.
Set Implicit Arguments.
Arguments chain_at [V h start l1 x l2] _.

(** * Spec: an index into the values *)
Inductive move := First | Last | Next | Previous.
(** the new index and the result of the move *)
Definition goes (len pos : nat) (m : move) : nat * Z :=
  match m with
  | First => (0, 0%Z)
  | Last => (len - 1, 0%Z)
  | Next => if S pos <? len then (S pos, 0%Z) else (pos, (-1)%Z)
  | Previous => if 0 <? pos then (pos - 1, 0%Z) else (pos, (-1)%Z)
  end.

Section P.
Variable V : Type.
Variable cmpf : V -> V -> Z.
Notation world := (world V).
Notation item := (nat * (nat * V))%type.
Implicit Types (w : world) (g : grp V).

(** what is seen at an index: the value, and whether there is a next and a previous one *)
Definition sight (l : list V) (pos : nat) : option V * bool * bool := (nth_error l pos, S pos <? length l, 0 <? pos).
Fixpoint travel (l : list V) (pos : nat) (ms : list move) : list (Z * (option V * bool * bool)) :=
  match ms with
  | [] => []
  | m :: ms => let '(pos, r) := goes (length l) pos m in (r, sight l pos) :: travel l pos ms
  end.

(** * A client *)
Definition look w (i : liter_) : res (option V * bool * bool) :=
  let* p := ListIteratorData w i in
  let* p := deref p in
  let* v := hload (wp w) p in
  let* n := ListIteratorHasNext w i in
  let* m := ListIteratorHasPrevious w i in Ok (Some v, n, m).
Definition moved w (i : liter_) (m : move) : res (liter_ * Z) :=
  match m with First => ListIteratorFirst w i | Last => ListIteratorLast w i | Next => ListIteratorNext w i | Previous => ListIteratorPrevious w i end.
Fixpoint moves w (i : liter_) (ms : list move) : res (list (Z * (option V * bool * bool))) :=
  match ms with
  | [] => Ok []
  | m :: ms => let* ' (i, r) := moved w i m in let* s := look w i in let* rs := moves w i ms in Ok ((r, s) :: rs)
  end.

Section L.
Variable w : world.
Variable h : nat.
Variable L : lst.
Variable ch : list item.
Hypothesis EL : hmem (wl w) h = Some L.
Hypothesis FI : lfirst L = hd ch.
Hypothesis LA : llast L = la ch.
Hypothesis C : chain (wn w) None (hd ch) ch None.
Hypothesis P : pays w ch.

(** the iterator is at index [pos] *)
Definition at_ (pos : nat) (i : liter_) : Prop := exists x, nth_error ch pos = Some x /\ i = mkI (Some (na x)) h (lstate L).

Lemma not_stale c : stale w (mkI c h (lstate L)) = Ok false.
Proof. unfold stale, lget, hload. cbn [iorigin istate]. rewrite EL. cbn [bind]. now rewrite N.eqb_refl. Qed.
Lemma at_split pos x : nth_error ch pos = Some x -> exists l1 l2, ch = l1 ++ x :: l2 /\ length l1 = pos /\
  dload (wn w) (na x) = Ok (mkD (Some (Some (pa x))) (hd l2) (la l1)) /\ hload (wp w) (pa x) = Ok (va x).
Proof.
  intros E. apply nth_error_split in E as (l1 & l2 & EC & LN). exists l1, l2. split; [exact EC|]. split; [exact LN|].
  pose proof C as C'. rewrite EC in C'. split; [exact (dload_ok _ _ (chain_at C'))|].
  pose proof P as P'. rewrite EC in P'. apply Forall_app in P' as [_ P']. inversion P' as [|? ? PX _]; subst. unfold hload. rewrite PX. reflexivity.
Qed.
Lemma hd_some (l : list item) : match hd l with Some _ => true | None => false end = (0 <? length l).
Proof. destruct l; reflexivity. Qed.
Lemma la_last (l : list item) x : la (l ++ [x]) = Some (na x).
Proof. unfold la. rewrite cells_app. generalize (@None nat). induction (cells l) as [|[y yc] c IH]; intros o; [reflexivity|]. cbn [app lasta]. apply IH. Qed.
Lemma la_some (l : list item) : match la l with Some _ => true | None => false end = (0 <? length l).
Proof. destruct l as [|x l] using rev_ind; [reflexivity|]. rewrite la_last, app_length. symmetry. apply Nat.ltb_lt. cbn [length]. lia. Qed.
Lemma first_at (l : list item) pos x : nth_error l pos = Some x -> exists y, nth_error l 0 = Some y /\ hd l = Some (na y).
Proof. destruct l as [|y c]; [destruct pos; discriminate|]. intros _. exists y. auto. Qed.
Lemma last_at (l : list item) pos x : nth_error l pos = Some x -> exists y, nth_error l (length l - 1) = Some y /\ la l = Some (na y).
Proof.
  destruct l as [|y c _] using rev_ind; [destruct pos; discriminate|]. intros _. exists y. split; [|apply la_last].
  rewrite app_length. cbn [length]. rewrite nth_error_app2 by lia. now replace (length c + 1 - 1 - length c) with 0 by lia.
Qed.
Lemma look_at pos i : at_ pos i -> look w i = Ok (sight (map va ch) pos).
Proof.
  intros (x & E & ->). destruct (at_split _ E) as (l1 & l2 & EC & LN & D & HL).
  unfold look, ListIteratorData, ListIteratorHasNext, ListIteratorHasPrevious. rewrite !not_stale. cbn [bind icur deref]. rewrite D. cbn [bind dval rdcell deref]. rewrite HL. cbn [bind dnext dprev].
  unfold sight. rewrite nth_error_map, E, map_length. cbn [option_map]. rewrite hd_some, la_some. do 2 f_equal; [f_equal|].
  - rewrite EC, app_length. cbn [length]. apply eq_true_iff_eq. rewrite !Nat.ltb_lt. lia.
  - now rewrite LN.
Qed.
Lemma move_at pos i m : at_ pos i -> exists i', moved w i m = Ok (i', snd (goes (length ch) pos m)) /\ at_ (fst (goes (length ch) pos m)) i'.
Proof.
  intros (x & E & ->). destruct (at_split _ E) as (l1 & l2 & EC & LN & D & _). destruct m; cbn [moved goes].
  - unfold ListIteratorFirst. rewrite not_stale. cbn [bind]. unfold lget, hload. cbn [iorigin istate]. rewrite EL. cbn [bind]. rewrite FI. eexists. split; [reflexivity|].
    destruct (first_at _ _ E) as (y & E0 & H0). exists y. split; [exact E0|now rewrite H0].
  - unfold ListIteratorLast. rewrite not_stale. cbn [bind]. unfold lget, hload. cbn [iorigin istate]. rewrite EL. cbn [bind]. rewrite LA. eexists. split; [reflexivity|].
    destruct (last_at _ _ E) as (y & E0 & H0). exists y. split; [exact E0|now rewrite H0].
  - unfold ListIteratorNext. rewrite not_stale. cbn [bind icur]. rewrite D. cbn [bind dnext iorigin istate].
    assert (LE : length ch = S pos + length l2) by (rewrite EC, app_length; cbn [length]; lia).
    destruct l2 as [|y l2]; cbn [length] in LE.
    + replace (S pos <? length ch) with false by (symmetry; apply Nat.ltb_ge; lia). eexists. split; [reflexivity|]. exists x. auto.
    + replace (S pos <? length ch) with true by (symmetry; apply Nat.ltb_lt; lia). eexists. split; [reflexivity|]. exists y. split; [|reflexivity].
      cbn [fst]. rewrite EC, nth_error_app2 by lia. replace (S pos - length l1) with 1 by lia. reflexivity.
  - unfold ListIteratorPrevious. rewrite not_stale. cbn [bind icur]. rewrite D. cbn [bind dprev iorigin istate].
    destruct l1 as [|y l1 _] using rev_ind.
    + cbn in LN. subst pos. eexists. split; [reflexivity|]. exists x. auto.
    + rewrite app_length in LN. cbn [length] in LN. rewrite la_last. replace (0 <? pos) with true by (symmetry; apply Nat.ltb_lt; lia). eexists. split; [reflexivity|]. exists y. split; [|reflexivity].
      cbn [fst]. rewrite EC, <- app_assoc, nth_error_app2 by lia. replace (pos - 1 - length l1) with 0 by lia. reflexivity.
Qed.
Lemma moves_at ms : forall pos i, at_ pos i -> moves w i ms = Ok (travel (map va ch) pos ms).
Proof.
  induction ms as [|m ms IH]; intros pos i A; cbn [moves travel]; [reflexivity|]. destruct (move_at m A) as (i' & E & A'). rewrite E. cbn [bind]. rewrite map_length.
  destruct (goes (length ch) pos m) as [pos' r]. cbn [fst snd] in *. rewrite (look_at A'). cbn [bind]. rewrite (IH _ _ A'). reflexivity.
Qed.
End L.

(** After any history of lists with copies (as in C20), an iterator taken from any list starts at its first value
    and moves like an index; for an empty list there is none. *)
Theorem C139_light_iterators os rs st h A ms : asteps cmpf (ainit V) os rs st -> amap st h = Some A ->
  exists w, lcalls cmpf (@wempty V) os = Ok (w, rs) /\
    (avals A = [] -> ListIteratorGet w h = Ok None) /\
    (avals A <> [] -> exists i, ListIteratorGet w h = Ok (Some i) /\ look w i = Ok (sight (avals A) 0) /\ moves w i ms = Ok (travel (avals A) 0 ms)).
Proof.
  intros H EA. destruct (all_steps H (init_ok V)) as [w [gs [lost [E [INV _]]]]]. exists w. split; [exact E|].
  apply (i_st INV) in EA as (g & IG & IO & ->). pose proof (i_ok INV) as OK. rewrite Forall_forall in OK. specialize (OK g IG).
  destruct (g_ls OK h IO) as [L [EL [s [it [EQ _]]]]]. cbn [gal avals].
  unfold ListIteratorGet, lget, hload. rewrite EL. cbn [bind].
  assert (F : lfirst L = hd (gch g) /\ llast L = la (gch g) /\ llist L = hd (gch g)) by (rewrite EQ; auto). destruct F as (F1 & F2 & F3).
  rewrite F1, F3. split.
  - intros N. apply map_eq_nil in N. now rewrite N.
  - intros N. pose proof (g_ch OK) as C. pose proof (g_pa OK) as P. destruct (gch g) as [|x c] eqn:EC; [now destruct N|]. change (hd (x :: c)) with (Some (na x)). eexists. split; [reflexivity|].
    assert (A : at_ h L (x :: c) 0 (mkI (Some (na x)) h (lstate L))) by (exists x; split; reflexivity).
    split; [exact (look_at EL F1 F2 C P A)|exact (moves_at EL F1 F2 C P ms A)].
Qed.
End P.
Print Assumptions C139_light_iterators.
Definition numbers (a b : Z) : Z := (a - b)%Z.
Example C139_instance :
  match lcalls numbers wempty [New Z true true true; Append 0 1%Z; Append 0 2%Z; Prepend 0 7%Z; Copy Z 0; Append 1 4%Z] with
  | Ok (w, _) => match ListIteratorGet w 1 with
      | Ok (Some i) => moves w i [Next; Last; Next; Previous; First; Previous] =
          Ok [(0%Z, (Some 1%Z, true, true)); (0%Z, (Some 4%Z, false, true)); ((-1)%Z, (Some 4%Z, false, true)); (0%Z, (Some 2%Z, true, true)); (0%Z, (Some 7%Z, true, false)); ((-1)%Z, (Some 7%Z, true, false))]
      | _ => False end
  | _ => False
  end.
Proof. vm_compute. reflexivity. Qed.
