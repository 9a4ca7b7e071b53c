(** C20: light iterators notice removals.

    A light iterator remembers the list's state counter, which every removal changes: from the
    first removal on it answers as at the end of the list, until exactly 2^32 removals (or a
    multiple) have happened. *)
From Verif Require Import Prelude PreludeFacts DllModel RefModel ListModel ListSpec PropsList.
Set Implicit Arguments.

Ltac binv H :=
  repeat match type of H with
  | bind ?x ?f = Ok _ => let y := fresh "y" in let E := fresh "E" in destruct x as [y| | |] eqn:E; [cbn [bind] in H|discriminate H..]
  end.
Ltac okinv H := injection H as H; subst.

Section P.
Variable V : Type.
Variable cmpf : V -> V -> Z.
Notation world := (world V).
Implicit Types (w : world).

Definition stamp w (k : nat) : option N := option_map lstate (hmem (wl w) k).
(** list structures are below the next address, and their counters are 32-bit numbers *)
Definition wok w : Prop := forall k L, hmem (wl w) k = Some L -> k < hfresh (wl w) /\ (lstate L < 2 ^ 32)%N.
(** lists other than those in [but] keep their counter *)
Definition keeps (but : nat -> Prop) w w' : Prop :=
  hfresh (wl w) <= hfresh (wl w') /\ (forall k, k < hfresh (wl w) -> ~ but k -> stamp w' k = stamp w k) /\ (wok w -> wok w').
Definition none (_ : nat) : Prop := False.
Lemma keeps_eq b w w' : wl w' = wl w -> keeps b w w'.
Proof. intros E. unfold keeps, stamp, wok. rewrite E. auto. Qed.
Lemma keeps_trans b w w1 w2 : keeps b w w1 -> keeps b w1 w2 -> keeps b w w2.
Proof. intros (A & B & W1) (C & D & W2). split; [lia|]. split; auto. intros k K N. rewrite D; auto. lia. Qed.
Lemma keeps_weak b w w' : keeps none w w' -> keeps b w w'.
Proof. intros (A & B & W). split; auto. Qed.
(** a list structure rewritten with its own counter *)
Lemma keeps_lput b w w1 w' k L X : lput w1 k X = Ok w' -> wl w1 = wl w -> lget w k = Ok L -> lstate X = lstate L -> keeps b w w'.
Proof.
  unfold lput, hstore, lget, hload. intros H E G S. rewrite E in H. destruct (hmem (wl w) k) eqn:M; [|discriminate]. cbn in H. okinv H.
  injection G as ->. unfold keeps, stamp. cbn. split; auto. split.
  - intros j J N. destruct (Nat.eqb_spec j k) as [->|NE]; auto. rewrite M. cbn. now rewrite S.
  - intros OK j L' HX. cbn in *. destruct (Nat.eqb_spec j k) as [->|NE]; [|exact (OK j L' HX)]. injection HX as <-. rewrite S. exact (OK _ _ M).
Qed.

Ltac same := apply keeps_eq; reflexivity.

Lemma free_wl w p w' : free_payload w p = Ok w' -> wl w' = wl w.
Proof. unfold free_payload. intros H. binv H. now okinv H. Qed.
Lemma copy_wl w p w' q : call_copy w p = Ok (w', q) -> wl w' = wl w.
Proof. unfold call_copy. intros H. binv H. destruct (halloc (wp w) y). now okinv H. Qed.
Lemma copy_loop_wl copy : forall f w p a b c d w' x y z, copy_loop f copy w p a b c d = Ok (w', x, y, z) -> wl w' = wl w.
Proof.
  induction f as [|f IH]; intros w p a b c d w' x y z H; [discriminate|]. cbn [copy_loop] in H.
  destruct p as [p|]; [|now okinv H].
  destruct (dload (wn w) p) as [n| | |] eqn:E1; try discriminate H. cbn [bind] in H.
  destruct (dalloc (wn w) _) as [b' h] eqn:E2.
  match type of H with bind ?x _ = _ => destruct x as [h'| | |] eqn:E3; try discriminate H end. cbn [bind] in H.
  destruct (rdcell (dval n)) as [pl| | |] eqn:E4; try discriminate H. cbn [bind] in H.
  match type of H with bind ?x _ = _ => destruct x as [w1| | |] eqn:E5; try discriminate H end. cbn [bind] in H.
  assert (W : wl w1 = wl w).
  { destruct pl as [pl|]; [|now okinv E5]. destruct copy.
    - destruct (call_copy (with_n w h') pl) as [[w2 p']| | |] eqn:E6; try discriminate E5. cbn [bind] in E5.
      binv E5. okinv E5. cbn. now apply copy_wl in E6.
    - binv E5. now okinv E5. }
  rewrite <- W. binv H. destruct a; eapply IH; eauto.
Qed.
Lemma detach_keeps w l w' : ListDetach w l = Ok w' -> keeps none w w'.
Proof.
  unfold ListDetach. intros H. destruct (lget w l) as [L| | |] eqn:E1; try discriminate H. cbn [bind] in H.
  destruct (hload (wr w) (lref L)) as [rc| | |] eqn:E2; try discriminate H. cbn [bind] in H.
  destruct (RefCountIsShared rc); [|okinv H; same].
  destruct (copy_loop _ _ _ _ _ _ _ _) as [[[[w1 a] b] c]| | |] eqn:E3; try discriminate H. cbn [bind] in H.
  apply copy_loop_wl in E3. binv H. destruct (halloc y0 y1) as [r hr]. eapply keeps_lput; [eassumption|exact E3|eassumption|reflexivity].
Qed.
Lemma append_keeps w l p w' : ListAppend w l p = Ok w' -> keeps none w w'.
Proof.
  unfold ListAppend. intros H. destruct (ListDetach w l) as [w1| | |] eqn:D; try discriminate H. cbn [bind] in H.
  apply detach_keeps in D. eapply keeps_trans; [exact D|]. destruct (lget w1 l) as [L| | |] eqn:E1; try discriminate H. cbn [bind] in H.
  destruct (llast L); destruct (dalloc _ _) as [b h]; binv H; (eapply keeps_lput; [eassumption|reflexivity|eassumption|reflexivity]).
Qed.
Lemma prepend_keeps w l p w' : ListPrepend w l p = Ok w' -> keeps none w w'.
Proof.
  unfold ListPrepend. intros H. destruct (ListDetach w l) as [w1| | |] eqn:D; try discriminate H. cbn [bind] in H.
  apply detach_keeps in D. eapply keeps_trans; [exact D|]. destruct (lget w1 l) as [L| | |] eqn:E1; try discriminate H. cbn [bind] in H.
  destruct (llist L); destruct (dalloc _ _) as [b h]; binv H; (eapply keeps_lput; [eassumption|reflexivity|eassumption|reflexivity]).
Qed.
Lemma miter_get w l L c v : miter w l = Ok (L, c, v) -> lget w l = Ok L.
Proof. unfold miter. intros H. destruct (lget w l) as [L'| | |]; try discriminate H. cbn [bind] in H. destruct (liter L') as [[]|]; [|discriminate]. now okinv H. Qed.
Lemma mappend_keeps w l p w' r : ListMutableIteratorAppend w l p = Ok (w', r) -> keeps none w w'.
Proof.
  unfold ListMutableIteratorAppend. intros H. destruct (miter w l) as [[[L0 c] v]| | |]; try discriminate H. cbn [bind] in H.
  destruct v; cbn [negb] in H; [|okinv H; same]. destruct (dalloc _ _) as [b h].
  destruct (ListDetach (with_n w h) l) as [w1| | |] eqn:D; try discriminate H. cbn [bind] in H.
  apply detach_keeps in D. eapply keeps_trans; [exact D|].
  destruct (set_payload _ _ _) as [h1| | |]; try discriminate H. cbn [bind] in H.
  destruct (deref c) as [a| | |]; try discriminate H. cbn [bind] in H.
  destruct (dload h1 a) as [n| | |]; try discriminate H. cbn [bind] in H.
  destruct (lget w1 l) as [L| | |] eqn:E1; try discriminate H. cbn [bind] in H.
  destruct (dnext n); binv H; okinv H; (eapply keeps_lput; [eassumption|reflexivity|eassumption|reflexivity]).
Qed.
Lemma mprepend_keeps w l p w' r : ListMutableIteratorPrepend w l p = Ok (w', r) -> keeps none w w'.
Proof.
  unfold ListMutableIteratorPrepend. intros H. destruct (miter w l) as [[[L0 c] v]| | |]; try discriminate H. cbn [bind] in H.
  destruct v; cbn [negb] in H; [|okinv H; same]. destruct (dalloc _ _) as [b h].
  destruct (ListDetach (with_n w h) l) as [w1| | |] eqn:D; try discriminate H. cbn [bind] in H.
  apply detach_keeps in D. eapply keeps_trans; [exact D|].
  destruct (set_payload _ _ _) as [h1| | |]; try discriminate H. cbn [bind] in H.
  destruct (deref c) as [a| | |]; try discriminate H. cbn [bind] in H.
  destruct (dload h1 a) as [n| | |]; try discriminate H. cbn [bind] in H.
  destruct (lget w1 l) as [L| | |] eqn:E1; try discriminate H. cbn [bind] in H.
  destruct (dprev n); binv H; okinv H; (eapply keeps_lput; [eassumption|reflexivity|eassumption|reflexivity]).
Qed.
Lemma unlink_keeps w l a w' : unlink_node w l a = Ok w' -> keeps none w w'.
Proof.
  unfold unlink_node. intros H. destruct (lget w l) as [L| | |] eqn:E1; try discriminate H. cbn [bind] in H.
  destruct (dload _ _) as [n| | |]; try discriminate H. cbn [bind] in H.
  destruct (dnext n), (dprev n); binv H; try (okinv H; same); (eapply keeps_lput; [eassumption|reflexivity|eassumption|reflexivity]).
Qed.
Lemma move_keeps w l L a w' : lget w l = Ok L -> move_iter w l L a = Ok w' -> keeps none w w'.
Proof.
  unfold move_iter. intros G H. destruct (liter L) as [[[c|] v]|]; try (okinv H; same). destruct (c =? a); [|okinv H; same].
  destruct (dload _ _) as [n| | |]; try discriminate H. cbn [bind] in H.
  destruct (dnext n), (dprev n); (eapply keeps_lput; [eassumption|reflexivity|eassumption|reflexivity]).
Qed.

(** list [h], whose structure exists, has its counter raised; the others keep theirs *)
Definition bumped w w' (h : nat) : Prop :=
  keeps (fun k => k = h) w w' /\ (h < hfresh (wl w) -> exists s, stamp w h = Some s /\ stamp w' h = Some ((s + 1) mod 2 ^ 32)%N).
Lemma bumped_after w w1 w2 h : keeps none w w1 -> bumped w1 w2 h -> bumped w w2 h.
Proof.
  intros K (B & C). split; [eapply keeps_trans; [apply keeps_weak; eauto|auto]|]. intros LT.
  destruct K as (F & K & _). destruct C as (s & S1 & S2); [lia|]. exists s. split; auto. rewrite <- K; auto.
Qed.
Lemma bumped_before w w1 w2 h : bumped w w1 h -> keeps none w1 w2 -> bumped w w2 h.
Proof.
  intros (B & C) K. split; [eapply keeps_trans; [eauto|apply keeps_weak; auto]|]. intros LT. destruct (C LT) as (s & S1 & S2). exists s. split; auto.
  destruct K as (_ & K & _). rewrite K; auto. destruct B. lia.
Qed.
Lemma drop_bumps w l a w' : drop_node w l a = Ok w' -> bumped w w' l.
Proof.
  unfold drop_node. intros H. destruct (dload _ _) as [n| | |]; try discriminate H. cbn [bind] in H.
  destruct (rdcell (dval n)) as [p| | |]; try discriminate H. cbn [bind] in H.
  match type of H with bind ?x _ = _ => destruct x as [w1| | |] eqn:E; try discriminate H end. cbn [bind] in H.
  assert (W : wl w1 = wl w) by (destruct p; [now apply free_wl in E|now okinv E]).
  destruct (dfree (wn w1) a) as [h| | |]; try discriminate H. cbn [bind] in H.
  unfold lget, hload in H. cbn [with_n wl] in H. rewrite W in H. destruct (hmem (wl w) l) as [L|] eqn:M; [|discriminate H]. cbn [bind] in H.
  unfold lput, hstore, hload in H. cbn [with_n wl] in H. rewrite W, M in H. cbn [bind] in H. okinv H.
  split.
  - unfold keeps, stamp. cbn. split; auto. split.
    + intros k K N. destruct (Nat.eqb_spec k l); [contradiction|reflexivity].
    + intros OK k L' X. cbn [with_l wl hput hmem hfresh] in *. destruct (Nat.eqb_spec k l) as [->|NE]; [|exact (OK k L' X)]. injection X as <-. split; [apply (OK _ _ M)|]. apply N.mod_lt. discriminate.
  - intros _. exists (lstate L). unfold stamp. cbn [with_l wl hput hmem]. rewrite M, Nat.eqb_refl. auto.
Qed.
Lemma remove_bumps w l p w' r : ListRemove cmpf w l p = Ok (w', r) -> (r = 0%Z /\ bumped w w' l) \/ (r = (-1)%Z /\ keeps none w w').
Proof.
  unfold ListRemove. intros H. destruct (lget w l) as [L0| | |]; try discriminate H. cbn [bind] in H.
  destruct (find_node _ _ _ _ _ _ _) as [[f|]| | |]; try discriminate H; cbn [bind] in H; [|okinv H; right; split; auto; same].
  destruct (ListDetach w l) as [w1| | |] eqn:D; try discriminate H. cbn [bind] in H. apply detach_keeps in D.
  destruct (lget w1 l) as [L| | |] eqn:E1; try discriminate H. cbn [bind] in H.
  destruct (find_node _ _ _ _ _ _ _) as [[node|]| | |]; try discriminate H. cbn [bind] in H.
  destruct (move_iter w1 l L node) as [w2| | |] eqn:E2; try discriminate H. cbn [bind] in H. apply move_keeps in E2; auto.
  destruct (unlink_node w2 l node) as [w3| | |] eqn:E3; try discriminate H. cbn [bind] in H. apply unlink_keeps in E3.
  destruct (drop_node w3 l node) as [w4| | |] eqn:E4; try discriminate H. cbn [bind] in H. apply drop_bumps in E4. okinv H.
  left. split; auto. eapply bumped_after; [|exact E4]. eapply keeps_trans; [exact D|]. eapply keeps_trans; eauto.
Qed.
Lemma mremove_bumps w l w' r : ListMutableIteratorRemove w l = Ok (w', r) -> (r = 0%Z /\ bumped w w' l) \/ (r = (-1)%Z /\ keeps none w w').
Proof.
  unfold ListMutableIteratorRemove. intros H. destruct (miter w l) as [[[L0 c] v]| | |]; try discriminate H. cbn [bind] in H.
  destruct v; cbn [negb] in H; [|okinv H; right; split; auto; same].
  destruct (ListDetach w l) as [w1| | |] eqn:D; try discriminate H. cbn [bind] in H. apply detach_keeps in D.
  destruct (deref c) as [a| | |]; try discriminate H. cbn [bind] in H.
  destruct (dload (wn w1) a) as [n| | |]; try discriminate H. cbn [bind] in H.
  assert (GO : forall x, (let* w := unlink_node w1 l a in let* w := drop_node w l a in let* L := lget w l in
     let* w := lput w l (set_iter L (Some (Some x, true))) in Ok (w, 0%Z)) = Ok (w', r) -> r = 0%Z /\ bumped w w' l).
  { clear H. intros x H. destruct (unlink_node w1 l a) as [w3| | |] eqn:E3; try discriminate H. cbn [bind] in H. apply unlink_keeps in E3.
    destruct (drop_node w3 l a) as [w4| | |] eqn:E4; try discriminate H. cbn [bind] in H. apply drop_bumps in E4.
    destruct (lget w4 l) as [L| | |] eqn:E5; try discriminate H. cbn [bind] in H.
    destruct (lput w4 l _) as [w5| | |] eqn:E6; try discriminate H. cbn [bind] in H. okinv H. split; auto.
    assert (K : keeps none w4 w') by (eapply keeps_lput; [eassumption|reflexivity|eassumption|reflexivity]).
    assert (K13 : keeps none w w3) by (eapply keeps_trans; eauto).
    eapply bumped_before; [|exact K]. eapply bumped_after; [exact K13|exact E4]. }
  destruct (dnext n) as [x|]; [left; now apply GO in H|]. destruct (dprev n) as [x|]; [left; now apply GO in H|].
  okinv H. right. auto.
Qed.

(** one call *)
Definition removes (h : nat) (o : lop V) (r : lret V) : N :=
  match o, r with
  | Remove k _, RInt _ z | MRemove _ k, RInt _ z => (if (k =? h)%nat && (z =? 0)%Z then 1 else 0)%N
  | _, _ => 0%N
  end.
Definition is_list w (h : nat) : Prop := h < hfresh (wl w) /\ exists s, stamp w h = Some s /\ (s < 2 ^ 32)%N.
Lemma int_inv (x : res (world * Z)) w r : int_of x = Ok (w, r) -> exists z, x = Ok (w, z) /\ r = RInt V z.
Proof. unfold int_of. intros H. destruct x as [[w1 z]| | |]; try discriminate H. okinv H. eauto. Qed.

Definition all_bound w : Prop := forall k, hfresh (wl w) <= k -> hmem (wl w) k = None.
Definition counted w w' h (o : lop V) (r : lret V) : Prop :=
  h < hfresh (wl w) -> o <> Destroy V h ->
  h < hfresh (wl w') /\ forall s, stamp w h = Some s -> (s < 2 ^ 32)%N -> stamp w' h = Some ((s + removes h o r) mod 2 ^ 32)%N.
Lemma step_keeps w o w' r h : lcall cmpf w o = Ok (w', r) -> (wok w -> wok w') /\ counted w w' h o r.
Proof.
  intros H. unfold counted.
  assert (FIN : keeps none w w' -> removes h o r = 0%N -> (wok w -> wok w') /\ counted w w' h o r).
  { intros (A & B & OK) Z. split; auto. intros LT _. split; [lia|]. intros s S LS. rewrite Z, N.add_0_r, B, S by (auto; intros []). f_equal. symmetry. now apply N.mod_small. }
  assert (REM : forall k z, (z = 0%Z /\ bumped w w' k) \/ (z = (-1)%Z /\ keeps none w w') -> removes h o r = (if (k =? h)%nat && (z =? 0)%Z then 1 else 0)%N ->
     (wok w -> wok w') /\ counted w w' h o r).
  { intros k z C RM. destruct C as [(-> & (A & B & OK) & C)|(-> & K)]; [|apply FIN; auto; rewrite RM; now rewrite andb_false_r].
    split; auto. intros LT _. split; [lia|]. intros s S LS. rewrite RM. cbn [Z.eqb]. rewrite andb_true_r. destruct (Nat.eqb_spec k h) as [->|NE].
    - destruct (C LT) as (s1 & S1 & S2). congruence.
    - rewrite N.add_0_r, B, S by auto. f_equal. symmetry. now apply N.mod_small. }
  destruct o; cbn [lcall] in H.
  - apply FIN; auto. unfold ListNew in H. destruct (halloc (wr w) _) as [a b]. cbn [halloc] in H. binv H. cbn [bind] in H.
    destruct y as [w2 l]. okinv H. binv E. okinv E. split; [cbn; lia|]. split.
    + intros k K _. unfold stamp. cbn. destruct (Nat.eqb_spec k (hfresh (wl w))); [lia|reflexivity].
    + intros OK k L' X. cbn in *. destruct (Nat.eqb_spec k (hfresh (wl w))); [injection X as <-; cbn; lia|]. apply OK in X. lia.
  - apply FIN; auto. unfold ListCopy in H. destruct (lget w h0) as [L| | |] eqn:G; try discriminate H. cbn [bind] in H.
    destruct (has_copy L); cbn [negb] in H; [|cbn in H; okinv H; same]. cbn [halloc] in H. binv H. destruct y as [w2 l]. okinv H. binv E. okinv E.
    unfold lget, hload in G. destruct (hmem (wl w) h0) eqn:M; [|discriminate]. injection G as ->.
    split; [cbn; lia|]. split.
    + intros k K _. unfold stamp. cbn. destruct (Nat.eqb_spec k (hfresh (wl w))); [lia|reflexivity].
    + intros OK k L' X. cbn in *. destruct (Nat.eqb_spec k (hfresh (wl w))); [injection X as <-; cbn; apply OK in M; lia|]. apply OK in X. lia.
  - unfold ListDestroy in H. destruct (lget w h0) as [L| | |] eqn:G; try discriminate H. cbn [bind] in H.
    destruct (hload (wr w) (lref L)) as [rc| | |] eqn:G2; try discriminate H. cbn [bind] in H.
    match type of H with bind (bind ?x _) _ = _ => destruct x as [w1| | |] eqn:E2; try discriminate H end. cbn [bind] in H.
    assert (W : wl w1 = wl w).
    { clear -E2. destruct (RefCountIsShared rc); binv E2; okinv E2; cbn; auto.
      match goal with X : destroy_loop _ _ _ _ = Ok ?z |- _ => revert X; clear end.
      generalize (lfirst L) (S (dfresh (wn w))) (has_destroy L). intros p f d. revert w p.
      induction f as [|f IH]; intros w p X; [discriminate|]. cbn [destroy_loop] in X. destruct p as [a|]; [|now okinv X].
      destruct (dload (wn w) a) as [n| | |]; try discriminate X. cbn [bind] in X.
      match type of X with bind ?x _ = _ => destruct x as [w1| | |] eqn:E5; try discriminate X end. cbn [bind] in X.
      binv X. apply IH in X. rewrite X. cbn. destruct d; [|now okinv E5]. binv E5. match type of E5 with match ?q with _ => _ end = _ => destruct q end; [now apply free_wl in E5|now okinv E5]. }
    destruct (hfree (wl w1) h0) as [hl| | |] eqn:E3; try discriminate H. cbn [bind] in H. okinv H.
    unfold hfree in E3. binv E3. okinv E3. split.
    { intros OK k L' X. cbn in *. rewrite W in *. destruct (k =? h0); [discriminate|]. exact (OK k L' X). }
    intros LT ND. assert (NE : h <> h0) by congruence. split; [cbn; rewrite W; lia|]. intros s S LS. unfold stamp. cbn. rewrite W.
    destruct (Nat.eqb_spec h h0); [contradiction|]. rewrite N.add_0_r, N.mod_small by auto. exact S.
  - destruct (with_value w v) as [w1 p] eqn:WV. assert (W : wl w1 = wl w) by (unfold with_value in WV; destruct (halloc _ _); now injection WV as <- _).
    binv H. okinv H. apply append_keeps in E. apply FIN; auto. eapply keeps_trans; [apply keeps_eq, W|auto].
  - destruct (with_value w v) as [w1 p] eqn:WV. assert (W : wl w1 = wl w) by (unfold with_value in WV; destruct (halloc _ _); now injection WV as <- _).
    binv H. okinv H. apply prepend_keeps in E. apply FIN; auto. eapply keeps_trans; [apply keeps_eq, W|auto].
  - destruct (with_value w v) as [w1 p] eqn:WV. assert (W : wl w1 = wl w) by (unfold with_value in WV; destruct (halloc _ _); now injection WV as <- _).
    binv H. destruct y as [w2 z]. binv H. okinv H. apply remove_bumps in E. apply free_wl in E0. apply (REM h0 z); [|reflexivity].
    destruct E as [(-> & B)|(-> & K)]; [left|right]; split; auto.
    + eapply bumped_before; [|apply keeps_eq, E0]. eapply bumped_after; [apply keeps_eq, W|auto].
    + eapply keeps_trans; [apply keeps_eq, W|]. eapply keeps_trans; [exact K|apply keeps_eq, E0].
  - binv H. okinv H. apply FIN; auto. same.
  - apply FIN; [|now destruct r]. binv H. destruct y as [i|]; [|okinv H; same]. binv H. okinv H. same.
  - binv H. destruct y as [w2 b]. okinv H. apply FIN; auto. unfold ListMutableIteratorGet in E.
    destruct (lget w h0) as [L| | |] eqn:G; try discriminate E. cbn [bind] in E. destruct (liter L); [okinv E; same|]. destruct (lfirst L); [|okinv E; same].
    binv E. okinv E. eapply keeps_lput; [eassumption|reflexivity|eassumption|reflexivity].
  - binv H. okinv H. apply FIN; auto. unfold ListMutableIteratorRelease in E.
    destruct (lget w h0) as [L| | |] eqn:G; try discriminate E. cbn [bind] in E. eapply keeps_lput; [eassumption|reflexivity|eassumption|reflexivity].
  - apply int_inv in H as (z & H & ->). apply FIN; auto. unfold ListMutableIteratorFirst in H. destruct (miter w h0) as [[[L c] v]| | |] eqn:M; try discriminate H.
    cbn [bind] in H. apply miter_get in M. destruct v; cbn [negb] in H; [|okinv H; same]. binv H. okinv H. eapply keeps_lput; [eassumption|reflexivity|eassumption|reflexivity].
  - apply int_inv in H as (z & H & ->). apply FIN; auto. unfold ListMutableIteratorLast in H. destruct (miter w h0) as [[[L c] v]| | |] eqn:M; try discriminate H.
    cbn [bind] in H. apply miter_get in M. destruct v; cbn [negb] in H; [|okinv H; same]. binv H. okinv H. eapply keeps_lput; [eassumption|reflexivity|eassumption|reflexivity].
  - apply int_inv in H as (z & H & ->). apply FIN; auto. unfold ListMutableIteratorNext in H. destruct (miter w h0) as [[[L c] v]| | |] eqn:M; try discriminate H.
    cbn [bind] in H. apply miter_get in M. destruct v; cbn [negb] in H; [|okinv H; same]. binv H. destruct (dnext y0); [|okinv H; same]. binv H. okinv H. eapply keeps_lput; [eassumption|reflexivity|eassumption|reflexivity].
  - apply int_inv in H as (z & H & ->). apply FIN; auto. unfold ListMutableIteratorPrevious in H. destruct (miter w h0) as [[[L c] v]| | |] eqn:M; try discriminate H.
    cbn [bind] in H. apply miter_get in M. destruct v; cbn [negb] in H; [|okinv H; same]. binv H. destruct (dprev y0); [|okinv H; same]. binv H. okinv H. eapply keeps_lput; [eassumption|reflexivity|eassumption|reflexivity].
  - binv H. apply FIN; [|now destruct r]. destruct y; [binv H|]; okinv H; same.
  - binv H. okinv H. apply FIN; auto. same.
  - binv H. okinv H. apply FIN; auto. same.
  - apply int_inv in H as (z & H & ->). apply mremove_bumps in H. apply (REM h0 z); auto.
  - destruct (with_value w v) as [w1 p] eqn:WV. assert (W : wl w1 = wl w) by (unfold with_value in WV; destruct (halloc _ _); now injection WV as <- _).
    binv H. destruct y as [w2 z]. apply mappend_keeps in E. unfold unless_taken in H.
    apply FIN; [|now destruct r]. eapply keeps_trans; [apply keeps_eq, W|]. eapply keeps_trans; [exact E|]. destruct (z =? 0)%Z; [okinv H; same|].
    binv H. okinv H. apply keeps_eq. now apply free_wl in E0.
  - destruct (with_value w v) as [w1 p] eqn:WV. assert (W : wl w1 = wl w) by (unfold with_value in WV; destruct (halloc _ _); now injection WV as <- _).
    binv H. destruct y as [w2 z]. apply mprepend_keeps in E. unfold unless_taken in H.
    apply FIN; [|now destruct r]. eapply keeps_trans; [apply keeps_eq, W|]. eapply keeps_trans; [exact E|]. destruct (z =? 0)%Z; [okinv H; same|].
    binv H. okinv H. apply keeps_eq. now apply free_wl in E0.
Qed.

(** the number of successful removals from [h] in a history *)
Fixpoint removals (h : nat) (os : list (lop V)) (rs : list (lret V)) : N :=
  match os, rs with o :: os, r :: rs => removes h o r + removals h os rs | _, _ => 0 end%N.
Lemma calls_keep os : forall w w' rs h, lcalls cmpf w os = Ok (w', rs) -> h < hfresh (wl w) -> ~ In (Destroy V h) os ->
  forall s, stamp w h = Some s -> (s < 2 ^ 32)%N -> stamp w' h = Some ((s + removals h os rs) mod 2 ^ 32)%N.
Proof.
  induction os as [|o os IH]; intros w w' rs h H LT ND s S LS; cbn [lcalls] in H.
  - okinv H. cbn [removals]. now rewrite N.add_0_r, N.mod_small.
  - destruct (lcall cmpf w o) as [[w1 r]| | |] eqn:E1; try discriminate H. cbn [bind] in H.
    destruct (lcalls cmpf w1 os) as [[w2 rs1]| | |] eqn:E2; try discriminate H. cbn [bind] in H. okinv H.
    destruct (step_keeps w o h E1) as (_ & CT). destruct (CT LT) as (LT1 & K); [intros ->; apply ND; now left|].
    rewrite (IH _ _ _ _ E2 LT1 (fun X => ND (or_intror X)) _ (K s S LS)) by (apply N.mod_lt; discriminate).
    cbn [removals]. f_equal. rewrite N.add_mod_idemp_l by discriminate. f_equal. lia.
Qed.
Lemma calls_ok os : forall w w' rs, lcalls cmpf w os = Ok (w', rs) -> wok w -> wok w'.
Proof.
  induction os as [|o os IH]; intros w w' rs H OK; cbn [lcalls] in H; [now okinv H|].
  destruct (lcall cmpf w o) as [[w1 r]| | |] eqn:E1; try discriminate H. cbn [bind] in H.
  destruct (lcalls cmpf w1 os) as [[w2 rs1]| | |] eqn:E2; try discriminate H. cbn [bind] in H. okinv H.
  eapply IH; eauto. destruct (step_keeps w o 0 E1); auto.
Qed.

(** An iterator taken from list [h] in any reachable state: after any further calls among which
    [n] successful removals from [h] ([0 < n < 2^32]; [h] not destroyed) it gives no data and has
    no next element, and its functions touch no memory of nodes. *)
Theorem C20_iterators_notice_removals os1 w rs1 h i os2 w' rs2 :
  lcalls cmpf wempty os1 = Ok (w, rs1) -> ListIteratorGet w h = Ok (Some i) ->
  lcalls cmpf w os2 = Ok (w', rs2) -> ~ In (Destroy V h) os2 ->
  (0 < removals h os2 rs2 < 2 ^ 32)%N ->
  ListIteratorData w' i = Ok None /\ ListIteratorHasNext w' i = Ok false /\ ListIteratorNext w' i = Ok (i, (-1)%Z).
Proof.
  intros H1 G H2 ND N. assert (OK : wok w) by (eapply calls_ok; eauto; intros k L X; discriminate X).
  unfold ListIteratorGet, lget, hload in G. destruct (hmem (wl w) h) as [L|] eqn:M; [|discriminate]. cbn [bind] in G.
  destruct (lfirst L); [|discriminate]. injection G as <-. destruct (OK _ _ M) as [LT LS].
  assert (S : stamp w h = Some (lstate L)) by (unfold stamp; now rewrite M).
  pose proof (calls_keep _ _ H2 LT ND S LS) as S'. unfold stamp in S'. destruct (hmem (wl w') h) as [L'|] eqn:M'; [|discriminate]. cbn in S'. injection S' as S'.
  assert (ST : stale w' (mkI (llist L) h (lstate L)) = Ok true).
  { unfold stale, lget, hload. cbn [iorigin istate]. rewrite M'. cbn [bind]. f_equal. destruct (N.eqb_spec (lstate L) (lstate L')) as [E|E]; auto.
    exfalso. rewrite S' in E. revert E. generalize dependent (removals h os2 rs2). clear - LS. intros n N _ E.
    destruct (N.lt_ge_cases (lstate L + n) (2 ^ 32)) as [C|C]; [rewrite N.mod_small in E by auto; lia|].
    replace (lstate L + n)%N with ((lstate L + n - 2 ^ 32) + 1 * 2 ^ 32)%N in E by lia.
    rewrite N.mod_add, N.mod_small in E by lia. lia. }
  unfold ListIteratorData, ListIteratorHasNext, ListIteratorNext. rewrite ST. auto.
Qed.
(** Without a removal, and with the storage not shared, it goes on to work: C20_copies... (Values). *)
End P.
Print Assumptions C20_iterators_notice_removals.
Example C20_stale_instance :
  match lcalls zcmpf wempty [New Z true true true; Append 0 1%Z; Append 0 2%Z] with
  | Ok (w, _) =>
      match ListIteratorGet w 0, lcalls zcmpf w [Append 0 3%Z; Remove 0 1%Z; Prepend 0 7%Z] with
      | Ok (Some i), Ok (w', rs2) => removals 0 [Append 0 3%Z; Remove 0 1%Z; Prepend 0 7%Z] rs2 = 1%N /\ ListIteratorHasNext w i = Ok true /\ ListIteratorHasNext w' i = Ok false
      | _, _ => False
      end
  | _ => False
  end.
Proof. vm_compute. auto. Qed.
