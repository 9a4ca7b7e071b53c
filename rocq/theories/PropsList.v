(** C20: lists with copies behave as independent lists of values. *)
From Verif Require Import Prelude PreludeFacts DllModel DllFacts RefModel PropsRef ListModel ListSpec ListProofs ListOps.
Set Implicit Arguments.
Arguments hstore_ok [T h a] x [y] _.
Arguments nodup_app_dis [T l1 l2] x _ _ _.
Arguments nodup_app_l [T l1 l2] _.
Arguments chain_at [V h start l1 x l2] _.

Section P.
Variable V : Type.
Variable cmpf : V -> V -> Z.
Notation world := (world V).
Notation item := (nat * (nat * V))%type.
Implicit Types (w : world) (g : grp V).

(** * A client *)
(** walking over a list with a light iterator *)
Fixpoint walk (fuel : nat) w (i : liter_) : res (list V) :=
  match fuel with
  | O => Fuel
  | S f =>
      let* p := ListIteratorData w i in
      let* p := deref p in
      let* v := hload (wp w) p in
      let* more := ListIteratorHasNext w i in
      if more : bool then
        let* ' (i, r) := ListIteratorNext w i in
        let* vs := walk f w i in Ok (v :: vs)
      else Ok [v]
  end.
(** allocating a payload *)
Definition with_value w (v : V) : world * nat := let '(p, h) := halloc (wp w) v in (with_p w h, p).
(** a payload that was not taken over is released *)
Definition unless_taken (x : world * Z) (p : nat) : res (world * lret V) :=
  let '(w, r) := x in
  if (r =? 0)%Z then Ok (w, RInt V r) else let* w := free_payload w p in Ok (w, RInt V r).
Definition int_of (x : res (world * Z)) : res (world * lret V) := let* ' (w, r) := x in Ok (w, RInt V r).
Definition lcall w (o : lop V) : res (world * lret V) :=
  match o with
  | New _ cmp copy destroy => let* ' (w, l) := ListNew w cmp copy destroy in Ok (w, RHandle V (Some l))
  | Copy _ h => let* ' (w, l) := ListCopy w h in Ok (w, RHandle V l)
  | Destroy _ h => let* w := ListDestroy w h in Ok (w, RUnit V)
  | Append h v => let '(w, p) := with_value w v in let* w := ListAppend w h (Some p) in Ok (w, RUnit V)
  | Prepend h v => let '(w, p) := with_value w v in let* w := ListPrepend w h (Some p) in Ok (w, RUnit V)
  | Remove h v =>
      let '(w, p) := with_value w v in
      let* ' (w, r) := ListRemove cmpf w h p in
      let* w := free_payload w p in Ok (w, RInt V r)
  | Count _ h => let* n := ListCount w h in Ok (w, RInt V n)
  | Values _ h =>
      let* i := ListIteratorGet w h in
      match i with
      | None => Ok (w, RVals [])
      | Some i => let* vs := walk (S (dfresh (wn w))) w i in Ok (w, RVals vs)
      end
  | MGet _ h => let* ' (w, b) := ListMutableIteratorGet w h in Ok (w, RBool V b)
  | MRelease _ h => let* w := ListMutableIteratorRelease w h in Ok (w, RUnit V)
  | MFirst _ h => int_of (ListMutableIteratorFirst w h)
  | MLast _ h => int_of (ListMutableIteratorLast w h)
  | MNext _ h => int_of (ListMutableIteratorNext w h)
  | MPrevious _ h => int_of (ListMutableIteratorPrevious w h)
  | MData _ h =>
      let* p := ListMutableIteratorData w h in
      match p with
      | None => Ok (w, RVal None)
      | Some p => let* v := hload (wp w) p in Ok (w, RVal (Some v))
      end
  | MHasNext _ h => let* b := ListMutableIteratorHasNext w h in Ok (w, RBool V b)
  | MHasPrevious _ h => let* b := ListMutableIteratorHasPrevious w h in Ok (w, RBool V b)
  | MRemove _ h => int_of (ListMutableIteratorRemove w h)
  | MAppend h v => let '(w, p) := with_value w v in let* x := ListMutableIteratorAppend w h (Some p) in unless_taken x p
  | MPrepend h v => let '(w, p) := with_value w v in let* x := ListMutableIteratorPrepend w h (Some p) in unless_taken x p
  end.
Fixpoint lcalls w (os : list (lop V)) : res (world * list (lret V)) :=
  match os with
  | [] => Ok (w, [])
  | o :: os => let* ' (w, r) := lcall w o in let* ' (w, rs) := lcalls w os in Ok (w, r :: rs)
  end.

(** * Payloads that belong to no list *)
Lemma winv_value w st gs lost v w' p : winv w st gs lost -> with_value w v = (w', p) ->
  winv w' st gs (p :: lost) /\ hmem (wp w') p = Some v /\ hfresh (wl w') = hfresh (wl w).
Proof.
  intros [OK [On [Op [Or Ol]]] ST AB FR] [= <- <-]. cbn [fpay] in Op. pose proof (own_fresh Op) as NI. split; [split; auto|split; [cbn; rewrite Nat.eqb_refl; reflexivity|reflexivity]].
  - assert (SM : wsame w (with_p w (mkHeap (fun q => if q =? hfresh (wp w) then Some v else hmem (wp w) q) (S (hfresh (wp w))))) (rest gs lost)).
    { split; [apply same_refl|]. split; [|split; apply same_refl]. cbn [with_p wp hmem rest fadd fpay]. apply same_put. exact NI. }
    exact (rest_ok SM OK).
  - split; [exact On|]. split; [|split; [exact Or|exact Ol]]. cbn [fpay with_p wp hmem hfresh]. eapply own_perm; [|exact (own_alloc v Op)]. apply Permutation_middle.
Qed.
Lemma winv_drop w st gs lost p : winv w st gs (p :: lost) -> exists w', free_payload w p = Ok w' /\ winv w' st gs lost.
Proof.
  intros [OK [On [Op [Or Ol]]] ST AB FR]. cbn [fpay] in Op.
  assert (Op' : own (hmem (wp w)) (hfresh (wp w)) (p :: fpay (fps gs) ++ lost)). { eapply own_perm; [|exact Op]. symmetry. apply Permutation_middle. }
  destruct Op' as [ND [DM LT]]. destruct (hmem (wp w) p) as [v|] eqn:E; [|exfalso; apply (proj2 (DM p)); [left; reflexivity|exact E]].
  unfold free_payload, hfree, hload. rewrite E. cbn [bind]. eexists. split; [reflexivity|]. split; auto.
  - assert (SM : wsame w (with_p w (hput (wp w) p None)) (rest gs lost)).
    { split; [apply same_refl|]. split; [|split; apply same_refl]. cbn [with_p wp hmem hput rest fadd fpay]. apply same_put. inversion ND; assumption. }
    exact (rest_ok SM OK).
  - split; [exact On|]. split; [|split; [exact Or|exact Ol]]. cbn [fpay with_p wp hmem hfresh hput]. apply own_free. split; [exact ND|]. auto.
Qed.
(** a payload moves from the free ones into the frame of an operation *)
Lemma wown_pay w F (gs : list (grp V)) p lost : wown w F (rest gs (p :: lost)) -> wown w F (fadd (mkF [] [p] [] []) (rest gs lost)).
Proof.
  intros H. eapply wown_perm; [|exact H]. unfold fadd, rest, fadd. cbn [fn fpay fr fl]. repeat split; try reflexivity; cbn [fpay app].
  apply Permutation_app_head. symmetry. apply Permutation_middle.
Qed.

Lemma detached_solo w g gd l R : Forall (gok w) (g :: gd) -> owners g = [l] -> wown w (fps (g :: gd)) R -> solo w g l (fadd (fps gd) R).
Proof. intros GK EO OW. inversion GK; subst. split; auto. apply wown_assoc. exact OW. Qed.
Lemma fadd_swap a b c : fperm (fadd a (fadd b c)) (fadd b (fadd a c)).
Proof. repeat split; apply Permutation_app_swap_app. Qed.
Lemma solo_perm w g l R R' : fperm R R' -> solo w g l R -> solo w g l R'.
Proof.
  intros [A [B [C D]]] [GK EO OW]. split; auto. eapply wown_perm; [|exact OW]. repeat split; apply Permutation_app_head; assumption.
Qed.
Lemma gd_same w w' gd R : wsame w w' (fadd (fps gd) R) -> Forall (gok w) gd -> Forall (gok w') gd.
Proof.
  intros SM GK. rewrite Forall_forall in *. intros g H. eapply gok_frame; [|apply GK, H]. eapply wsame_incl; [|exact SM].
  pose proof H as K. apply fps_incl in K as [A [B [C D]]]. repeat split; intros x X; apply in_app_iff; left; auto.
Qed.
Lemma frame_r w w' a R : wsame w w' (fadd a R) -> wsame w w' R.
Proof. apply wsame_incl. repeat split; intros x X; apply in_app_iff; right; exact X. Qed.

(** the list has left the group it shared, then its own nodes were changed *)
Lemma changed w st g gs lost0 lost l w1 g1 gd w2 g2 R0 : winv w st (g :: gs) lost0 -> In l (owners g) ->
  left_over g l gd -> wsame w w1 (fadd R0 (rest gs lost)) -> Forall (gok w1) (g1 :: gd) -> hfresh (wl w1) = hfresh (wl w) ->
  solo w2 g2 l (fadd (fps gd) (rest gs lost)) -> wsame w1 w2 (fadd (fps gd) (rest gs lost)) -> hfresh (wl w2) = hfresh (wl w1) ->
  alone st l (gab g2) -> winv w2 (aset st l (Some (gal g2))) (g2 :: gd ++ gs) lost.
Proof.
  intros INV IL LO SM1 GK1 F1 S2 SM2 F2 AL. inversion GK1 as [|? ? _ GKd]; subst. eapply winv_set; eauto.
  - exact (s_own S2).
  - apply wown_assoc. exact (s_wown S2).
  - eapply wsame_trans; [exact (frame_r SM1)|exact (frame_r SM2)].
  - constructor; [exact (s_gok S2)|]. eapply gd_same; eauto.
  - congruence.
Qed.
Lemma gal_change g (l : list item) c : gal (change g l c) = mkA (map va l) c (gcp g) (gab g).
Proof. reflexivity. Qed.

Definition des (gs : list (grp V)) : Prop := Forall (fun g => gde g = true) gs.
Lemma des_left g l gd gs : left_over g l gd -> des (g :: gs) -> forall g2, gde g2 = gde g -> des (g2 :: gd ++ gs).
Proof.
  intros LO D g2 E. inversion D as [|? ? D1 D2]; subst. constructor; [congruence|]. apply Forall_app. split; [|exact D2].
  destruct LO as [[-> _]|[g1 [-> [_ [_ [E1 _]]]]]]; [constructor|]. constructor; [congruence|constructor].
Qed.
(** what one call must establish *)
Definition steps w gs (lost : list nat) (o : lop V) (r : lret V) st' (d : Prop) : Prop :=
  exists w' gs' (lost' : list nat), lcall w o = Ok (w', r) /\ winv w' st' gs' lost' /\ (d -> des gs -> lost = [] -> des gs' /\ lost' = []).

Lemma steps_append w st g gs lost h v s : winv w st (g :: gs) lost -> In h (owners g) -> alone st h s ->
  steps w (g :: gs) lost (Append h v) (RUnit V) (aset st h (Some (mkA (map va (gch g) ++ [v]) (gcur g) (gcp g) s))) True.
Proof.
  intros INV IL AL. unfold steps, lcall. destruct (with_value w v) as [w0 p] eqn:EW. destruct (winv_value INV EW) as [INV0 [EP F0]].
  pose proof (wown_pay (winv_own INV0)) as OW. pose proof (i_ok INV0) as OK. inversion OK as [|? ? GK OKs]; subst.
  destruct (@detach_spec _ w0 g h _ s GK IL OW) as [w1 [g1 [gd [E1 [OW1 [SM1 [GK1 [EO1 [EV1 [EC1 [ECP [EDE [EAB [LO [F1 _]]]]]]]]]]]]]]].
  assert (EP1 : hmem (wp w1) p = Some v). { rewrite <- EP. apply SM1. left. reflexivity. }
  assert (S1 : solo w1 g1 h (fadd (mkF [] [p] [] []) (fadd (fps gd) (rest gs lost)))).
  { eapply solo_perm; [apply fadd_swap|]. apply detached_solo; assumption. }
  destruct (append_solo S1 EP1) as [w2 [E2 [S2 [SM2 F2]]]]. rewrite (E2 w0 E1). cbn [bind].
  eexists _, _, _. split; [reflexivity|]. split.
  - pose proof (changed INV0 IL LO SM1 GK1 F1 S2 SM2 F2) as X. rewrite gal_change in X. cbn [change gab] in X. rewrite EAB in X.
    rewrite map_app, EV1, EC1, ECP in X. exact (X AL).
  - intros _ D ->. split; [|reflexivity]. eapply des_left; eauto.
Qed.
Lemma steps_prepend w st g gs lost h v s : winv w st (g :: gs) lost -> In h (owners g) -> alone st h s ->
  steps w (g :: gs) lost (Prepend h v) (RUnit V) (aset st h (Some (mkA (v :: map va (gch g)) (option_map (option_map S) (gcur g)) (gcp g) s))) True.
Proof.
  intros INV IL AL. unfold steps, lcall. destruct (with_value w v) as [w0 p] eqn:EW. destruct (winv_value INV EW) as [INV0 [EP F0]].
  pose proof (wown_pay (winv_own INV0)) as OW. pose proof (i_ok INV0) as OK. inversion OK as [|? ? GK OKs]; subst.
  destruct (@detach_spec _ w0 g h _ s GK IL OW) as [w1 [g1 [gd [E1 [OW1 [SM1 [GK1 [EO1 [EV1 [EC1 [ECP [EDE [EAB [LO [F1 _]]]]]]]]]]]]]]].
  assert (EP1 : hmem (wp w1) p = Some v). { rewrite <- EP. apply SM1. left. reflexivity. }
  assert (S1 : solo w1 g1 h (fadd (mkF [] [p] [] []) (fadd (fps gd) (rest gs lost)))).
  { eapply solo_perm; [apply fadd_swap|]. apply detached_solo; assumption. }
  destruct (prepend_solo S1 EP1) as [w2 [E2 [S2 [SM2 F2]]]]. rewrite (E2 w0 E1). cbn [bind].
  eexists _, _, _. split; [reflexivity|]. split.
  - pose proof (changed INV0 IL LO SM1 GK1 F1 S2 SM2 F2) as X. rewrite gal_change in X. cbn [change gab map va snd] in X. rewrite EAB in X.
    fold (@va V) in X. rewrite EV1, EC1, ECP in X. exact (X AL).
  - intros _ D ->. split; [|reflexivity]. eapply des_left; eauto.
Qed.

(** * Searching *)
Lemma find_none w p v skip ch : forall f prev start, length ch < f -> chain (wn w) prev start ch None -> pays w ch -> hmem (wp w) p = Some v ->
  (forall x, In x ch -> cmpf (va x) v <> 0%Z) -> find_node cmpf f skip w true start p = Ok None.
Proof.
  induction ch as [|x ch IH]; intros f prev start Lf C P EP NM; (destruct f as [|f]; [cbn in Lf; lia|]); cbn [find_node].
  - cbn in C. subst start. reflexivity.
  - destruct C as [-> [q [E C]]]. inversion P as [|? ? Px P']; subst. rewrite (dload_ok _ _ E). cbn [bind dval rdcell dnext]. rewrite Bool.andb_false_r.
    unfold matches, call_compare, hload. rewrite Px, EP. cbn [bind]. replace (cmpf (va x) v =? 0)%Z with false by (symmetry; apply Z.eqb_neq, NM; left; reflexivity).
    eapply IH; eauto. { cbn [length] in Lf. lia. } intros y Y. apply NM. right. exact Y.
Qed.
Lemma find_some w p v skip l2 x l1 : forall f prev start, length (l1 ++ x :: l2) < f -> chain (wn w) prev start (l1 ++ x :: l2) None -> pays w (l1 ++ x :: l2) -> hmem (wp w) p = Some v ->
  (forall y, In y l1 -> cmpf (va y) v <> 0%Z) -> cmpf (va x) v = 0%Z -> find_node cmpf f skip w true start p = Ok (Some (na x)).
Proof.
  induction l1 as [|y l1 IH]; intros f prev start Lf C P EP NM M; (destruct f as [|f]; [cbn in Lf; lia|]); cbn [find_node app] in *.
  - destruct C as [-> [q [E C]]]. inversion P as [|? ? Px P']; subst. rewrite (dload_ok _ _ E). cbn [bind dval rdcell dnext]. rewrite Bool.andb_false_r.
    unfold matches, call_compare, hload. rewrite Px, EP. cbn [bind]. rewrite M. reflexivity.
  - destruct C as [-> [q [E C]]]. inversion P as [|? ? Px P']; subst. rewrite (dload_ok _ _ E). cbn [bind dval rdcell dnext]. rewrite Bool.andb_false_r.
    unfold matches, call_compare, hload. rewrite Px, EP. cbn [bind]. replace (cmpf (va y) v =? 0)%Z with false by (symmetry; apply Z.eqb_neq, NM; left; reflexivity).
    eapply IH; eauto. { cbn [length] in Lf. lia. } intros z Z. apply NM. right. exact Z.
Qed.
Lemma match_split (ch : list item) v j : first_match cmpf (map va ch) v j ->
  exists l1 x l2, ch = l1 ++ x :: l2 /\ length l1 = j /\ cmpf (va x) v = 0%Z /\ forall y, In y l1 -> cmpf (va y) v <> 0%Z.
Proof.
  intros [[u [E M]] NM]. rewrite nth_error_map in E. destruct (nth_error ch j) as [x|] eqn:EX; [|discriminate]. injection E as <-.
  apply nth_error_split in EX as [l1 [l2 [-> <-]]]. exists l1, x, l2. split; [reflexivity|]. split; [reflexivity|]. split; [exact M|].
  intros y Y. apply In_nth_error in Y as [i Ei]. apply (NM i (va y)).
  - apply nth_error_Some. congruence.
  - rewrite nth_error_map, nth_error_app1 by (apply nth_error_Some; congruence). rewrite Ei. reflexivity.
Qed.
Lemma chain_fuel w F R (ch : list item) : wown w F R -> incl (map na ch) (fn F ++ fn R) -> NoDup (map na ch) -> length ch < S (dfresh (wn w)).
Proof. intros [On _] H N. pose proof (own_length On N H) as X. rewrite map_length in X. lia. Qed.
Lemma gok_fuel w g R : wown w (gfp g) R -> length (gch g) < S (dfresh (wn w)).
Proof.
  intros OW. eapply chain_fuel; [exact OW| |].
  - intros a H. apply in_app_iff. left. exact H.
  - destruct OW as [[N _] _]. exact (nodup_app_l N).
Qed.

(** where the iterator goes when a node is taken out *)
Lemma cursor_spec (l1 : list item) x l2 c i : iter_ok (l1 ++ x :: l2) c i -> NoDup (map na (l1 ++ x :: l2)) ->
  iter_ok (l1 ++ l2) (cursor_after c (length (l1 ++ x :: l2)) (length l1))
    (match i with
     | Some (Some a, valid) =>
         if a =? na x then
           match hd l2, la l1 with
           | Some b, _ => Some (Some b, valid)
           | None, Some b => Some (Some b, valid)
           | None, None => Some (Some a, false)
           end
         else i
     | _ => i
     end).
Proof.
  intros IT ND. destruct c as [[j|]|]; cbn [iter_ok cursor_after] in *.
  - destruct IT as [a [Ea ->]]. rewrite map_app in Ea. cbn [map] in Ea.
    assert (ND' : ~ In (na x) (map na l1 ++ map na l2)). { rewrite map_app in ND. cbn [map] in ND. apply NoDup_remove_2 in ND. exact ND. }
    destruct (Nat.eqb_spec j (length l1)) as [->|NJ].
    + rewrite nth_error_app2, map_length, Nat.sub_diag in Ea by (rewrite map_length; lia). cbn in Ea. injection Ea as <-. rewrite Nat.eqb_refl, app_length. cbn [length].
      destruct l2 as [|y l2].
      * replace (S (length l1) <? length l1 + 1) with false by (symmetry; apply Nat.ltb_ge; lia). change (hd []) with (@None nat). rewrite app_nil_r.
        destruct l1 as [|y l1 _] using rev_ind; [cbn; eauto|]. rewrite la_app. cbn [la cells map lasta].
        rewrite app_length. cbn [length]. replace (0 <? length l1 + 1) with true by (symmetry; apply Nat.ltb_lt; lia).
        replace (S (length l1 + 1) <? length l1 + 1 + 1) with false by (symmetry; apply Nat.ltb_ge; lia).
        change (iter_ok (l1 ++ [y]) (Some (Some (length l1 + 1 - 1))) (Some (Some (na y), true))). exists (na y). split; [|reflexivity].
        rewrite map_app. replace (length l1 + 1 - 1) with (length l1) by lia. rewrite nth_error_app2, map_length, Nat.sub_diag by (rewrite map_length; lia). reflexivity.
      * replace (S (length l1) <? length l1 + S (length (y :: l2))) with true by (symmetry; apply Nat.ltb_lt; cbn [length]; lia). cbn [iter_ok hd cells map heada]. exists (na y). split; [|reflexivity].
        rewrite map_app, nth_error_app2, map_length, Nat.sub_diag by (rewrite map_length; lia). reflexivity.
    + assert (AX : (a =? na x) = false).
      { apply Nat.eqb_neq. intros ->. apply ND'. destruct (Nat.lt_ge_cases j (length l1)) as [LT|GE].
        - rewrite nth_error_app1 in Ea by (rewrite map_length; exact LT). apply in_app_iff. left. eapply nth_error_In; eauto.
        - rewrite nth_error_app2 in Ea by (rewrite map_length; exact GE). rewrite map_length in Ea. destruct (j - length l1) as [|k] eqn:K; [lia|]. apply in_app_iff. right. eapply nth_error_In; eauto. }
      rewrite AX. destruct (Nat.ltb_spec (length l1) j) as [GT|LE]; cbn [iter_ok]; exists a; (split; [|reflexivity]); rewrite map_app.
      * rewrite nth_error_app2 in Ea by (rewrite map_length; lia). rewrite map_length in Ea. destruct (j - length l1) as [|k] eqn:K; [lia|]. cbn in Ea.
        rewrite nth_error_app2 by (rewrite map_length; lia). rewrite map_length. replace (j - 1 - length l1) with k by lia. exact Ea.
      * rewrite nth_error_app1 in Ea by (rewrite map_length; lia). rewrite nth_error_app1 by (rewrite map_length; lia). exact Ea.
  - destruct IT as [y ->]. destruct y as [y|]; [|eauto]. destruct (y =? na x); [|eauto]. destruct (hd l2); [eauto|]. destruct (la l1); eauto.
  - subst i. reflexivity.
Qed.
Lemma without_map (l1 : list item) x l2 : without_nth (map va (l1 ++ x :: l2)) (length l1) = map va (l1 ++ l2).
Proof.
  unfold without_nth. rewrite !map_app. cbn [map]. replace (length l1) with (length (map va l1)) by apply map_length.
  rewrite firstn_app_le by lia. rewrite firstn_all. f_equal. rewrite skipn_app_ge by lia. replace (S _ - _) with 1 by lia. reflexivity.
Qed.

Lemma steps_remove w st g gs lost h v j s : winv w st (g :: gs) lost -> In h (owners g) -> first_match cmpf (map va (gch g)) v j -> alone st h s ->
  steps w (g :: gs) lost (Remove h v) (RInt V 0)
   (aset st h (Some (mkA (without_nth (map va (gch g)) j) (cursor_after (gcur g) (length (map va (gch g))) j) (gcp g) s))) True.
Proof.
  intros INV IL FM AL. unfold steps, lcall. destruct (with_value w v) as [w0 p] eqn:EW. destruct (winv_value INV EW) as [INV0 [EP F0]].
  pose proof (winv_own INV0) as OW. pose proof (i_ok INV0) as OK. inversion OK as [|? ? GK OKs]; subst.
  unfold ListRemove. destruct (g_ls GK h IL) as [L [EL [st0 [i0 [-> IT0]]]]]. unfold lget at 1, hload at 1. rewrite EL. cbn [bind has_cmp llist].
  destruct (match_split _ FM) as [m1 [y [m2 [EC [LJ [MM NM]]]]]].
  pose proof (gok_fuel OW) as FU. pose proof (g_ch GK) as CH. pose proof (g_pa GK) as PA. rewrite EC in CH, PA, FU.
  rewrite EC. rewrite (@find_some w0 p v true m2 y m1 _ _ _ FU CH PA EP NM MM). cbn [bind].
  destruct (@detach_spec _ w0 g h _ s GK IL OW) as [w1 [g1 [gd [E1 [OW1 [SM1 [GK1 [EO1 [EV1 [EC1 [ECP [EDE [EAB [LO [F1 _]]]]]]]]]]]]]]].
  rewrite E1. cbn [bind]. rewrite <- EV1 in FM. destruct (match_split _ FM) as [l1 [x [l2 [EC' [LJ' [MM' NM']]]]]].
  assert (S1 : solo w1 g1 h (fadd (fps gd) (rest gs (p :: lost)))) by (apply detached_solo; assumption).
  pose proof S1 as [GKh _ OWh]. pose proof (gok_fuel OWh) as FU1. pose proof (g_ch GKh) as CH1. pose proof (g_pa GKh) as PA1. rewrite EC' in CH1, PA1, FU1.
  destruct (g_ls GKh h (solo_in S1)) as [L [EL1 [st1 [i1 [-> IT1]]]]]. unfold lget at 1, hload at 1. rewrite EL1. cbn [bind has_cmp llist liter].
  assert (EP1 : hmem (wp w1) p = Some v). { rewrite <- EP. apply SM1. cbn [rest fadd fpay]. apply in_app_iff. right. left. reflexivity. }
  rewrite EC'. rewrite (@find_some w1 p v false l2 x l1 _ _ _ FU1 CH1 PA1 EP1 NM' MM'). cbn [bind].
  pose proof (chain_at CH1) as EX.
  assert (ND1 : NoDup (map na (l1 ++ x :: l2))). { destruct OWh as [[N _] _]. apply nodup_app_l in N. cbn [gfp fn] in N. rewrite EC' in N. exact N. }
  rewrite EC' in IT1. pose proof (@cursor_spec l1 x l2 _ _ IT1 ND1) as CS.
  match type of CS with iter_ok _ _ ?i => set (i2 := i) in * end.
  assert (X : exists wi, move_iter w1 h (mkL (Z.of_nat (length (l1 ++ x :: l2))) st1 (hd (l1 ++ x :: l2)) (hd (l1 ++ x :: l2)) (la (l1 ++ x :: l2)) true (gcp g1) (gde g1) (gid g1) i1) (na x) = Ok wi /\
     wn wi = wn w1 /\ wp wi = wp w1 /\ wr wi = wr w1 /\
     hmem (wl wi) h = Some (mkL (Z.of_nat (length (gch g1))) st1 (hd (gch g1)) (hd (gch g1)) (la (gch g1)) true (gcp g1) (gde g1) (gid g1) i2) /\
     (forall a, a <> h -> hmem (wl wi) a = hmem (wl w1) a) /\ hfresh (wl wi) = hfresh (wl w1)).
  { assert (Y : forall i, exists wi, lput w1 h (set_iter (mkL (Z.of_nat (length (l1 ++ x :: l2))) st1 (hd (l1 ++ x :: l2)) (hd (l1 ++ x :: l2)) (la (l1 ++ x :: l2)) true (gcp g1) (gde g1) (gid g1) i1) i) = Ok wi /\
     wn wi = wn w1 /\ wp wi = wp w1 /\ wr wi = wr w1 /\
     hmem (wl wi) h = Some (mkL (Z.of_nat (length (gch g1))) st1 (hd (gch g1)) (hd (gch g1)) (la (gch g1)) true (gcp g1) (gde g1) (gid g1) i) /\
     (forall a, a <> h -> hmem (wl wi) a = hmem (wl w1) a) /\ hfresh (wl wi) = hfresh (wl w1)).
    { intros i. unfold lput. rewrite (hstore_ok _ EL1). cbn [bind]. eexists. split; [reflexivity|]. cbn [with_l wn wp wr wl hput hmem hfresh]. rewrite Nat.eqb_refl, EC'.
      repeat split; auto. intros a N. apply Nat.eqb_neq in N. rewrite N. reflexivity. }
    assert (Z : i2 = i1 -> exists wi, Ok w1 = Ok wi /\ wn wi = wn w1 /\ wp wi = wp w1 /\ wr wi = wr w1 /\
     hmem (wl wi) h = Some (mkL (Z.of_nat (length (gch g1))) st1 (hd (gch g1)) (hd (gch g1)) (la (gch g1)) true (gcp g1) (gde g1) (gid g1) i2) /\
     (forall a, a <> h -> hmem (wl wi) a = hmem (wl w1) a) /\ hfresh (wl wi) = hfresh (wl w1)).
    { intros ->. exists w1. rewrite EL1, EC'. repeat split; auto. }
    unfold move_iter. cbn [liter]. destruct i1 as [[[c|] valid]|]; try (apply Z; reflexivity). unfold i2.
    destruct (Nat.eqb_spec c (na x)) as [->|N]; [|apply Z; reflexivity].
    rewrite (dload_ok _ _ EX). cbn [bind dnext dprev]. destruct (hd l2) as [b|]; [apply Y|]. destruct (la l1) as [b|]; apply Y. }
  destruct X as [wi [EI [Wn [Wp [Wr [HL [HO HF]]]]]]]. rewrite EI. cbn [bind].
  destruct (@remove_core _ w1 g1 h _ l1 x l2 st1 i2 wi S1 EC' Wn Wp Wr HL HO HF) as [w2 [L' [E2 [EL' [EI' [F2 K]]]]]].
  destruct (K (wl w2) (cursor_after (gcur g1) (length (l1 ++ x :: l2)) (length l1)) i2) as [S2 SM2]; auto.
  { rewrite EL'. f_equal. rewrite <- EI'. destruct L'; reflexivity. }
  replace (with_l w2 (wl w2)) with w2 in S2, SM2 by (destruct w2; reflexivity).
  destruct (unlink_node wi h (na x)) as [wu| | |] eqn:EU; try discriminate E2. cbn [bind] in E2 |- *. rewrite E2. cbn [bind].
  assert (FR : wsame w0 w1 (fadd f0 (rest gs (p :: lost)))) by (destruct (rest gs (p :: lost)); exact SM1).
  pose proof (changed INV0 IL LO FR GK1 F1 S2 SM2 F2) as X. rewrite gal_change in X. cbn [change gab] in X. rewrite EAB in X. specialize (X AL).
  destruct (winv_drop X) as [w3 [E3 INV3]]. rewrite E3. cbn [bind]. eexists _, _, _. split; [reflexivity|]. split.
  - rewrite <- EC, <- EV1. rewrite EC', <- LJ', without_map, map_length, <- EC1, <- ECP. exact INV3.
  - intros _ D ->. split; [|reflexivity]. eapply des_left; eauto.
Qed.
Lemma steps_remove_no w st g gs lost h v : winv w st (g :: gs) lost -> In h (owners g) -> no_match cmpf (map va (gch g)) v ->
  steps w (g :: gs) lost (Remove h v) (RInt V (-1)) st True.
Proof.
  intros INV IL NM. unfold steps, lcall. destruct (with_value w v) as [w0 p] eqn:EW. destruct (winv_value INV EW) as [INV0 [EP F0]].
  pose proof (winv_own INV0) as OW. pose proof (i_ok INV0) as OK. inversion OK as [|? ? GK OKs]; subst.
  unfold ListRemove. destruct (g_ls GK h IL) as [L [EL [st0 [i0 [-> IT0]]]]]. unfold lget at 1, hload at 1. rewrite EL. cbn [bind has_cmp llist].
  rewrite (@find_none w0 p v true _ _ _ _ (gok_fuel OW) (g_ch GK) (g_pa GK) EP); [|intros x X; apply NM, in_map, X]. cbn [bind].
  destruct (winv_drop INV0) as [w3 [E3 INV3]]. rewrite E3. cbn [bind]. eexists _, _, _. split; [reflexivity|]. split; [exact INV3|]. auto.
Qed.

(** * New lists and copies *)
Lemma steps_new w st gs lost copy destroy s : winv w st gs lost -> (forall k B, amap st k = Some B -> astore B <> s) ->
  steps w gs lost (New V true copy destroy) (RHandle V (Some (anext st))) (aadd st (mkA [] None copy s)) (destroy = true).
Proof.
  intros INV FS. pose proof INV as [OK [On [Op [Or Ol]]] ST AB FR]. unfold steps, lcall, ListNew. cbn [halloc].
  destruct (attach_rep _ neqb_spec (hfresh (wl w)) (new_rep nat)) as [rc [a [Erc RR]]]. rewrite Erc. cbn [bind app] in *.
  rewrite (@hstore_ok _ _ (hfresh (wr w)) rc RefCountNew) by (cbn; rewrite Nat.eqb_refl; reflexivity). cbn [bind]. rewrite FR.
  set (r := hfresh (wr w)). set (l := hfresh (wl w)). cbn [fn fpay fr fl] in On, Op, Or, Ol. rewrite app_nil_r in On, Or, Ol.
  pose proof (own_fresh Or) as rNI. pose proof (own_fresh Ol) as lNI. fold r in rNI. fold l in lNI.
  set (g := mkG r [(a, l)] (@nil item) copy destroy None s).
  eexists _, (g :: gs), lost. split; [reflexivity|]. match goal with |- winv ?x _ _ _ /\ _ => set (w' := x) end.
  assert (SM : wsame w w' (rest gs lost)).
  { split; [apply same_refl|]. split; [apply same_refl|]. unfold w'. cbn [with_l with_r wr wl hput hmem hfresh rest fadd fr fl]. rewrite !app_nil_r. split; intros x X.
    - destruct (Nat.eqb_spec x r) as [->|N]; [contradiction|reflexivity].
    - fold l. destruct (Nat.eqb_spec x l) as [->|N]; [contradiction|reflexivity]. }
  assert (NL : forall x, In x gs -> ~ In l (owners x)).
  { intros x X Y. apply lNI. assert (Z : In l (fl (rest gs lost))) by (apply rest_owner; exists x; auto). cbn [rest fadd fl] in Z. rewrite app_nil_r in Z. exact Z. }
  split; [split|].
  - constructor; [|exact (rest_ok SM OK)]. split; cbn [g gid grl gch gcp gde gcur gab owners map snd].
    + exists rc. split; [|exact RR]. unfold w'. cbn. rewrite Nat.eqb_refl. reflexivity.
    + discriminate.
    + cbn. lia.
    + intros h [<-|[]]. unfold w'. cbn. fold l. rewrite Nat.eqb_refl. eexists. split; [reflexivity|]. exists 0%N, None. split; reflexivity.
    + reflexivity.
    + constructor.
  - cbn [fps fold_right]. fold (fps gs). split; [|split; [|split]]; cbn [gfp g gch gid owners grl map fadd fn fpay fr fl app]; rewrite ?app_nil_r; auto.
    + unfold w'. cbn [with_l with_r wr hput hmem hfresh]. refine (own_put _ _ (own_alloc RefCountNew Or)). left. reflexivity.
    + unfold w'. cbn [with_l with_r wl hput hmem hfresh snd]. exact (own_alloc _ Ol).
  - intros h A. cbn [aadd amap]. rewrite FR. fold l. destruct (Nat.eqb_spec h l) as [->|N].
    + split.
      * intros [= <-]. exists g. split; [left; reflexivity|]. split; [left; reflexivity|reflexivity].
      * intros [x [[<-|X] [Y ->]]]; [reflexivity|]. exfalso. exact (NL x X Y).
    + rewrite ST. split.
      * intros [x [X Y]]. exists x. split; [right; exact X|exact Y].
      * intros [x [[<-|X] Y]]; [destruct Y as [[Y|[]] _]; cbn in Y; congruence|]. exists x. auto.
  - cbn [map]. constructor; [|exact AB]. intros X. apply in_map_iff in X as [x [X1 X2]].
    rewrite Forall_forall in OK. pose proof (g_ne (OK x X2)) as NE. destruct (owners x) as [|k ks] eqn:EK; [congruence|].
    apply (FS k (gal x)); [|exact X1]. apply ST. exists x. split; [exact X2|]. split; [rewrite EK; left; reflexivity|reflexivity].
  - cbn [aadd anext]. rewrite FR. reflexivity.
  - intros Hd D ->. split; [|reflexivity]. constructor; [exact Hd|exact D].
Qed.

Lemma steps_copy w st g gs lost h : winv w st (g :: gs) lost -> In h (owners g) -> gcp g = true -> gcur g = None ->
  steps w (g :: gs) lost (Copy V h) (RHandle V (Some (anext st))) (aadd st (gal g)) True.
Proof.
  intros INV IL CP CU. pose proof (winv_own INV) as OW. pose proof INV as [OK _ ST AB FR]. inversion OK as [|? ? GK OKs]; subst.
  unfold steps, lcall, ListCopy. destruct (g_ls GK h IL) as [L [EL [st0 [i0 [EQ IT0]]]]]. unfold lget, hload. rewrite EL. cbn [bind]. rewrite EQ. cbn [has_copy lref]. rewrite CP. cbn [negb halloc].
  rewrite CU in IT0. cbn in IT0. subst i0.
  destruct (g_rc GK) as [rc [Erc RR]]. rewrite Erc. cbn [bind]. destruct (attach_rep _ neqb_spec (hfresh (wl w)) RR) as [rc' [a [Erc' RR']]]. rewrite Erc'. cbn [bind].
  rewrite (hstore_ok _ Erc). cbn [bind]. rewrite FR. set (l := hfresh (wl w)) in *.
  set (g' := mkG (gid g) (grl g ++ [(a, l)]) (gch g) (gcp g) (gde g) None (gab g)).
  assert (EG : gal g' = gal g) by (unfold gal; cbn [g' gch gcur gcp gab]; rewrite CU; reflexivity).
  assert (EO : owners g' = owners g ++ [l]) by (unfold owners; cbn [g' grl]; rewrite map_app; reflexivity).
  destruct OW as [On [Op [Or Ol]]]. cbn [gfp fn fpay fr fl] in On, Op, Or, Ol. pose proof (own_fresh Ol) as lNI. fold l in lNI.
  assert (NL : forall x, In x gs -> ~ In l (owners x)).
  { intros x X Y. apply lNI, in_app_iff. right. apply rest_owner. exists x. auto. }
  eexists _, (g' :: gs), lost. split; [reflexivity|]. match goal with |- winv ?x _ _ _ /\ _ => set (w' := x) end.
  assert (SM : wsame w w' (rest gs lost)).
  { split; [apply same_refl|]. split; [apply same_refl|]. split; intros x X; unfold w'; cbn [with_l with_r wr wl hput hmem hfresh].
    - destruct (Nat.eqb_spec x (gid g)) as [->|N]; [|reflexivity]. exfalso. apply (nodup_app_dis (gid g) (proj1 Or)); [left; reflexivity|exact X].
    - fold l. destruct (Nat.eqb_spec x l) as [->|N]; [|reflexivity]. exfalso. apply lNI, in_app_iff. auto. }
  split; [split|].
  - constructor; [|exact (rest_ok SM OKs)]. destruct GK as [RC NE SH LS CH PA]. split; cbn [g' gid grl gch gcp gde gcur gab].
    + exists rc'. split; [|exact RR']. unfold w'. cbn. rewrite Nat.eqb_refl. reflexivity.
    + rewrite EO. destruct (owners g); discriminate.
    + auto.
    + rewrite EO. intros k K. unfold w'. cbn [with_l with_r wl hmem]. fold l. apply in_app_iff in K as [K|[<-|[]]].
      * destruct (Nat.eqb_spec k l) as [->|N]; [exfalso; apply lNI, in_app_iff; auto|]. destruct (LS k K) as [L1 [EL1 [s1 [i1 [-> IT1]]]]]. rewrite CU in IT1. cbn in IT1. subst i1.
        eexists. split; [exact EL1|]. exists s1, None. split; reflexivity.
      * rewrite Nat.eqb_refl. eexists. split; [reflexivity|]. exists st0, None. split; [|reflexivity]. cbn [set_iter g' gch gcp gde gid node_count lstate llist lfirst llast has_cmp has_copy has_destroy lref]. rewrite ?CP. reflexivity.
    + exact CH.
    + exact PA.
  - cbn [fps fold_right]. fold (fps gs). apply wown_assoc. change (fadd (fps gs) _) with (rest gs lost).
    split; [exact On|]. split; [exact Op|]. cbn [gfp g' gid fr fl]. split.
    + unfold w'. cbn [with_l with_r wr hput hmem hfresh]. refine (own_put _ _ Or). left. reflexivity.
    + fold g'. rewrite EO. unfold w'. cbn [with_l with_r wl hput hmem hfresh snd]. eapply own_perm; [|exact (own_alloc _ Ol)]. rewrite <- app_assoc. apply Permutation_middle.
  - intros k A. cbn [aadd amap]. rewrite FR. fold l. destruct (Nat.eqb_spec k l) as [->|N].
    + split.
      * intros [= <-]. exists g'. split; [left; reflexivity|]. split; [rewrite EO; apply in_app_iff; right; left; reflexivity|symmetry; exact EG].
      * intros [x [[<-|X] [Y ->]]]; [rewrite EG; reflexivity|]. exfalso. exact (NL x X Y).
    + rewrite ST. split.
      * intros [x [[<-|X] [Y ->]]]; [exists g'; split; [left; reflexivity|]; split; [rewrite EO; apply in_app_iff; auto|symmetry; exact EG]|exists x; split; [right; exact X|auto]].
      * intros [x [[<-|X] [Y ->]]]; [exists g; split; [left; reflexivity|]; split; [|exact EG]; rewrite EO in Y; apply in_app_iff in Y as [Y|[Y|[]]]; [exact Y|congruence]|exists x; split; [right; exact X|auto]].
  - exact AB.
  - cbn [aadd anext]. rewrite FR. reflexivity.
  - intros _ D ->. split; [|reflexivity]. inversion D; subst. constructor; assumption.
Qed.

(** * Destroying a list *)
Lemma destroy_loop_spec de : forall ch w f prev start r l R, length ch < f -> wown w (mkF (map na ch) (map pa ch) r l) R ->
  chain (wn w) prev start ch None -> pays w ch ->
  exists w', destroy_loop f de w start = Ok w' /\ wown w' (mkF [] (if de : bool then [] else map pa ch) r l) R /\ wsame w w' R /\ wr w' = wr w /\ wl w' = wl w.
Proof.
  induction ch as [|[a [p v]] ch IH]; intros w f prev start r l R Lf OW C P; (destruct f as [|f]; [cbn in Lf; lia|]); cbn [destroy_loop].
  - cbn in C. subst start. exists w. split; [reflexivity|]. split; [destruct de; exact OW|]. split; [apply wsame_refl|auto].
  - destruct C as [-> [q [E C]]]. inversion P as [|? ? Px P']; subst. cbn [na pa va fst snd map] in *. rewrite (dload_ok _ _ E). cbn [bind dval rdcell].
    destruct OW as [On [Op [Or Ol]]]. cbn [fn fpay fr fl app] in On, Op, Or, Ol.
    assert (aNI : ~ In a (map na ch ++ fn R)) by (destruct On as [N _]; inversion N; assumption).
    assert (pNI : ~ In p (map pa ch ++ fpay R)) by (destruct Op as [N _]; inversion N; assumption).
    assert (Cf : forall hp : heap V, chain (wn (mkW (dput (wn w) a None) hp (wr w) (wl w))) (Some a) q ch None).
    { intros hp. eapply chain_frame; [|exact C]. intros x X. cbn [wn]. apply dput_other. intros ->. apply aNI, in_app_iff. auto. }
    destruct de.
    + unfold free_payload, hfree, hload. rewrite Px. cbn [bind with_p wn]. rewrite (dload_ok _ _ E). cbn [bind]. unfold dfree. rewrite (dload_ok _ _ E). cbn [bind with_n with_p wn wp wr wl dnext].
      set (w1 := mkW (dput (wn w) a None) (hput (wp w) p None) (wr w) (wl w)).
      destruct (IH w1 f (Some a) q r l R) as [w2 [E2 [OW2 [SM2 [Er El]]]]].
      * cbn [length] in Lf. lia.
      * split; [exact (own_free On)|]. split; [exact (own_free Op)|]. split; [exact Or|exact Ol].
      * apply Cf.
      * eapply pays_frame; [|exact P']. unfold w1. cbn [wp hput hmem]. apply same_put. intros X. apply pNI, in_app_iff. auto.
      * exists w2. split; [exact E2|]. split; [exact OW2|]. split; [|auto]. eapply wsame_trans; [|exact SM2]. unfold w1.
        split; [apply same_put; intros X; apply aNI, in_app_iff; auto|]. split; [apply same_put; intros X; apply pNI, in_app_iff; auto|]. split; apply same_refl.
    + cbn [bind]. rewrite (dload_ok _ _ E). cbn [bind]. unfold dfree. rewrite (dload_ok _ _ E). cbn [bind with_n with_p wn wp wr wl dnext].
      set (w1 := mkW (dput (wn w) a None) (wp w) (wr w) (wl w)).
      assert (SM1 : wsame w w1 (fadd (mkF [] [p] [] []) R)).
      { split; [apply same_put; intros X; apply aNI, in_app_iff; auto|]. split; [apply same_refl|]. split; apply same_refl. }
      destruct (IH w1 f (Some a) q r l (fadd (mkF [] [p] [] []) R)) as [w2 [E2 [OW2 [SM2 [Er El]]]]].
      * cbn [length] in Lf. lia.
      * split; [exact (own_free On)|]. split; [|split; [exact Or|exact Ol]]. cbn [w1 wp fpay fadd app]. eapply own_perm; [|exact Op]. apply Permutation_middle.
      * apply Cf.
      * exact P'.
      * exists w2. split; [exact E2|]. split; [|split; [|auto]].
        -- eapply wown_perm; [|exact OW2]. unfold fperm, fadd. cbn [fn fpay fr fl app]. split; [reflexivity|]. split; [|split; reflexivity]. symmetry. apply Permutation_middle.
        -- eapply wsame_trans; [exact (frame_r SM1)|exact (frame_r SM2)].
Qed.
Lemma winv_del w st g gs lost0 lost l w' gd : winv w st (g :: gs) lost0 -> In l (owners g) -> left_over g l gd ->
  wown w' (fps gd) (rest gs lost) -> wsame w w' (rest gs lost0) -> Forall (gok w') gd ->
  hfresh (wl w') = hfresh (wl w) -> winv w' (aset st l None) (gd ++ gs) lost.
Proof.
  intros INV IL LO OW SM GK FR. pose proof (winv_own INV) as OW0. destruct INV as [OK _ ST AB FR0].
  inversion OK as [|? ? OKg OKs]; subst. pose proof (wown_owners OW0) as NDO.
  assert (NDg : NoDup (owners g)) by exact (nodup_app_l NDO).
  assert (Ng : forall x, In x gs -> ~ In l (owners x)).
  { intros x X Y. apply (@nodup_app_dis _ _ _ l NDO IL). apply (rest_owner gs lost0). exists x. auto. }
  assert (Nd : forall x, In x gd -> ~ In l (owners x)).
  { intros x X Y. destruct LO as [[-> _]|[g1 [-> [P _]]]]; [destruct X|]. destruct X as [<-|[]].
    eapply Permutation_NoDup in P; [|exact NDg]. inversion P; contradiction. }
  split.
  - apply Forall_app. split; [exact GK|]. eapply rest_ok; [exact SM|exact OKs].
  - rewrite fps_app. apply wown_assoc. exact OW.
  - intros h A. cbn [aset amap]. destruct (Nat.eqb_spec h l) as [->|N].
    + split; [discriminate|]. intros [x [X [Y ->]]]. exfalso. apply in_app_iff in X as [X|X]; [exact (Nd x X Y)|exact (Ng x X Y)].
    + rewrite ST. split.
      * intros [x [X [Y ->]]]. destruct X as [<-|X].
        -- destruct LO as [[_ E]|[g1 [-> [P [G1 _]]]]]; [rewrite E in Y; destruct Y as [Y|[]]; congruence|].
           apply (Permutation_in h P) in Y. destruct Y as [Y|Y]; [congruence|]. exists g1. split; [left; reflexivity|]. auto.
        -- exists x. split; [apply in_app_iff; auto|auto].
      * intros [x [X [Y ->]]]. apply in_app_iff in X as [X|X].
        -- exists g. split; [left; reflexivity|]. destruct LO as [[-> _]|[g1 [-> [P [G1 _]]]]]; [destruct X|]. destruct X as [<-|[]].
           split; [|exact G1]. apply (Permutation_in h (Permutation_sym P)). right. exact Y.
        -- exists x. split; [right; exact X|auto].
  - cbn [map] in AB. inversion AB as [|? ? A1 A2]; subst. destruct LO as [[-> _]|[g1 [-> [P [G1 _]]]]]; [exact A2|]. cbn [app map].
    replace (gab g1) with (gab g) by exact (eq_sym (f_equal (@astore V) G1)). constructor; assumption.
  - cbn [aset anext]. rewrite FR. exact FR0.
Qed.
Lemma steps_destroy w st g gs lost h : winv w st (g :: gs) lost -> In h (owners g) -> gcur g = None ->
  steps w (g :: gs) lost (Destroy V h) (RUnit V) (aset st h None) True.
Proof.
  intros INV IL CU. pose proof (winv_own INV) as OW. pose proof INV as [OK _ ST AB FR]. inversion OK as [|? ? GK OKs]; subst.
  unfold steps, lcall, ListDestroy. destruct (g_ls GK h IL) as [L [EL [st0 [i0 [-> IT0]]]]]. unfold lget, hload. rewrite EL. cbn [bind lref lfirst has_destroy].
  destruct (g_rc GK) as [rc [Erc RR]]. rewrite Erc. cbn [bind]. rewrite (rrep_shared RR).
  destruct OW as [On [Op [Or Ol]]]. cbn [gfp fn fpay fr fl] in On, Op, Or, Ol.
  destruct (Nat.ltb_spec 1 (length (grl g))) as [SHD|NSH].
  - destruct (detach_rep _ neqb_spec h RR) as [_ [DR _]]. destruct (DR SHD IL) as [rc1 [Erc1 RR1]]. rewrite Erc1. cbn [bind]. rewrite (hstore_ok _ Erc). cbn [bind with_r wl].
    unfold hfree, hload. rewrite EL. cbn [bind]. set (rl1 := remove_first Nat.eqb h (grl g)) in *.
    set (g1 := mkG (gid g) rl1 (gch g) (gcp g) (gde g) (gcur g) (gab g)).
    pose proof (remove_first_perm h (grl g) IL) as PRM. fold rl1 in PRM. change (map snd (grl g)) with (owners g) in PRM. change (map snd rl1) with (owners g1) in PRM.
    assert (NDo : NoDup (h :: owners g1)). { eapply Permutation_NoDup; [exact PRM|]. exact (nodup_app_l (proj1 Ol)). }
    assert (NEo : owners g1 <> []).
    { intros X. rewrite X in PRM. apply Permutation_length in PRM. unfold owners in PRM. rewrite map_length in PRM. cbn in PRM. lia. }
    assert (LO : left_over g h [g1]). { right. exists g1. auto 10. }
    eexists _, ([g1] ++ gs), lost. split; [reflexivity|]. split.
    + eapply winv_del; [exact INV|exact IL|exact LO| | | |reflexivity].
      * cbn [fps fold_right]. unfold fadd, f0, wown. cbn [fn fpay fr fl gfp g1 gch gid owners grl app with_l with_r wn wp wr wl hput hmem hfresh]. rewrite !app_nil_r.
        split; [exact On|]. split; [exact Op|]. split; [refine (own_put _ _ Or); left; reflexivity|].
        apply own_free. eapply own_perm; [|exact Ol]. rewrite app_comm_cons. apply Permutation_app_tail. exact PRM.
      * split; [apply same_refl|]. split; [apply same_refl|]. cbn [with_l with_r wr wl hput hmem]. split; apply same_put.
        -- intros X. apply (nodup_app_dis (gid g) (proj1 Or)); [left; reflexivity|exact X].
        -- intros X. exact (nodup_app_dis h (proj1 Ol) IL X).
      * constructor; [|constructor]. destruct GK as [RC NE SH LS CH PA]. split; cbn [g1 gid grl gch gcp gde gcur gab with_l with_r wn wp wr wl hput hmem]; auto.
        -- exists rc1. rewrite Nat.eqb_refl. auto.
        -- intros X. apply SH. change (1 < length (owners g1)) in X. apply Permutation_length in PRM. cbn [length] in PRM. lia.
        -- intros k K. destruct (Nat.eqb_spec k h) as [->|N]; [inversion NDo; contradiction|]. apply LS. apply (Permutation_in k (Permutation_sym PRM)). right. exact K.
    + intros _ D ->. split; [|reflexivity]. inversion D; subst. constructor; assumption.
  - assert (EO : owners g = [h]).
    { unfold owners in *. destruct (grl g) as [|x [|y rl]]; cbn in *; [contradiction| |lia]. destruct IL as [->|[]]. reflexivity. }
    assert (OW : wown w (mkF (map na (gch g)) (map pa (gch g)) [gid g] [h]) (rest gs lost)).
    { rewrite EO in Ol. exact (conj On (conj Op (conj Or Ol))). }
    destruct (@destroy_loop_spec (gde g) (gch g) w (S (dfresh (wn w))) None (hd (gch g)) [gid g] [h] (rest gs lost)) as [w1 [E1 [OW1 [SM1 [Er El]]]]].
    { exact (gok_fuel (winv_own INV)). } { exact OW. } { exact (g_ch GK). } { exact (g_pa GK). }
    rewrite E1. cbn [bind]. assert (ED : exists x, RefCountDestroy rc = Ok x).
    { destruct RR as [UC [SG [LA EX]]]. unfold RefCountDestroy. rewrite UC. apply Nat.leb_le in NSH. rewrite NSH. cbn [massert].
      destruct (users rc) as [a|] eqn:EU; [|eauto]. destruct (grl g) as [|[b x] rl]; [cbn in SG; discriminate SG|]. destruct SG as [[= ->] [q [EB _]]].
      unfold dfree. rewrite (dload_ok _ _ EB). cbn. eauto. }
    destruct ED as [rx ED]. rewrite ED. cbn [bind]. unfold hfree, hload. rewrite Er, Erc. cbn [bind with_r wl]. rewrite El, EL. cbn [bind].
    destruct OW1 as [On1 [Op1 [Or1 Ol1]]]. cbn [fn fpay fr fl app] in On1, Op1, Or1, Ol1. rewrite Er in Or1. rewrite El in Ol1. destruct SM1 as [Sn [Sp [Sr Sl]]].
    eexists _, ([] ++ gs), ((if gde g then [] else map pa (gch g)) ++ lost). split; [reflexivity|]. split.
    + eapply (@winv_del _ _ _ _ _ _ h _ []); [exact INV|exact IL|left; auto| | |constructor|].
      * split; [|split; [|split]]; cbn [fps fold_right f0 fn fpay fr fl app with_l with_r wn wp wr wl hput hmem hfresh].
        -- exact On1.
        -- eapply own_perm; [|exact Op1]. unfold rest. cbn [fadd fpay]. apply Permutation_app_swap_app.
        -- exact (own_free Or1).
        -- exact (own_free Ol1).
      * split; [exact Sn|]. split; [exact Sp|]. cbn [with_l with_r wr wl hput hmem]. split; apply same_put.
        -- intros X. destruct Or1 as [N _]. inversion N; contradiction.
        -- intros X. destruct Ol1 as [N _]. inversion N; contradiction.
      * cbn. reflexivity.
    + intros _ D ->. inversion D as [|? ? D1 D2]; subst. rewrite D1. split; [exact D2|reflexivity].
Qed.

(** * Reading *)
Lemma steps_count w st g gs lost h : winv w st (g :: gs) lost -> In h (owners g) ->
  steps w (g :: gs) lost (Count V h) (RInt V (Z.of_nat (length (map va (gch g))))) st True.
Proof.
  intros INV IL. pose proof (i_ok INV) as OK. inversion OK as [|? ? GK OKs]; subst. destruct (g_ls GK h IL) as [L [EL [st0 [i0 [-> IT0]]]]].
  unfold steps, lcall, ListCount, lget, hload. rewrite EL. cbn [bind node_count]. rewrite map_length. eexists _, _, _. split; [reflexivity|]. split; [exact INV|auto].
Qed.
Lemma walk_spec w h L l2 : hmem (wl w) h = Some L -> forall l1 x f start, chain (wn w) None start (l1 ++ x :: l2) None -> pays w (l1 ++ x :: l2) -> length l2 < f ->
  walk f w (mkI (Some (na x)) h (lstate L)) = Ok (map va (x :: l2)).
Proof.
  intros EL. induction l2 as [|y l2 IH]; intros l1 x f start C P Lf; (destruct f as [|f]; [cbn in Lf; lia|]); cbn [walk]; pose proof (chain_at C) as EX;
    unfold ListIteratorData, ListIteratorHasNext, stale, lget; cbn [iorigin istate icur]; unfold hload at 1; rewrite EL; cbn [bind]; rewrite N.eqb_refl; cbn [negb deref bind];
    rewrite (dload_ok _ _ EX); cbn [bind dval rdcell deref]; (assert (PX : hmem (wp w) (pa x) = Some (va x)) by (apply Forall_app in P as [_ P]; inversion P; assumption));
    unfold hload at 1; rewrite PX; cbn [bind]; unfold hload at 1; rewrite EL; cbn [bind]; rewrite N.eqb_refl; cbn [negb bind dnext].
  - reflexivity.
  - change (hd (y :: l2)) with (Some (na y)) in *. cbn iota. unfold ListIteratorNext, stale, lget. cbn [iorigin istate icur]. unfold hload at 1. rewrite EL. cbn [bind]. rewrite N.eqb_refl. cbn [negb].
    rewrite (dload_ok _ _ EX). cbn [bind dnext]. assert (EQ : l1 ++ x :: y :: l2 = (l1 ++ [x]) ++ y :: l2) by (rewrite <- app_assoc; reflexivity).
    rewrite EQ in C, P. rewrite (IH (l1 ++ [x]) y f start C P); [reflexivity|]. cbn [length] in Lf. lia.
Qed.
Lemma steps_values w st g gs lost h : winv w st (g :: gs) lost -> In h (owners g) ->
  steps w (g :: gs) lost (Values V h) (RVals (map va (gch g))) st True.
Proof.
  intros INV IL. pose proof (i_ok INV) as OK. inversion OK as [|? ? GK OKs]; subst. destruct (g_ls GK h IL) as [L [EL [st0 [i0 [-> IT0]]]]].
  unfold steps, lcall, ListIteratorGet, lget. unfold hload at 1. rewrite EL. cbn [bind lfirst llist lstate]. exists w, (g :: gs), lost. split; [|split; [exact INV|auto]].
  pose proof (gok_fuel (winv_own INV)) as FU. pose proof (g_ch GK) as C. pose proof (g_pa GK) as P.
  destruct (gch g) as [|x ch] eqn:EC; [reflexivity|]. change (hd (x :: ch)) with (Some (na x)) in *. cbn iota.
  pose proof (@walk_spec w h _ ch EL [] x (S (dfresh (wn w))) _ C P) as W. cbn [lstate] in W. rewrite W; [reflexivity|]. cbn [length] in FU. lia.
Qed.

(** * The mutable iterator *)
Lemma cur_solo w st g gs lost h : winv w st (g :: gs) lost -> In h (owners g) -> gcur g <> None -> solo w g h (rest gs lost).
Proof.
  intros INV IL CU. pose proof (i_ok INV) as OK. inversion OK as [|? ? GK OKs]; subst. split; [exact GK| |exact (winv_own INV)].
  destruct (owners g) as [|a [|b l]] eqn:EO; [destruct IL|destruct IL as [->|[]]; reflexivity|]. exfalso. apply CU. apply (g_sh GK). rewrite EO. cbn. lia.
Qed.
Lemma alone_owner w st g gs lost h : winv w st (g :: gs) lost -> In h (owners g) -> alone st h (gab g) -> owners g = [h].
Proof.
  intros INV IL AL. pose proof (wown_owners (winv_own INV)) as ND. apply nodup_app_l in ND. cbn [gfp fl] in ND.
  assert (X : forall k, In k (owners g) -> k = h).
  { intros k K. destruct (Nat.eq_dec k h) as [E|N]; [exact E|]. exfalso. apply (AL k (gal g) N); [|reflexivity]. apply (i_st INV). exists g. split; [left; reflexivity|]. auto. }
  destruct (owners g) as [|a [|b l]]; [destruct IL|destruct IL as [->|[]]; reflexivity|]. exfalso.
  inversion ND as [|? ? NA _]; subst. apply NA. left. rewrite (X a), (X b); [reflexivity|right; left; reflexivity|left; reflexivity].
Qed.
Lemma solo_alone w st g gs lost h : winv w st (g :: gs) lost -> owners g = [h] -> alone st h (gab g).
Proof.
  intros INV EO k B N E X. apply (i_st INV) in E as [x [[<-|H] [K ->]]]; [rewrite EO in K; destruct K as [K|[]]; congruence|].
  pose proof (i_ab INV) as AB. cbn [map] in AB. inversion AB as [|? ? A1 A2]; subst. apply A1. cbn in X. rewrite <- X. apply in_map, H.
Qed.
(** only this list has changed, and it shares nothing *)
Lemma alone_changed w st g gs lost0 lost h w' g' : winv w st (g :: gs) lost0 -> owners g = [h] -> solo w' g' h (rest gs lost) -> wsame w w' (rest gs lost) ->
  hfresh (wl w') = hfresh (wl w) -> gab g' = gab g -> winv w' (aset st h (Some (gal g'))) (g' :: gs) lost.
Proof.
  intros INV EO S1 SM F EA. eapply (@winv_set _ w st g gs lost0 lost h w' g' []); eauto.
  - rewrite EO. left. reflexivity.
  - exact (s_own S1).
  - left. auto.
  - rewrite EA. exact (solo_alone INV EO).
  - cbn [fps fold_right]. unfold fadd, f0. cbn [fn fpay fr fl]. rewrite !app_nil_r. exact (s_wown S1).
  - constructor; [exact (s_gok S1)|constructor].
Qed.
Lemma des_same g g' gs : gde g' = gde g -> des (g :: gs) -> des (g' :: gs).
Proof. intros E D. inversion D; subst. constructor; [congruence|assumption]. Qed.
Lemma cur_split (ch : list item) i a : nth_error (map na ch) i = Some a -> exists l1 x l2, ch = l1 ++ x :: l2 /\ length l1 = i /\ a = na x.
Proof.
  rewrite nth_error_map. destruct (nth_error ch i) as [x|] eqn:E; [|discriminate]. intros [= <-]. apply nth_error_split in E as [l1 [l2 [-> <-]]]. exists l1, x, l2. auto.
Qed.
(** a call that only sets the iterator *)
Lemma steps_iter w st g gs lost h L i c o r d : winv w st (g :: gs) lost -> owners g = [h] -> hmem (wl w) h = Some L -> lst_ok g L ->
  iter_ok (gch g) c i -> (forall w', lput w h (set_iter L i) = Ok w' -> lcall w o = Ok (w', r)) ->
  steps w (g :: gs) lost o r (aset st h (Some (mkA (map va (gch g)) c (gcp g) (gab g)))) d.
Proof.
  intros INV EO EL LO IT E. pose proof (i_ok INV) as OK. inversion OK as [|? ? GK OKs]; subst.
  assert (S0 : solo w g h (rest gs lost)) by (split; [exact GK|exact EO|exact (winv_own INV)]).
  destruct (@iter_step _ w g h _ L i c S0 EL IT LO) as [w' [E1 [S1 [SM F]]]]. exists w', (change g (gch g) c :: gs), lost. split; [exact (E w' E1)|]. split.
  - exact (alone_changed INV EO S1 SM F eq_refl).
  - intros _ D ->. split; [|reflexivity]. eapply des_same; [|exact D]. reflexivity.
Qed.
Lemma insert_before (l1 : list item) b x l2 : insert_nth (map va (l1 ++ x :: l2)) (length l1) (va b) = map va (l1 ++ b :: x :: l2).
Proof.
  unfold insert_nth. rewrite !map_app. cbn [map]. replace (length l1) with (length (map va l1)) by apply map_length.
  rewrite firstn_app_le by lia. rewrite firstn_all. f_equal. rewrite skipn_app_ge by lia. rewrite Nat.sub_diag. reflexivity.
Qed.
Lemma insert_after (l1 : list item) b x l2 : insert_nth (map va (l1 ++ x :: l2)) (S (length l1)) (va b) = map va ((l1 ++ [x]) ++ b :: l2).
Proof.
  replace (l1 ++ x :: l2) with ((l1 ++ [x]) ++ l2) by (rewrite <- app_assoc; reflexivity). unfold insert_nth. rewrite !(map_app _ (l1 ++ [x])). cbn [map].
  replace (S (length l1)) with (length (map va (l1 ++ [x]))) by (rewrite map_length, app_length; cbn; lia).
  rewrite firstn_app_le by lia. rewrite firstn_all. f_equal. rewrite skipn_app_ge by lia. rewrite Nat.sub_diag. reflexivity.
Qed.
Lemma steps_mremove w st g gs lost h i : winv w st (g :: gs) lost -> In h (owners g) -> gcur g = Some (Some i) -> 1 < length (map va (gch g)) ->
  steps w (g :: gs) lost (MRemove V h) (RInt V 0)
    (aset st h (Some (mkA (without_nth (map va (gch g)) i) (cursor_after (gcur g) (length (map va (gch g))) i) (gcp g) (gab g)))) True.
Proof.
  intros INV IL CU LN. assert (S0 : solo w g h (rest gs lost)) by (eapply cur_solo; eauto; congruence). pose proof S0 as [GK EO OW].
  destruct (g_ls GK h IL) as [L [EL [st0 [i0 [-> IT0]]]]]. pose proof IT0 as IT1. rewrite CU in IT0. destruct IT0 as [a [EA ->]]. destruct (cur_split _ _ EA) as [l1 [x [l2 [EC [LI ->]]]]].
  destruct (g_rc GK) as [rc [ER RR]].
  unfold steps, lcall, int_of, ListMutableIteratorRemove, miter, lget. unfold hload at 1. rewrite EL. cbn [bind liter negb].
  rewrite (@detach_solo _ w h _ rc (grl g) EL ER RR (solo_len S0)). cbn [bind deref].
  pose proof (g_ch GK) as C. rewrite EC in C. rewrite (dload_ok _ _ (chain_at C)). cbn [bind dnext dprev].
  destruct (@remove_core _ w g h _ l1 x l2 st0 (Some (Some (na x), true)) w S0 EC eq_refl eq_refl eq_refl EL) as [w2 [L' [E2 [EL' [EI' [F2 K]]]]]]; auto.
  assert (ND : NoDup (map na (l1 ++ x :: l2))). { destruct OW as [[N _] _]. apply nodup_app_l in N. cbn [gfp fn] in N. rewrite EC in N. exact N. }
  rewrite EC in IT1. pose proof (@cursor_spec l1 x l2 _ _ IT1 ND) as CS. cbv iota beta in CS. rewrite Nat.eqb_refl in CS.
  assert (GO : forall b, iter_ok (l1 ++ l2) (cursor_after (gcur g) (length (l1 ++ x :: l2)) (length l1)) (Some (Some b, true)) ->
    exists w3 gs' (lost' : list nat), (let* ' (w, r) := (let* w := unlink_node w h (na x) in let* w := drop_node w h (na x) in let* L := lget w h in
        let* w := lput w h (set_iter L (Some (Some b, true))) in Ok (w, 0%Z)) in Ok (w, RInt V r)) = Ok (w3, RInt V 0) /\
      winv w3 (aset st h (Some (mkA (without_nth (map va (gch g)) i) (cursor_after (gcur g) (length (map va (gch g))) i) (gcp g) (gab g)))) gs' lost' /\
      (True -> des (g :: gs) -> lost = [] -> des gs' /\ lost' = [])).
  { intros b IB. destruct (unlink_node w h (na x)) as [wu| | |] eqn:EU; try discriminate E2. cbn [bind] in E2 |- *. rewrite E2. cbn [bind].
    unfold lget, hload. rewrite EL'. cbn [bind]. unfold lput. rewrite (hstore_ok _ EL'). cbn [bind].
    destruct (K (hput (wl w2) h (Some (set_iter L' (Some (Some b, true))))) (cursor_after (gcur g) (length (l1 ++ x :: l2)) (length l1)) (Some (Some b, true))) as [S2 SM2]; auto.
    { cbn. rewrite Nat.eqb_refl. reflexivity. }
    { intros k N. cbn. apply Nat.eqb_neq in N. rewrite N. reflexivity. }
    eexists _, _, lost. split; [reflexivity|]. split.
    - pose proof (alone_changed INV EO S2 SM2) as X. rewrite gal_change in X. cbn [change gab] in X. rewrite EC, <- LI, without_map, map_length. apply X; [exact F2|reflexivity].
    - intros _ D ->. split; [|reflexivity]. eapply des_same; [|exact D]. reflexivity. }
  destruct (hd l2) as [b|] eqn:EH; [exact (GO b CS)|]. destruct (la l1) as [b|] eqn:ELA; [exact (GO b CS)|]. exfalso.
  destruct l2 as [|y l2]; [|discriminate EH]. destruct l1 as [|y l1 _] using rev_ind; [|rewrite la_app in ELA; discriminate ELA]. rewrite EC in LN. cbn in LN. lia.
Qed.
Lemma steps_minsert w st g gs lost h i v o j c : winv w st (g :: gs) lost -> In h (owners g) -> gcur g = Some (Some i) ->
  (o = MAppend h v /\ j = S i /\ c = i) \/ (o = MPrepend h v /\ j = i /\ c = S i) ->
  steps w (g :: gs) lost o (RInt V 0) (aset st h (Some (mkA (insert_nth (map va (gch g)) j v) (Some (Some c)) (gcp g) (gab g)))) True.
Proof.
  intros INV IL CU OC. assert (S0 : solo w g h (rest gs lost)) by (eapply cur_solo; eauto; congruence). pose proof S0 as [GK EO OW].
  destruct (g_ls GK h IL) as [L [EL [st0 [i0 [-> IT0]]]]]. rewrite CU in IT0. destruct IT0 as [a [EA ->]]. destruct (cur_split _ _ EA) as [l1 [x [l2 [EC [LI ->]]]]].
  destruct (with_value w v) as [w0 p] eqn:EW. destruct (winv_value INV EW) as [INV0 [EP F0]].
  assert (S1 : solo w0 g h (fadd (mkF [] [p] [] []) (rest gs lost))).
  { split; [|exact EO|exact (wown_pay (winv_own INV0))]. pose proof (i_ok INV0) as OK. inversion OK; assumption. }
  rewrite <- LI in CU. unfold steps. destruct OC as [[-> [-> ->]]|[-> [-> ->]]]; cbn [lcall]; rewrite EW.
  - destruct (@mappend_solo _ w0 g h _ p v l1 x l2 S1 EP EC CU) as [w2 [E2 [S2 [SM2 F2]]]]. rewrite E2. cbn [bind unless_taken Z.eqb]. eexists _, _, lost. split; [reflexivity|]. split.
    + pose proof (alone_changed INV0 EO S2 SM2 F2 eq_refl) as X. rewrite gal_change, <- insert_after in X. cbn [va snd] in X. rewrite EC, <- LI. exact X.
    + intros _ D ->. split; [|reflexivity]. eapply des_same; [|exact D]. reflexivity.
  - destruct (@mprepend_solo _ w0 g h _ p v l1 x l2 S1 EP EC CU) as [w2 [E2 [S2 [SM2 F2]]]]. rewrite E2. cbn [bind unless_taken Z.eqb]. eexists _, _, lost. split; [reflexivity|]. split.
    + pose proof (alone_changed INV0 EO S2 SM2 F2 eq_refl) as X. rewrite gal_change, <- insert_before in X. cbn [va snd] in X. rewrite EC, <- LI. exact X.
    + intros _ D ->. split; [|reflexivity]. eapply des_same; [|exact D]. reflexivity.
Qed.
(** calls that leave everything as it was *)
Lemma steps_none w st gs lost o r d : winv w st gs lost -> lcall w o = Ok (w, r) -> steps w gs lost o r st d.
Proof. intros INV E. exists w, gs, lost. split; [exact E|]. split; [exact INV|auto]. Qed.
Lemma steps_copy_no w st g gs lost h : winv w st (g :: gs) lost -> In h (owners g) -> gcp g = false ->
  steps w (g :: gs) lost (Copy V h) (RHandle V None) st True.
Proof.
  intros INV IL CP. pose proof (i_ok INV) as OK. inversion OK as [|? ? GK OKs]; subst. destruct (g_ls GK h IL) as [L [EL [st0 [i0 [-> IT0]]]]].
  apply steps_none; [exact INV|]. unfold lcall, ListCopy, lget, hload. rewrite EL. cbn [bind has_copy]. rewrite CP. reflexivity.
Qed.
Lemma steps_mget w st g gs lost h : winv w st (g :: gs) lost -> In h (owners g) -> gcur g = None -> map va (gch g) <> [] -> alone st h (gab g) ->
  steps w (g :: gs) lost (MGet V h) (RBool V true) (aset st h (Some (mkA (map va (gch g)) (Some (Some 0)) (gcp g) (gab g)))) True.
Proof.
  intros INV IL CU NE AL. pose proof (i_ok INV) as OK. inversion OK as [|? ? GK OKs]; subst. destruct (g_ls GK h IL) as [L [EL LK]].
  pose proof LK as [st0 [i0 [-> IT0]]]. rewrite CU in IT0. cbn in IT0. subst i0. pose proof (alone_owner INV IL AL) as EO.
  destruct (gch g) as [|x ch] eqn:EC; [contradiction NE; reflexivity|]. rewrite <- EC in *.
  eapply (@steps_iter w st g gs lost h _ (Some (Some (na x), true))); [exact INV|exact EO|exact EL|exact LK| |].
  - rewrite EC. cbn. exists (na x). auto.
  - intros w' E. unfold lcall, ListMutableIteratorGet, lget, hload. rewrite EL. cbn [bind liter lfirst]. rewrite EC at 1. change (hd (x :: ch)) with (Some (na x)). cbn iota.
    rewrite E. reflexivity.
Qed.
Lemma steps_mget_no w st g gs lost h : winv w st (g :: gs) lost -> In h (owners g) -> gcur g <> None \/ map va (gch g) = [] ->
  steps w (g :: gs) lost (MGet V h) (RBool V false) st True.
Proof.
  intros INV IL C. pose proof (i_ok INV) as OK. inversion OK as [|? ? GK OKs]; subst. destruct (g_ls GK h IL) as [L [EL [st0 [i0 [-> IT0]]]]].
  apply steps_none; [exact INV|]. unfold lcall, ListMutableIteratorGet, lget, hload. rewrite EL. cbn [bind liter lfirst].
  destruct i0 as [i0|]; [reflexivity|]. destruct C as [C|C].
  - exfalso. destruct (gcur g) as [[j|]|]; cbn in IT0; [destruct IT0 as [a [_ X]]; discriminate X|destruct IT0 as [a X]; discriminate X|congruence].
  - apply map_eq_nil in C. rewrite C. reflexivity.
Qed.
Lemma steps_mrelease w st g gs lost h : winv w st (g :: gs) lost -> In h (owners g) -> gcur g <> None ->
  steps w (g :: gs) lost (MRelease V h) (RUnit V) (aset st h (Some (mkA (map va (gch g)) None (gcp g) (gab g)))) True.
Proof.
  intros INV IL CU. pose proof (@cur_solo w st g gs lost h INV IL CU) as [GK EO OW]. destruct (g_ls GK h IL) as [L [EL LK]].
  eapply (@steps_iter w st g gs lost h L None); [exact INV|exact EO|exact EL|exact LK|reflexivity|].
  intros w' E. unfold lcall, ListMutableIteratorRelease, lget, hload. rewrite EL. cbn [bind]. rewrite E. reflexivity.
Qed.
Lemma la_last (l : list item) : la l = nth_error (map na l) (length (map va l) - 1).
Proof.
  destruct l as [|x l _] using rev_ind; [reflexivity|]. rewrite la_app, !map_app, app_length, map_length. cbn [map length].
  rewrite nth_error_app2 by (rewrite map_length; lia). rewrite map_length. replace (length l + 1 - 1 - length l) with 0 by lia. reflexivity.
Qed.
Lemma aset_back w st g gs lost h c : winv w st (g :: gs) lost -> In h (owners g) -> gcur g = c -> winv w (aset st h (Some (mkA (map va (gch g)) c (gcp g) (gab g)))) (g :: gs) lost.
Proof.
  intros INV IL <-. destruct INV as [OK OW ST AB FR]. split; auto. intros k A. cbn [aset amap]. destruct (Nat.eqb_spec k h) as [->|N]; [|apply ST].
  split.
  - intros [= <-]. exists g. split; [left; reflexivity|]. auto.
  - intros X. apply ST in X. rewrite <- X. symmetry. apply ST. exists g. split; [left; reflexivity|]. auto.
Qed.
Lemma steps_back w st g gs lost h c o r : winv w st (g :: gs) lost -> In h (owners g) -> gcur g = c -> lcall w o = Ok (w, r) ->
  steps w (g :: gs) lost o r (aset st h (Some (mkA (map va (gch g)) c (gcp g) (gab g)))) True.
Proof. intros INV IL C E. exists w, (g :: gs), lost. split; [exact E|]. split; [apply aset_back; assumption|auto]. Qed.
Lemma steps_mmove w st g gs lost h o i j r : winv w st (g :: gs) lost -> In h (owners g) -> gcur g = Some (Some i) ->
  (o = MFirst V h /\ j = 0 /\ r = 0%Z) \/
  (o = MLast V h /\ j = length (map va (gch g)) - 1 /\ r = 0%Z) \/
  (o = MNext V h /\ j = S i /\ S i < length (map va (gch g)) /\ r = 0%Z) \/
  (o = MNext V h /\ j = i /\ S i = length (map va (gch g)) /\ r = (-1)%Z) \/
  (o = MPrevious V h /\ S j = i /\ r = 0%Z) \/
  (o = MPrevious V h /\ i = 0 /\ j = 0 /\ r = (-1)%Z) ->
  steps w (g :: gs) lost o (RInt V r) (aset st h (Some (mkA (map va (gch g)) (Some (Some j)) (gcp g) (gab g)))) True.
Proof.
  intros INV IL CU OC. assert (S0 : solo w g h (rest gs lost)) by (eapply cur_solo; eauto; congruence). pose proof S0 as [GK EO OW].
  destruct (g_ls GK h IL) as [L [EL LK]]. pose proof LK as [st0 [i0 [-> IT0]]]. rewrite CU in IT0. destruct IT0 as [a [EA ->]]. destruct (cur_split _ _ EA) as [l1 [x [l2 [EC [LI ->]]]]].
  pose proof (g_ch GK) as C. rewrite EC in C. pose proof (chain_at C) as EX.
  destruct OC as [[-> [-> ->]]|[[-> [-> ->]]|[[-> [-> [LT ->]]]|[[-> [-> [EQ ->]]]|[[-> [LT ->]]|[-> [Ei [-> ->]]]]]]]].
  - eapply (@steps_iter w st g gs lost h _ (Some (hd (gch g), true))); [exact INV|exact EO|exact EL|exact LK| |].
    + rewrite EC. cbn [iter_ok]. destruct l1 as [|y l1]; cbn; eauto.
    + intros w' E. unfold lcall, int_of, ListMutableIteratorFirst, miter, lget, hload. rewrite EL. cbn [bind liter negb lfirst]. rewrite E. reflexivity.
  - eapply (@steps_iter w st g gs lost h _ (Some (la (gch g), true))); [exact INV|exact EO|exact EL|exact LK| |].
    + cbn [iter_ok]. rewrite la_last. destruct (nth_error (map na (gch g)) (length (map va (gch g)) - 1)) as [b|] eqn:E; [eauto|]. exfalso.
      apply nth_error_None in E. rewrite !map_length, EC, app_length in E. cbn in E. lia.
    + intros w' E. unfold lcall, int_of, ListMutableIteratorLast, miter, lget, hload. rewrite EL. cbn [bind liter negb llast]. rewrite E. reflexivity.
  - rewrite map_length, EC, app_length in LT. destruct l2 as [|y l2]; [cbn in LT; lia|].
    eapply (@steps_iter w st g gs lost h _ (Some (Some (na y), true))); [exact INV|exact EO|exact EL|exact LK| |].
    + cbn [iter_ok]. exists (na y). split; [|reflexivity]. rewrite EC, map_app, nth_error_app2, map_length by (rewrite map_length; lia). replace (S i - length l1) with 1 by lia. reflexivity.
    + intros w' E. unfold lcall, int_of, ListMutableIteratorNext, miter, lget, hload. rewrite EL. cbn [bind liter negb deref]. rewrite (dload_ok _ _ EX). cbn [bind dnext].
      change (hd (y :: l2)) with (Some (na y)). cbn iota. rewrite E. reflexivity.
  - apply steps_back; auto. rewrite map_length, EC, app_length in EQ. destruct l2 as [|y l2]; [|cbn in EQ; lia].
    unfold lcall, int_of, ListMutableIteratorNext, miter, lget, hload. rewrite EL. cbn [bind liter negb deref]. rewrite (dload_ok _ _ EX). reflexivity.
  - destruct l1 as [|y l1 _] using rev_ind; [cbn in LI; lia|]. rewrite app_length in LI. cbn in LI.
    eapply (@steps_iter w st g gs lost h _ (Some (Some (na y), true))); [exact INV|exact EO|exact EL|exact LK| |].
    + cbn [iter_ok]. exists (na y). split; [|reflexivity]. rewrite EC, !map_app, <- app_assoc, nth_error_app2, map_length by (rewrite map_length; lia). replace (j - length l1) with 0 by lia. reflexivity.
    + intros w' E. unfold lcall, int_of, ListMutableIteratorPrevious, miter, lget, hload. rewrite EL. cbn [bind liter negb deref]. rewrite (dload_ok _ _ EX). cbn [bind dprev].
      rewrite la_app. change (la [y]) with (Some (na y)). cbn iota. rewrite E. reflexivity.
  - subst i. apply steps_back; auto. destruct l1 as [|y l1]; [|cbn in LI; lia].
    unfold lcall, int_of, ListMutableIteratorPrevious, miter, lget, hload. rewrite EL. cbn [bind liter negb deref]. rewrite (dload_ok _ _ EX). reflexivity.
Qed.
Lemma steps_mread w st g gs lost h o i r : winv w st (g :: gs) lost -> In h (owners g) -> gcur g = Some (Some i) ->
  (o = MData V h /\ r = RVal (nth_error (map va (gch g)) i)) \/
  (o = MHasNext V h /\ r = RBool V (S i <? length (map va (gch g)))) \/
  (o = MHasPrevious V h /\ r = RBool V (0 <? i)) \/
  (o = MRemove V h /\ length (map va (gch g)) = 1 /\ r = RInt V (-1)) ->
  steps w (g :: gs) lost o r st True.
Proof.
  intros INV IL CU OC. assert (S0 : solo w g h (rest gs lost)) by (eapply cur_solo; eauto; congruence). pose proof S0 as [GK EO OW].
  destruct (g_ls GK h IL) as [L [EL [st0 [i0 [-> IT0]]]]]. rewrite CU in IT0. destruct IT0 as [a [EA ->]]. destruct (cur_split _ _ EA) as [l1 [x [l2 [EC [LI ->]]]]].
  pose proof (g_ch GK) as C. rewrite EC in C. pose proof (chain_at C) as EX. pose proof (g_pa GK) as P. rewrite EC in P. apply Forall_app in P as [_ P]. inversion P as [|? ? Px _]; subst.
  apply steps_none; [exact INV|]. destruct OC as [[-> ->]|[[-> ->]|[[-> ->]|[-> [L1 ->]]]]].
  - unfold lcall, ListMutableIteratorData, miter, lget. unfold hload at 1. rewrite EL. cbn [bind liter negb deref]. rewrite (dload_ok _ _ EX). cbn [bind dval rdcell]. unfold hload. rewrite Px. cbn [bind].
    rewrite EC, map_app, nth_error_app2, map_length by (rewrite map_length; lia). rewrite Nat.sub_diag. reflexivity.
  - unfold lcall, ListMutableIteratorHasNext, miter, lget. unfold hload at 1. rewrite EL. cbn [bind liter negb deref]. rewrite (dload_ok _ _ EX). cbn [bind dnext].
    rewrite map_length, EC, app_length. destruct l2 as [|y l2]; cbn [length].
    + replace (S (length l1) <? length l1 + 1) with false by (symmetry; apply Nat.ltb_ge; lia). reflexivity.
    + replace (S (length l1) <? length l1 + S (S (length l2))) with true by (symmetry; apply Nat.ltb_lt; lia). reflexivity.
  - unfold lcall, ListMutableIteratorHasPrevious, miter, lget. unfold hload at 1. rewrite EL. cbn [bind liter negb deref]. rewrite (dload_ok _ _ EX). cbn [bind dprev].
    destruct l1 as [|y l1 _] using rev_ind; [reflexivity|]. rewrite la_app, app_length. cbn [length]. replace (0 <? length l1 + 1) with true by (symmetry; apply Nat.ltb_lt; lia). reflexivity.
  - rewrite map_length, EC, app_length in L1. destruct l1; [|cbn in L1; lia]. destruct l2; [|cbn in L1; lia].
    destruct (g_rc GK) as [rc [ER RR]]. unfold lcall, int_of, ListMutableIteratorRemove, miter, lget. unfold hload at 1. rewrite EL. cbn [bind liter negb].
    rewrite (@detach_solo _ w h _ rc (grl g) EL ER RR (solo_len S0)). cbn [bind deref]. rewrite (dload_ok _ _ EX). reflexivity.
Qed.
Lemma steps_minvalid w st g gs lost h o r : winv w st (g :: gs) lost -> In h (owners g) -> gcur g = Some None ->
  (exists v, In o [MFirst V h; MLast V h; MNext V h; MPrevious V h; MRemove V h; MAppend h v; MPrepend h v] /\ r = RInt V (-1)) \/
  (o = MData V h /\ r = RVal None) -> steps w (g :: gs) lost o r st True.
Proof.
  intros INV IL CU OC. pose proof (i_ok INV) as OK. inversion OK as [|? ? GK OKs]; subst. destruct (g_ls GK h IL) as [L [EL [st0 [i0 [EQ IT0]]]]].
  rewrite CU in IT0. destruct IT0 as [x ->].
  assert (MI : miter w h = Ok (L, x, false)). { unfold miter, lget, hload. rewrite EL, EQ. reflexivity. }
  assert (MV : forall v w0 p, with_value w v = (w0, p) -> miter w0 h = Ok (L, x, false)). { intros v w0 p [= <- <-]. exact MI. }
  assert (INS : forall v o', (forall w0 p, with_value w v = (w0, p) -> lcall w o' = unless_taken (w0, (-1)%Z) p) -> steps w (g :: gs) lost o' (RInt V (-1)) st True).
  { intros v o' E. destruct (with_value w v) as [w0 p] eqn:EW. destruct (winv_value INV EW) as [INV0 [EP F0]]. destruct (winv_drop INV0) as [w3 [E3 INV3]].
    exists w3, (g :: gs), lost. rewrite (E w0 p eq_refl). cbn [unless_taken Z.eqb]. rewrite E3. cbn [bind]. auto. }
  destruct OC as [[v [OC ->]]|[-> ->]].
  - cbn [In] in OC. destruct OC as [<-|[<-|[<-|[<-|[<-|[<-|[<-|[]]]]]]]].
    1-5: apply steps_none; [exact INV|].
    + unfold lcall, int_of, ListMutableIteratorFirst. rewrite MI. reflexivity.
    + unfold lcall, int_of, ListMutableIteratorLast. rewrite MI. reflexivity.
    + unfold lcall, int_of, ListMutableIteratorNext. rewrite MI. reflexivity.
    + unfold lcall, int_of, ListMutableIteratorPrevious. rewrite MI. reflexivity.
    + unfold lcall, int_of, ListMutableIteratorRemove. rewrite MI. reflexivity.
    + apply (INS v). intros w0 p EW. cbn [lcall]. rewrite EW. unfold ListMutableIteratorAppend. rewrite (MV _ _ _ EW). reflexivity.
    + apply (INS v). intros w0 p EW. cbn [lcall]. rewrite EW. unfold ListMutableIteratorPrepend. rewrite (MV _ _ _ EW). reflexivity.
  - apply steps_none; [exact INV|]. unfold lcall, ListMutableIteratorData. rewrite MI. reflexivity.
Qed.

Lemma steps_weak w gs lost o r st (d : Prop) : steps w gs lost o r st True -> steps w gs lost o r st d.
Proof. intros [w' [gs' [lost' [A [B C]]]]]. exists w', gs', lost'. auto. Qed.
(** * Any call *)
Definition destroys (o : lop V) : Prop := match o with New _ _ _ d => d = true | _ => True end.
Lemma any_step w st gs lost o r st' : winv w st gs lost -> astep cmpf st o r st' ->
  exists gs1, Permutation gs gs1 /\ steps w gs1 lost o r st' (destroys o).
Proof.
  intros INV ST. destruct ST.
  1: { exists gs. split; [reflexivity|]. apply steps_new; assumption. }
  all: match goal with H : amap _ ?h = Some ?A |- _ => destruct (@focus2 _ _ _ _ _ h A INV H) as [g [gs1 [PM [INV1 [IL EA]]]]]; subst A end; exists (g :: gs1); (split; [exact PM|]); cbn [gal avals acur acopy astore] in *.
  - apply steps_copy; assumption.
  - eapply steps_copy_no; eassumption.
  - apply steps_destroy; assumption.
  - apply steps_append; assumption.
  - apply steps_prepend; assumption.
  - apply steps_remove; assumption.
  - eapply steps_remove_no; eassumption.
  - eapply steps_count; eassumption.
  - eapply steps_values; eassumption.
  - apply steps_mget; assumption.
  - eapply steps_mget_no; eassumption.
  - apply steps_mrelease; assumption.
  - apply steps_weak. eapply steps_mmove; eassumption.
  - apply steps_weak. eapply steps_mread; [eassumption|eassumption|eassumption|]. left. auto.
  - apply steps_weak. eapply steps_mread; [eassumption|eassumption|eassumption|]. right. left. auto.
  - apply steps_weak. eapply steps_mread; [eassumption|eassumption|eassumption|]. right. right. left. auto.
  - eapply steps_mremove; eassumption.
  - apply steps_weak. eapply steps_mread; [eassumption|eassumption|eassumption|]. right. right. right. auto.
  - eapply steps_minsert; [eassumption|eassumption|eassumption|]. left. auto.
  - eapply steps_minsert; [eassumption|eassumption|eassumption|]. right. auto.
  - apply steps_weak. eapply steps_minvalid; eassumption.
Qed.
Lemma des_perm gs gs' : Permutation gs gs' -> des gs -> des gs'.
Proof. intros P. apply Permutation_Forall. exact P. Qed.
Lemma all_steps st os rs st' : asteps cmpf st os rs st' -> forall w gs lost, winv w st gs lost ->
  exists w' gs' lost', lcalls w os = Ok (w', rs) /\ winv w' st' gs' lost' /\ (Forall destroys os -> des gs -> lost = [] -> des gs' /\ lost' = []).
Proof.
  induction 1 as [st|st o r st1 os rs st2 H HS IH]; intros w gs lost INV.
  - exists w, gs, lost. split; [reflexivity|]. auto.
  - destruct (any_step INV H) as [gs1 [PM [w1 [gs2 [lost1 [E1 [INV1 D1]]]]]]]. destruct (IH w1 gs2 lost1 INV1) as [w2 [gs3 [lost2 [E2 [INV2 D2]]]]].
    exists w2, gs3, lost2. cbn [lcalls]. rewrite E1. cbn [bind]. rewrite E2. cbn [bind]. split; [reflexivity|]. split; [exact INV2|].
    intros DA DG ->. inversion DA as [|? ? DO DS]; subst. destruct (D1 DO (des_perm PM DG) eq_refl) as [DG1 ->]. auto.
Qed.
Lemma init_ok : winv (@wempty V) (ainit V) [] [].
Proof.
  split.
  - constructor.
  - split; [|split; [|split]]; (split; [constructor|split; [|intros a []]]); intros a; cbn; tauto.
  - intros h A. cbn. split; [discriminate|]. intros [g [[] _]].
  - constructor.
  - reflexivity.
Qed.

(** Every sequence of calls the specification allows runs without undefined behaviour or
    abort and returns what lists that share nothing would return. *)
Theorem C20_copies_are_independent_lists_partial os rs st : asteps cmpf (ainit V) os rs st ->
  exists w, lcalls (@wempty V) os = Ok (w, rs).
Proof. intros H. destruct (all_steps H init_ok) as [w [gs [lost [E _]]]]. eauto. Qed.
(** If every list was made with a destroy function, then once all handles are destroyed
    no node, payload, reference count or list is left allocated. *)
Theorem C20_everything_is_released os rs st : asteps cmpf (ainit V) os rs st -> Forall destroys os -> (forall h, amap st h = None) ->
  exists w, lcalls (@wempty V) os = Ok (w, rs) /\
    forall a, dmem (wn w) a = None /\ hmem (wp w) a = None /\ hmem (wr w) a = None /\ hmem (wl w) a = None.
Proof.
  intros H D NH. destruct (all_steps H init_ok) as [w [gs [lost [E [INV DD]]]]]. exists w. split; [exact E|].
  destruct (DD D (Forall_nil _) eq_refl) as [_ ->]. destruct INV as [OK OW ST AB FR].
  assert (gs = []).
  { destruct gs as [|g gs]; [reflexivity|]. exfalso. inversion OK as [|? ? GK _]; subst. pose proof (g_ne GK) as NE. destruct (owners g) as [|h l] eqn:EO; [congruence|].
    assert (X : amap st h = Some (gal g)). { apply ST. exists g. split; [left; reflexivity|]. split; [rewrite EO; left; reflexivity|reflexivity]. }
    rewrite NH in X. discriminate X. }
  subst gs. cbn in OW. destruct OW as [[_ [On _]] [[_ [Op _]] [[_ [Or _]] [_ [Ol _]]]]]. cbn in On, Op, Or, Ol. intros a.
  assert (K : forall T (m : option T), (m <> None <-> False) -> m = None). { intros T [x|] X; [exfalso; apply (proj1 X); discriminate|reflexivity]. }
  split; [apply K, On|]. split; [apply K, Op|]. split; [apply K, Or|apply K, Ol].
Qed.
End P.

(** * The hypotheses are met by histories that share, change, iterate over and destroy lists *)
Definition zcmpf (a b : Z) : Z := (a - b)%Z.
Definition history : list (lop Z) :=
  [New Z true true true; Append 0 1%Z; Append 0 2%Z; Copy Z 0; Prepend 1 5%Z; Remove 0 1%Z; Values Z 0; Values Z 1;
   MGet Z 1; MNext Z 1; MAppend 1 7%Z; MRemove Z 1; MData Z 1; Remove 1 9%Z; Remove 0 2%Z; MGet Z 0; Values Z 1; Count Z 1;
   MRelease Z 1; Destroy Z 1; Destroy Z 0].
Definition answers : list (lret Z) :=
  [RHandle Z (Some 0); RUnit Z; RUnit Z; RHandle Z (Some 1); RUnit Z; RInt Z 0; RVals [2%Z]; RVals [5%Z; 1%Z; 2%Z];
   RBool Z true; RInt Z 0; RInt Z 0; RInt Z 0; RVal (Some 7%Z); RInt Z (-1); RInt Z 0; RBool Z false; RVals [5%Z; 7%Z; 2%Z]; RInt Z 3;
   RUnit Z; RUnit Z; RUnit Z].
Ltac fm := split; [eexists; split; [reflexivity|reflexivity]|intros i x Hi; destruct i as [|[|i]]; try lia; cbn; intros [= <-]; unfold zcmpf; lia].
Ltac al := intros [|[|k]] B Hk; cbn; intros [= <-]; cbn; congruence.
Lemma as_step st o r r' st1 os rs st2 : astep zcmpf st o r' st1 -> r = r' -> asteps zcmpf st1 os rs st2 -> asteps zcmpf st (o :: os) (r :: rs) st2.
Proof. intros H -> K. econstructor; eauto. Qed.
Example C20_meets : exists st, asteps zcmpf (ainit Z) history answers st /\ Forall (destroys (V:=Z)) history /\ forall h, amap st h = None.
Proof.
  eexists. split; [|split].
  - unfold history, answers.
    eapply as_step; [apply (@s_new _ _ _ true true 0); discriminate|reflexivity|].
    eapply as_step; [eapply (@s_append _ _ _ 0 1%Z _ 0); [reflexivity|al]|reflexivity|].
    eapply as_step; [eapply (@s_append _ _ _ 0 2%Z _ 0); [reflexivity|al]|reflexivity|].
    eapply as_step; [eapply s_copy; reflexivity|reflexivity|].
    eapply as_step; [eapply (@s_prepend _ _ _ 1 5%Z _ 1); [reflexivity|al]|reflexivity|].
    eapply as_step; [eapply (@s_remove _ _ _ 0 1%Z _ 0 0); [reflexivity|fm|al]|reflexivity|].
    eapply as_step; [eapply (@s_values _ _ _ 0); reflexivity|reflexivity|].
    eapply as_step; [eapply (@s_values _ _ _ 1); reflexivity|reflexivity|].
    eapply as_step; [eapply (@s_mget _ _ _ 1); [reflexivity|reflexivity|discriminate|al]|reflexivity|].
    eapply as_step; [eapply (@s_mmove _ _ _ 1 _ _ 0 1 0%Z); [reflexivity|reflexivity|right; right; left; cbn; auto 8 with arith]|reflexivity|].
    eapply as_step; [eapply (@s_mappend _ _ _ 1 7%Z _ 1); reflexivity|reflexivity|].
    eapply as_step; [eapply (@s_mremove _ _ _ 1 _ 1); [reflexivity|reflexivity|cbn; lia]|reflexivity|].
    eapply as_step; [eapply (@s_mdata _ _ _ 1 _ 1); reflexivity|reflexivity|].
    eapply as_step; [eapply (@s_remove_no _ _ _ 1 9%Z); [reflexivity|intros x; cbn; unfold zcmpf; lia]|reflexivity|].
    eapply as_step; [eapply (@s_remove _ _ _ 0 2%Z _ 0 0); [reflexivity|fm|al]|reflexivity|].
    eapply as_step; [eapply (@s_mget_no _ _ _ 0); [reflexivity|right; reflexivity]|reflexivity|].
    eapply as_step; [eapply (@s_values _ _ _ 1); reflexivity|reflexivity|].
    eapply as_step; [eapply (@s_count _ _ _ 1); reflexivity|reflexivity|].
    eapply as_step; [eapply (@s_mrelease _ _ _ 1); [reflexivity|discriminate]|reflexivity|].
    eapply as_step; [eapply (@s_destroy _ _ _ 1); reflexivity|reflexivity|].
    eapply as_step; [eapply (@s_destroy _ _ _ 0); reflexivity|reflexivity|].
    apply as_nil.
  - repeat constructor.
  - intros [|[|h]]; reflexivity.
Qed.

(** * What the specification leaves out goes wrong *)
Definition rets (x : res (world Z * list (lret Z))) : res (list (lret Z)) := let* ' (w, rs) := x in Ok rs.
Definition two_copies : list (lop Z) := [New Z true true true; Append 0 1%Z; Append 0 2%Z; Copy Z 0].
(** A mutable iterator of a list that shares its nodes works on the nodes of the copy:
    an element inserted through it appears in the other list. *)
Theorem C20_iterator_append_reaches_the_copy_refuted :
  rets (lcalls zcmpf wempty (two_copies ++ [MGet Z 0; MAppend 0 9%Z; Values Z 0; Values Z 1])) =
  Ok [RHandle Z (Some 0); RUnit Z; RUnit Z; RHandle Z (Some 1); RBool Z true; RInt Z 0; RVals [1%Z; 2%Z]; RVals [1%Z; 9%Z; 2%Z]].
Proof. vm_compute. reflexivity. Qed.
Print Assumptions C20_iterator_append_reaches_the_copy_refuted.
(** ... and removing the first element through it frees the copy's node. *)
Theorem C20_iterator_remove_frees_the_copy_refuted :
  rets (lcalls zcmpf wempty (two_copies ++ [MGet Z 0; MRemove Z 0])) =
    Ok [RHandle Z (Some 0); RUnit Z; RUnit Z; RHandle Z (Some 1); RBool Z true; RInt Z 0] /\
  rets (lcalls zcmpf wempty (two_copies ++ [MGet Z 0; MRemove Z 0; Values Z 1])) = UB.
Proof. split; vm_compute; reflexivity. Qed.
Print Assumptions C20_iterator_remove_frees_the_copy_refuted.
(** The iterator of a list that becomes detached by an ordinary operation stays on the
    copy's nodes, too. *)
Theorem C20_detached_iterator_refuted :
  rets (lcalls zcmpf wempty (two_copies ++ [MGet Z 0; Append 0 3%Z; Destroy Z 1; MData Z 0])) = UB.
Proof. vm_compute. reflexivity. Qed.
Print Assumptions C20_detached_iterator_refuted.
(** Without a compare function, the element is looked up by address after the payloads
    have been copied, and the lookup fails. *)
Theorem C20_remove_by_address_refuted :
  (let* ' (w, l) := ListNew (@wempty Z) false true true in
   let '(w, p) := with_value w 1%Z in let* w := ListAppend w l (Some p) in
   let* ' (w, c) := ListCopy w l in
   let* ' (w, r) := ListRemove zcmpf w l p in Ok r) = Abort.
Proof. vm_compute. reflexivity. Qed.
Print Assumptions C20_remove_by_address_refuted.
(** A NULL payload is not copied: the new node's payload is indeterminate. *)
Theorem C20_null_payload_refuted :
  (let* ' (w, l) := ListNew (@wempty Z) true true true in
   let* w := ListAppend w l None in
   let* ' (w, c) := ListCopy w l in
   let '(w, p) := with_value w 1%Z in
   let* w := ListAppend w l (Some p) in
   let* i := ListIteratorGet w l in
   match i with Some i => let* d := ListIteratorData w i in Ok true | None => Ok false end) = UB.
Proof. vm_compute. reflexivity. Qed.
Print Assumptions C20_null_payload_refuted.
(** An iterator whose list was detached is not noticed to be stale. *)
Theorem C20_stale_iterator_refuted :
  (let* ' (w, l) := ListNew (@wempty Z) true true true in
   let '(w, p) := with_value w 1%Z in let* w := ListAppend w l (Some p) in
   let* ' (w, c) := ListCopy w l in
   let* i := ListIteratorGet w l in
   let '(w, p) := with_value w 2%Z in let* w := ListAppend w l (Some p) in
   match i, c with
   | Some i, Some c => let* w := ListDestroy w c in let* d := ListIteratorData w i in Ok true
   | _, _ => Ok false
   end) = UB.
Proof. vm_compute. reflexivity. Qed.
Print Assumptions C20_stale_iterator_refuted.
(** An invalidated mutable iterator cannot be asked for neighbours. *)
Theorem C20_invalid_iterator_refuted :
  rets (lcalls zcmpf wempty [New Z true true true; Append 0 1%Z; MGet Z 0; Remove 0 1%Z; MHasNext Z 0]) = UB.
Proof. vm_compute. reflexivity. Qed.
Print Assumptions C20_invalid_iterator_refuted.
Print Assumptions C20_copies_are_independent_lists_partial.
Print Assumptions C20_everything_is_released.
