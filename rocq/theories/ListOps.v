(** Lists with copies: changing the nodes of a list that does not share them. *)
From Verif Require Import Prelude PreludeFacts DllModel DllFacts RefModel PropsRef ListModel ListSpec ListProofs.
Set Implicit Arguments.
Arguments hstore_ok [T h a] x [y] _.
Arguments na {V} _. Arguments pa {V} _. Arguments va {V} _.
Arguments nodup_app_dis [T l1 l2] x _ _ _.
Arguments nodup_app_l [T l1 l2] _.
Arguments nodup_app_r [T l1 l2] _.

Definition oeq (o : option nat) (a : nat) : bool := match o with Some x => x =? a | None => false end.
Section R.
Variable A : Type.
Lemma dnode_eta (n : dnode A) : mkD (dval n) (dnext n) (dprev n) = n.
Proof. destruct n. reflexivity. Qed.
Lemma set_next_eq (h : dheap A) b n q : dmem h b = Some n -> set_next h b q = Ok (dput h b (Some (mkD (dval n) q (dprev n)))).
Proof. intros E. unfold set_next. rewrite (dload_ok _ _ E). reflexivity. Qed.
Lemma set_prev_eq (h : dheap A) b n q : dmem h b = Some n -> set_prev h b q = Ok (dput h b (Some (mkD (dval n) (dnext n) q))).
Proof. intros E. unfold set_prev. rewrite (dload_ok _ _ E). reflexivity. Qed.
(** the last node gets a new successor *)
Lemma seg_retarget (h h' : dheap A) l prev start mid stop : seg h prev start l mid -> NoDup (addrs l) ->
  (forall a n, In a (addrs l) -> dmem h a = Some n ->
     dmem h' a = Some (mkD (dval n) (if oeq (lasta None l) a then stop else dnext n) (dprev n))) ->
  seg h' prev (heada l stop) l stop.
Proof.
  destruct l as [|[b v] l _] using rev_ind; intros H N E; [reflexivity|].
  rewrite lasta_app in E. cbn [lasta oeq] in E. rewrite addrs_app in N, E. cbn [addrs map fst] in N, E. fold (addrs l) in N, E.
  apply seg_app in H as [m [H1 H2]]. cbn in H2. destruct H2 as [-> [x [Eb ->]]].
  assert (NB : ~ In b (addrs l)). { apply NoDup_remove_2 in N. rewrite app_nil_r in N. exact N. }
  pose proof (seg_head _ _ _ _ _ H1) as HS. apply seg_app. exists (Some b). split.
  - replace (heada (l ++ [(b, v)]) stop) with (heada l (Some b)) by (destruct l as [|[? ?] ?]; reflexivity). rewrite <- HS.
    eapply seg_frame; [|exact H1]. intros a Ha. destruct (dmem h a) as [n|] eqn:K; [|exfalso; exact (seg_dom H1 Ha K)].
    rewrite (E a n) by (auto using in_or_app). destruct (Nat.eqb_spec b a) as [->|_]; [contradiction|]. rewrite dnode_eta. reflexivity.
  - split; [reflexivity|]. exists stop. split; [|reflexivity]. assert (IB : In b (addrs l ++ [b])) by (apply in_or_app; right; left; reflexivity). rewrite (E b _ IB Eb).
    rewrite Nat.eqb_refl. reflexivity.
Qed.
(** the first node gets a new predecessor *)
Lemma seg_reprev (h h' : dheap A) l prev prev' start stop : seg h prev start l stop -> NoDup (addrs l) ->
  (forall a n, In a (addrs l) -> dmem h a = Some n ->
     dmem h' a = Some (mkD (dval n) (dnext n) (if oeq (heada l None) a then prev' else dprev n))) ->
  seg h' prev' (heada l stop) l stop.
Proof.
  destruct l as [|[b v] l]; intros H N E; [reflexivity|]. cbn [heada oeq addrs map fst] in E, N. fold (addrs l) in E, N. inversion N as [|? ? NB N']; subst.
  destruct H as [-> [q [Eb H]]]. split; [reflexivity|]. exists q. split.
  - assert (IB : In b (b :: addrs l)) by (left; reflexivity). rewrite (E b _ IB Eb). rewrite Nat.eqb_refl. reflexivity.
  - eapply seg_frame; [|exact H]. intros a Ha. destruct (dmem h a) as [n|] eqn:K; [|exfalso; exact (seg_dom H Ha K)].
    rewrite (E a n) by (auto using in_cons). destruct (Nat.eqb_spec b a) as [->|_]; [contradiction|]. rewrite dnode_eta. reflexivity.
Qed.
End R.

Section P.
Variable V : Type.
Notation world := (world V).
Notation item := (nat * (nat * V))%type.
Implicit Types (w : world) (g : grp V).

Lemma la_in (l : list item) a : la l = Some a -> In a (map na l).
Proof.
  destruct l as [|x l _] using rev_ind; [discriminate|]. unfold la. rewrite cells_app, lasta_app. cbn. intros [= <-].
  rewrite map_app. apply in_or_app. right. left. reflexivity.
Qed.
Lemma hd_in (l : list item) a : hd l = Some a -> In a (map na l).
Proof. destruct l as [|x l]; [discriminate|]. cbn. intros [= <-]. left. reflexivity. Qed.
Lemma oeq_la (l : list item) a : ~ In a (map na l) -> oeq (la l) a = false.
Proof. intros N. destruct (la l) as [b|] eqn:E; [|reflexivity]. cbn. apply Nat.eqb_neq. intros ->. apply N, la_in, E. Qed.
Lemma oeq_hd (l : list item) a : ~ In a (map na l) -> oeq (hd l) a = false.
Proof. intros N. destruct (hd l) as [b|] eqn:E; [|reflexivity]. cbn. apply Nat.eqb_neq. intros ->. apply N, hd_in, E. Qed.
Lemma heada_hd (l1 l2 : list item) : heada (cells l1) (hd l2) = hd (l1 ++ l2).
Proof. destruct l1; reflexivity. Qed.
Lemma la_app (l1 : list item) x l2 : la (l1 ++ x :: l2) = la (x :: l2).
Proof. unfold la. rewrite cells_app, lasta_app. reflexivity. Qed.

(** [m] in the middle is replaced by [m'], where the neighbours are told *)
Lemma chain_relink h h' (l1 m m' l2 : list item) : chain h None (hd (l1 ++ m ++ l2)) (l1 ++ m ++ l2) None -> NoDup (map na (l1 ++ l2)) ->
  (forall a n, In a (map na (l1 ++ l2)) -> dmem h a = Some n ->
     dmem h' a = Some (mkD (dval n) (if oeq (la l1) a then hd (m' ++ l2) else dnext n) (if oeq (hd l2) a then la (l1 ++ m') else dprev n))) ->
  chain h' (la l1) (hd (m' ++ l2)) m' (hd l2) ->
  chain h' None (hd (l1 ++ m' ++ l2)) (l1 ++ m' ++ l2) None.
Proof.
  intros C N E M. apply chain_app in C as [x [C1 C]]. apply chain_app in C as [y [C2 C3]]. rewrite map_app in *.
  apply chain_app. exists (hd (m' ++ l2)). split.
  - rewrite <- heada_hd. eapply seg_retarget; [exact C1|rewrite addrs_cells; exact (nodup_app_l N)|].
    rewrite addrs_cells. intros a n Ha Ea. rewrite (E a n (in_or_app _ _ _ (or_introl Ha)) Ea). rewrite oeq_hd; [reflexivity|]. exact (nodup_app_dis a N Ha).
  - apply chain_app. exists (hd l2). split; [exact M|]. change (hd l2) with (heada (cells l2) None).
    replace (lasta (lasta None (cells l1)) (cells m')) with (la (l1 ++ m')) by (unfold la; rewrite cells_app, lasta_app; reflexivity).
    eapply seg_reprev; [exact C3|rewrite addrs_cells; exact (nodup_app_r N)|].
    rewrite addrs_cells. intros a n Ha Ea. rewrite (E a n (in_or_app _ _ _ (or_intror Ha)) Ea). rewrite oeq_la; [reflexivity|].
    intros K. exact (nodup_app_dis a N K Ha).
Qed.

(** a list that shares nothing *)
Record solo w g (l : nat) (R : fp) : Prop := mkSolo { s_gok : gok w g; s_own : owners g = [l]; s_wown : wown w (gfp g) R }.
Lemma solo_in w g l R : solo w g l R -> In l (owners g).
Proof. intros S0. rewrite (s_own S0). left. reflexivity. Qed.
Definition change g (l : list item) (c : option (option nat)) : grp V := mkG (gid g) (grl g) l (gcp g) (gde g) c (gab g).
Lemma rebuild w g l R w' l' c L : solo w g l R -> wr w' = wr w -> hmem (wl w') l = Some L -> lst_ok (change g l' c) L ->
  chain (wn w') None (hd l') l' None -> pays w' l' -> gok w' (change g l' c).
Proof.
  intros [[RC NE SH LS CH PA] EO OW] ER EL LO C P. split; cbn [change gid grl gch gcp gde gcur gab]; auto.
  - rewrite ER. exact RC.
  - change (owners (change g l' c)) with (owners g). rewrite EO. cbn. lia.
  - change (owners (change g l' c)) with (owners g). rewrite EO. intros h [<-|[]]. exists L. auto.
Qed.

(** a node is added: [h'] is the memory afterwards, [L] the list structure *)
Lemma insert_step w g l R l1 l2 p v c (h' : dheap cell) L :
  solo w g l (fadd (mkF [] [p] [] []) R) -> gch g = l1 ++ l2 -> hmem (wp w) p = Some v ->
  dfresh h' = S (dfresh (wn w)) -> dmem h' (dfresh (wn w)) = Some (mkD (Some (Some p)) (hd l2) (la l1)) ->
  (forall a, a <> dfresh (wn w) -> dmem h' a =
     option_map (fun n => mkD (dval n) (if oeq (la l1) a then Some (dfresh (wn w)) else dnext n)
                                       (if oeq (hd l2) a then Some (dfresh (wn w)) else dprev n)) (dmem (wn w) a)) ->
  lst_ok (change g (l1 ++ (dfresh (wn w), (p, v)) :: l2) c) L ->
  let w' := mkW h' (wp w) (wr w) (hput (wl w) l (Some L)) in
  let g' := change g (l1 ++ (dfresh (wn w), (p, v)) :: l2) c in
  solo w' g' l R /\ wsame w w' R.
Proof.
  intros S0 EC EP F M O LO. cbv zeta. set (b := dfresh (wn w)) in *. pose proof S0 as [GK EO OW].
  destruct OW as [On [Op [Or Ol]]]. cbn [gfp fn fpay fr fl fadd app] in On, Op, Or, Ol. rewrite EC in On, Op.
  assert (bNI : ~ In b (map na (l1 ++ l2) ++ fn R)) by exact (own_fresh On).
  assert (C : chain h' None (hd (l1 ++ [(b, (p, v))] ++ l2)) (l1 ++ [(b, (p, v))] ++ l2) None).
  { eapply (@chain_relink (wn w) h' l1 [] [(b, (p, v))] l2).
    - cbn [app]. rewrite <- EC. exact (g_ch GK).
    - exact (nodup_app_l (proj1 On)).
    - intros a n Ha Ea. rewrite O, Ea; [|intros ->; apply bNI, in_app_iff; auto]. cbn [option_map]. rewrite la_app. reflexivity.
    - split; [reflexivity|]. exists (hd l2). split; [exact M|reflexivity]. }
  assert (SMn : same (dmem (wn w)) (dmem h') (fn R)).
  { intros a Ha. assert (N1 : ~ In a (map na (l1 ++ l2))) by (intros X; exact (nodup_app_dis a (proj1 On) X Ha)). rewrite map_app, in_app_iff in N1.
    rewrite O; [|intros ->; apply bNI, in_app_iff; auto]. rewrite oeq_la, oeq_hd by tauto. destruct (dmem (wn w) a); [|reflexivity]. cbn. rewrite dnode_eta. reflexivity. }
  split; [split|].
  - eapply rebuild; [exact S0|reflexivity| |exact LO|exact C|].
    + cbn [wl hput hmem]. rewrite Nat.eqb_refl. reflexivity.
    + apply Forall_app. assert (PG : pays w (l1 ++ l2)) by (rewrite <- EC; exact (g_pa GK)). apply Forall_app in PG as [P1 P2].
      split; [exact P1|]. constructor; [exact EP|exact P2].
  - exact EO.
  - split; [|split; [|split]]; cbn [gfp change gch gid owners grl fn fpay fr fl wn wp wr wl].
    + rewrite F. eapply own_perm; [|eapply own_dom; [|exact (own_alloc (mkD None None None) On)]].
      * rewrite !map_app. cbn [map na fst]. rewrite <- !app_assoc. cbn [app]. apply Permutation_middle.
      * intros a. cbv beta. fold b. destruct (Nat.eqb_spec a b) as [->|N].
        -- rewrite M. split; intros _ X; [discriminate X|]. discriminate X.
        -- rewrite O by exact N. destruct (dmem (wn w) a); cbn; [split; intros _ X; [discriminate X|]; discriminate X|tauto].
    + eapply own_perm; [|exact Op]. rewrite !map_app. cbn [map pa fst snd]. rewrite <- !app_assoc. cbn [app].
      apply Permutation_app_head. symmetry. apply Permutation_middle.
    + exact Or.
    + cbn [hput hmem hfresh]. refine (own_put _ _ Ol). apply in_app_iff. left. exact (solo_in S0).
  - split; [exact SMn|]. split; [apply same_refl|]. split; [apply same_refl|]. cbn [wl hput hmem]. apply same_put.
    exact (@own_sep _ _ _ _ _ l Ol (solo_in S0)).
Qed.

(** a node is taken out and its payload released *)
Lemma delete_step w g l R l1 l2 x p v c (h' : dheap cell) (hl : heap lst) L :
  solo w g l R -> gch g = l1 ++ (x, (p, v)) :: l2 ->
  dfresh h' = dfresh (wn w) -> dmem h' x = None ->
  (forall a, a <> x -> dmem h' a =
     option_map (fun n => mkD (dval n) (if oeq (la l1) a then hd l2 else dnext n)
                                       (if oeq (hd l2) a then la l1 else dprev n)) (dmem (wn w) a)) ->
  hmem hl l = Some L -> (forall a, a <> l -> hmem hl a = hmem (wl w) a) -> hfresh hl = hfresh (wl w) ->
  lst_ok (change g (l1 ++ l2) c) L ->
  let w' := mkW h' (hput (wp w) p None) (wr w) hl in
  let g' := change g (l1 ++ l2) c in
  solo w' g' l R /\ wsame w w' R.
Proof.
  intros S0 EC F M O HL1 HL2 HL3 LO. cbv zeta. pose proof S0 as [GK EO OW].
  destruct OW as [On [Op [Or Ol]]]. cbn [gfp fn fpay fr fl] in On, Op, Or, Ol. rewrite EC in On, Op.
  assert (On' : own (dmem (wn w)) (dfresh (wn w)) (x :: map na (l1 ++ l2) ++ fn R)).
  { eapply own_perm; [|exact On]. rewrite !map_app, <- !app_assoc. cbn [map na fst app]. symmetry. apply Permutation_middle. }
  assert (Op' : own (hmem (wp w)) (hfresh (wp w)) (p :: map pa (l1 ++ l2) ++ fpay R)).
  { eapply own_perm; [|exact Op]. rewrite !map_app, <- !app_assoc. cbn [map pa fst snd app]. symmetry. apply Permutation_middle. }
  pose proof (proj1 On') as Nn. inversion Nn as [|? ? xNI Nn']; subst. pose proof (proj1 Op') as Np. inversion Np as [|? ? pNI Np']; subst.
  assert (C : chain h' None (hd (l1 ++ [] ++ l2)) (l1 ++ [] ++ l2) None).
  { eapply (@chain_relink (wn w) h' l1 [(x, (p, v))] [] l2).
    - cbn [app]. rewrite <- EC. exact (g_ch GK).
    - exact (nodup_app_l Nn').
    - intros a n Ha Ea. rewrite O, Ea; [|intros ->; apply xNI, in_app_iff; auto]. rewrite app_nil_r. reflexivity.
    - reflexivity. }
  assert (SMn : same (dmem (wn w)) (dmem h') (fn R)).
  { intros a Ha. assert (N1 : ~ In a (map na (l1 ++ l2))) by (intros X; exact (nodup_app_dis a Nn' X Ha)). rewrite map_app, in_app_iff in N1.
    rewrite O; [|intros ->; apply xNI, in_app_iff; auto]. rewrite oeq_la, oeq_hd by tauto. destruct (dmem (wn w) a); [|reflexivity]. cbn. rewrite dnode_eta. reflexivity. }
  split; [split|].
  - eapply rebuild; [exact S0|reflexivity| |exact LO|exact C|].
    + exact HL1.
    + assert (PG : pays w (l1 ++ (x, (p, v)) :: l2)) by (rewrite <- EC; exact (g_pa GK)). apply Forall_app in PG as [P1 P2]. inversion P2 as [|? ? _ P3]; subst.
      assert (PG : pays w (l1 ++ l2)) by (apply Forall_app; auto). eapply pays_frame; [|exact PG].
      cbn [wp hput hmem]. apply same_put. intros X. apply pNI, in_app_iff. auto.
  - exact EO.
  - split; [|split; [|split]]; cbn [gfp change gch gid owners grl fn fpay fr fl wn wp wr wl].
    + rewrite F. eapply own_dom; [|exact (own_free On')].
      intros a. cbv beta. destruct (Nat.eqb_spec a x) as [->|N].
      * rewrite M. tauto.
      * rewrite O by exact N. destruct (dmem (wn w) a); cbn; [split; intros _ X; [discriminate X|]; discriminate X|tauto].
    + cbn [hput hmem hfresh]. exact (own_free Op').
    + exact Or.
    + rewrite HL3. assert (LI : In l (owners g ++ fl R)) by (apply in_app_iff; left; exact (solo_in S0)).
      eapply own_dom; [|exact (own_put L LI Ol)]. intros a. cbv beta. destruct (Nat.eqb_spec a l) as [->|N]; [rewrite HL1; reflexivity|rewrite HL2 by exact N; reflexivity].
  - split; [exact SMn|]. split; [|split; [apply same_refl|]].
    + cbn [wp hput hmem]. apply same_put. intros X. apply pNI, in_app_iff. auto.
    + cbn [wl]. intros a Ha. apply HL2. intros ->. exact (@own_sep _ _ _ _ _ l Ol (solo_in S0) Ha).
Qed.

Lemma chain_at h start (l1 : list item) x l2 : chain h None start (l1 ++ x :: l2) None ->
  dmem h (na x) = Some (mkD (Some (Some (pa x))) (hd l2) (la l1)).
Proof.
  intros C. apply chain_app in C as [m [_ C]]. destruct C as [_ [q [E C]]]. apply seg_head in C. subst q. exact E.
Qed.
Arguments chain_at [h start l1 x l2] _.
Lemma ltac_upd (T : Type) (h : dheap T) b n a : dmem (dput h b n) a = if a =? b then n else dmem h a.
Proof. reflexivity. Qed.

Lemma append_solo w g l R p v : solo w g l (fadd (mkF [] [p] [] []) R) -> hmem (wp w) p = Some v ->
  exists w', (forall w0, ListDetach w0 l = Ok w -> ListAppend w0 l (Some p) = Ok w') /\
    solo w' (change g (gch g ++ [(dfresh (wn w), (p, v))]) (gcur g)) l R /\ wsame w w' R /\ hfresh (wl w') = hfresh (wl w).
Proof.
  intros S0 EP. pose proof S0 as [GK EO OW]. destruct (g_ls GK l (solo_in S0)) as [L [EL [st [i [-> IT]]]]].
  destruct OW as [On _]. cbn [gfp fn fadd app] in On. pose proof (own_fresh On) as bNI. set (b := dfresh (wn w)) in *.
  assert (IT' : iter_ok (gch g ++ [(b, (p, v))]) (gcur g) i).
  { destruct (gcur g) as [[j|]|]; cbn in *; auto. destruct IT as [a [Ha ->]]. exists a. split; [|reflexivity].
    rewrite map_app, nth_error_app1; [exact Ha|]. apply nth_error_Some. congruence. }
  destruct (gch g) as [|[a [pp vv]] ch _] eqn:EC using rev_ind.
  - pose proof (@insert_step w g l R [] [] p v (gcur g)
      (snd (dalloc (wn w) (mkD (Some (Some p)) None None)))
      (mkL 1 st (Some b) (Some b) (Some b) true (gcp g) (gde g) (gid g) i) S0 EC EP eq_refl) as X.
    destruct X as [X1 X2].
    + cbn. fold b. rewrite Nat.eqb_refl. reflexivity.
    + fold b. intros a N. cbn. fold b. apply Nat.eqb_neq in N. rewrite N. destruct (dmem (wn w) a); [|reflexivity]. cbn. rewrite dnode_eta. reflexivity.
    + exists st, i. split; [reflexivity|exact IT'].
    + eexists. split; [|split; [exact X1|split; [exact X2|reflexivity]]]. intros w0 E0. unfold ListAppend. rewrite E0. cbn [bind]. unfold lget, hload. rewrite EL. cbn [bind llast la cells map lasta length].
      cbn [dalloc]. unfold lput. cbn [with_n wl]. rewrite (hstore_ok _ EL). reflexivity.
  - assert (LA : la (ch ++ [(a, (pp, vv))]) = Some a) by (rewrite la_app; reflexivity).
    assert (AB : a <> b). { intros ->. apply bNI, in_app_iff. left. rewrite map_app. apply in_app_iff. right. left. reflexivity. }
    pose proof (g_ch GK) as C. rewrite EC in C. pose proof (chain_at C) as Ea. cbn [na pa fst snd hd cells map heada] in Ea.
    set (h1 := snd (dalloc (wn w) (mkD (Some (Some p)) None (Some a)))).
    assert (Ea1 : dmem h1 a = Some (mkD (Some (Some pp)) None (la ch))). { cbn. fold b. apply Nat.eqb_neq in AB. rewrite AB. exact Ea. }
    pose proof (@insert_step w g l R (ch ++ [(a, (pp, vv))]) [] p v (gcur g)
      (dput h1 a (Some (mkD (Some (Some pp)) (Some b) (la ch))))
      (mkL (Z.of_nat (length (gch g)) + 1) st (hd (gch g)) (hd (gch g)) (Some b) true (gcp g) (gde g) (gid g) i) S0) as X.
    rewrite app_nil_r in X. specialize (X EC EP eq_refl). fold b in X. rewrite LA in X. cbn [hd cells map heada oeq] in X.
    destruct X as [X1 X2].
    + rewrite dput_other by congruence. cbn. fold b. rewrite Nat.eqb_refl. reflexivity.
    + intros x N. rewrite ltac_upd. rewrite (Nat.eqb_sym a x). destruct (Nat.eqb_spec x a) as [->|N2]; [rewrite Ea; reflexivity|].
      cbn. fold b. apply Nat.eqb_neq in N. rewrite N. destruct (dmem (wn w) x); [|reflexivity]. cbn. rewrite dnode_eta. reflexivity.
    + exists st, i. split; [|exact IT']. cbn [change gch gcp gde gid]. rewrite EC. f_equal.
      * rewrite !app_length. cbn [length]. lia.
      * destruct ch; reflexivity.
      * destruct ch; reflexivity.
      * rewrite la_app. reflexivity.
    + eexists. split; [|split; [exact X1|split; [exact X2|reflexivity]]]. intros w0 E0. unfold ListAppend. rewrite E0. cbn [bind]. unfold lget, hload. rewrite EL. cbn [bind llast]. rewrite LA.
      destruct (dalloc (wn w) (mkD (Some (Some p)) None (Some a))) as [b' h1'] eqn:ED. injection ED as <- <-. fold b.
      change (mkH _ _) with h1. rewrite (set_next_eq _ _ _ Ea1). cbn [bind dval dprev].
      unfold lput. cbn [with_n wl]. rewrite (hstore_ok _ EL). cbn [bind]. rewrite EC. reflexivity.
Qed.

Lemma prepend_solo w g l R p v : solo w g l (fadd (mkF [] [p] [] []) R) -> hmem (wp w) p = Some v ->
  exists w', (forall w0, ListDetach w0 l = Ok w -> ListPrepend w0 l (Some p) = Ok w') /\
    solo w' (change g ((dfresh (wn w), (p, v)) :: gch g) (option_map (option_map S) (gcur g))) l R /\ wsame w w' R /\ hfresh (wl w') = hfresh (wl w).
Proof.
  intros S0 EP. pose proof S0 as [GK EO OW]. destruct (g_ls GK l (solo_in S0)) as [L [EL [st [i [-> IT]]]]].
  destruct OW as [On _]. cbn [gfp fn fadd app] in On. pose proof (own_fresh On) as bNI. set (b := dfresh (wn w)) in *.
  assert (IT' : iter_ok ((b, (p, v)) :: gch g) (option_map (option_map S) (gcur g)) i).
  { destruct (gcur g) as [[j|]|]; cbn in *; auto. }
  destruct (gch g) as [|[a [pp vv]] ch] eqn:EC.
  - pose proof (@insert_step w g l R [] [] p v (option_map (option_map S) (gcur g))
      (snd (dalloc (wn w) (mkD (Some (Some p)) None None)))
      (mkL 1 st (Some b) (Some b) (Some b) true (gcp g) (gde g) (gid g) i) S0 EC EP eq_refl) as X.
    destruct X as [X1 X2].
    + cbn. fold b. rewrite Nat.eqb_refl. reflexivity.
    + fold b. intros a N. cbn. fold b. apply Nat.eqb_neq in N. rewrite N. destruct (dmem (wn w) a); [|reflexivity]. cbn. rewrite dnode_eta. reflexivity.
    + exists st, i. split; [reflexivity|exact IT'].
    + eexists. split; [|split; [exact X1|split; [exact X2|reflexivity]]]. intros w0 E0. unfold ListPrepend. rewrite E0. cbn [bind]. unfold lget, hload. rewrite EL. cbn [bind llist hd cells map heada length].
      cbn [dalloc]. unfold lput. cbn [with_n wl]. rewrite (hstore_ok _ EL). reflexivity.
  - assert (AB : a <> b). { intros ->. apply bNI, in_app_iff. left. left. reflexivity. }
    pose proof (g_ch GK) as C. rewrite EC in C. pose proof (@chain_at _ _ [] _ _ C) as Ea. cbn [na pa fst snd la cells map lasta] in Ea.
    set (h1 := snd (dalloc (wn w) (mkD (Some (Some p)) (Some a) None))).
    assert (Ea1 : dmem h1 a = Some (mkD (Some (Some pp)) (hd ch) None)). { cbn. fold b. apply Nat.eqb_neq in AB. rewrite AB. exact Ea. }
    pose proof (@insert_step w g l R [] ((a, (pp, vv)) :: ch) p v (option_map (option_map S) (gcur g))
      (dput h1 a (Some (mkD (Some (Some pp)) (hd ch) (Some b))))
      (mkL (Z.of_nat (length (gch g)) + 1) st (Some b) (Some b) (la (gch g)) true (gcp g) (gde g) (gid g) i) S0) as X.
    cbn [app] in X. specialize (X EC EP eq_refl). fold b in X. cbn [hd la cells map heada lasta oeq na fst] in X.
    destruct X as [X1 X2].
    + rewrite dput_other by congruence. cbn. fold b. rewrite Nat.eqb_refl. reflexivity.
    + intros x N. rewrite ltac_upd. rewrite (Nat.eqb_sym a x). destruct (Nat.eqb_spec x a) as [->|N2]; [rewrite Ea; reflexivity|].
      cbn. fold b. apply Nat.eqb_neq in N. rewrite N. destruct (dmem (wn w) x); [|reflexivity]. cbn. rewrite dnode_eta. reflexivity.
    + exists st, i. split; [|exact IT']. cbn [change gch gcp gde gid]. rewrite EC. f_equal. cbn [length]. lia.
    + eexists. split; [|split; [exact X1|split; [exact X2|reflexivity]]]. intros w0 E0. unfold ListPrepend. rewrite E0. cbn [bind]. unfold lget, hload. rewrite EL. cbn [bind llist hd cells map heada na fst].
      destruct (dalloc (wn w) (mkD (Some (Some p)) (Some a) None)) as [b' h1'] eqn:ED. injection ED as <- <-. fold b.
      change (mkH _ _) with h1. rewrite (set_prev_eq _ _ _ Ea1). cbn [bind dval dnext].
      unfold lput. cbn [with_n wl]. rewrite (hstore_ok _ EL). cbn [bind]. rewrite EC. reflexivity.
Qed.

(** unlinking a node; [i] is whatever the iterator has been set to before *)
Lemma unlink_spec w l L (l1 : list item) x l2 : hmem (wl w) l = Some L ->
  llist L = hd (l1 ++ x :: l2) -> lfirst L = hd (l1 ++ x :: l2) -> llast L = la (l1 ++ x :: l2) ->
  chain (wn w) None (hd (l1 ++ x :: l2)) (l1 ++ x :: l2) None -> NoDup (map na (l1 ++ x :: l2)) ->
  exists w1, unlink_node w l (na x) = Ok w1 /\ wp w1 = wp w /\ wr w1 = wr w /\ dfresh (wn w1) = dfresh (wn w) /\ dmem (wn w1) (na x) = dmem (wn w) (na x) /\
   (forall a, a <> na x -> dmem (wn w1) a =
     option_map (fun n => mkD (dval n) (if oeq (la l1) a then hd l2 else dnext n)
                                       (if oeq (hd l2) a then la l1 else dprev n)) (dmem (wn w) a)) /\
   hmem (wl w1) l = Some (set_links L (hd (l1 ++ l2)) (hd (l1 ++ l2)) (la (l1 ++ l2))) /\
   (forall a, a <> l -> hmem (wl w1) a = hmem (wl w) a) /\ hfresh (wl w1) = hfresh (wl w).
Proof.
  intros EL L1 L2 L3 C ND. pose proof (chain_at C) as Ex. unfold unlink_node, lget, hload. rewrite EL. cbn [bind]. rewrite (dload_ok _ _ Ex). cbn [bind dnext dprev].
  rewrite map_app in ND. cbn [map] in ND. pose proof (NoDup_remove_2 _ _ _ ND) as xNI. apply NoDup_remove_1 in ND. rewrite in_app_iff in xNI.
  destruct l1 as [|[b [pb vb]] l1 _] using rev_ind.
  - change (la []) with (@None nat). cbn [app] in *. destruct l2 as [|[c [pc vc]] l2].
    + change (hd []) with (@None nat). unfold lput. rewrite (hstore_ok _ EL). cbn [bind]. eexists. split; [reflexivity|]. cbn [with_l wn wp wr wl hput hmem hfresh]. rewrite Nat.eqb_refl.
      repeat split; auto.
      * intros a N. destruct (dmem (wn w) a); [|reflexivity]. cbn. rewrite dnode_eta. reflexivity.
      * intros a N. apply Nat.eqb_neq in N. rewrite N. reflexivity.
    + change (hd ((c, (pc, vc)) :: l2)) with (Some c) in *. pose proof (@chain_at _ _ [x] (c, (pc, vc)) l2 C) as Ec. cbn [na pa fst snd] in Ec.
      cbv beta iota. rewrite (set_prev_eq _ _ _ Ec). cbn [bind dval dnext]. unfold lput. cbn [with_n wl]. rewrite (hstore_ok _ EL). cbn [bind].
      eexists. split; [reflexivity|]. cbn [with_n with_l wn wp wr wl hput hmem hfresh]. rewrite Nat.eqb_refl.
      split; [reflexivity|]. split; [reflexivity|]. split; [reflexivity|]. split; [apply dput_other; intros E; apply xNI; right; left; symmetry; exact E|]. split; [|split; [|split]].
      * intros a N. rewrite ltac_upd. cbn [oeq]. rewrite (Nat.eqb_sym c a). destruct (Nat.eqb_spec a c) as [->|_]; [rewrite Ec; reflexivity|].
        destruct (dmem (wn w) a); [|reflexivity]. cbn. rewrite dnode_eta. reflexivity.
      * rewrite L3. reflexivity.
      * intros a N. apply Nat.eqb_neq in N. rewrite N. reflexivity.
      * reflexivity.
  - assert (LB : la (l1 ++ [(b, (pb, vb))]) = Some b) by (rewrite la_app; reflexivity). rewrite LB.
    rewrite <- app_assoc in C. cbn [app] in C. pose proof (chain_at C) as Eb. cbn [na pa fst snd] in Eb.
    assert (bx : b <> na x). { intros E. apply xNI. left. rewrite map_app. apply in_app_iff. right. left. exact E. }
    destruct l2 as [|[c [pc vc]] l2].
    + change (hd []) with (@None nat). cbv beta iota. rewrite (set_next_eq _ _ _ Eb). cbn [bind dval dprev]. unfold lput. cbn [with_n wl]. rewrite (hstore_ok _ EL). cbn [bind].
      eexists. split; [reflexivity|]. cbn [with_n with_l wn wp wr wl hput hmem hfresh]. rewrite Nat.eqb_refl.
      split; [reflexivity|]. split; [reflexivity|]. split; [reflexivity|]. split; [apply dput_other; congruence|]. split; [|split; [|split]].
      * intros a N. rewrite ltac_upd. cbn [oeq]. rewrite (Nat.eqb_sym b a). destruct (Nat.eqb_spec a b) as [->|_]; [rewrite Eb; reflexivity|].
        destruct (dmem (wn w) a); [|reflexivity]. cbn. rewrite dnode_eta. reflexivity.
      * rewrite L1, L2, app_nil_r, LB. f_equal. f_equal; destruct l1; reflexivity.
      * intros a N. apply Nat.eqb_neq in N. rewrite N. reflexivity.
      * reflexivity.
    + change (hd ((c, (pc, vc)) :: l2)) with (Some c) in *.
      assert (Ec : dmem (wn w) c = Some (mkD (Some (Some pc)) (hd l2) (Some (na x)))).
      { assert (C' : chain (wn w) None (hd ((l1 ++ [(b, (pb, vb))]) ++ x :: (c, (pc, vc)) :: l2)) ((l1 ++ [(b, (pb, vb)); x]) ++ (c, (pc, vc)) :: l2) None) by (rewrite <- !app_assoc in *; exact C).
        pose proof (chain_at C') as Ec. cbn [na pa fst snd] in Ec. rewrite Ec. rewrite la_app. reflexivity. }
      assert (bc : b <> c). { intros <-. apply (nodup_app_dis b ND); [rewrite map_app; apply in_app_iff; right|]; left; reflexivity. }
      cbv beta iota. rewrite (set_prev_eq _ _ _ Ec). cbn [bind dval dnext].
      set (h1 := dput (wn w) c _). assert (Eb1 : dmem h1 b = Some (mkD (Some (Some pb)) (hd (x :: (c, (pc, vc)) :: l2)) (la l1))) by (unfold h1; rewrite dput_other by exact bc; exact Eb).
      rewrite (set_next_eq _ _ _ Eb1). cbn [bind dval dprev]. eexists. split; [reflexivity|]. cbn [with_n wn wp wr wl].
      split; [reflexivity|]. split; [reflexivity|]. split; [reflexivity|]. split; [|split; [|split; [|split]]].
      * rewrite dput_other by congruence. unfold h1. apply dput_other. intros E; apply xNI; right; left; symmetry; exact E.
      * intros a N. rewrite ltac_upd. cbn [oeq]. rewrite (Nat.eqb_sym b a), (Nat.eqb_sym c a). unfold h1. rewrite ltac_upd. destruct (Nat.eqb_spec a b) as [->|_].
        -- apply Nat.eqb_neq in bc. rewrite bc, Eb. reflexivity.
        -- destruct (Nat.eqb_spec a c) as [->|_]; [rewrite Ec; reflexivity|]. destruct (dmem (wn w) a); [|reflexivity]. cbn. rewrite dnode_eta. reflexivity.
      * rewrite EL. f_equal. destruct L; cbn in *. subst. unfold set_links. cbn. f_equal.
        -- destruct l1; reflexivity.
        -- destruct l1; reflexivity.
        -- rewrite !la_app. exact (la_app [x] (c, (pc, vc)) l2).
      * reflexivity.
      * reflexivity.
Qed.

(** taking out a node; [i] is the iterator meanwhile, [i'] afterwards *)
Lemma remove_core w g l R l1 x l2 st i wi :
  solo w g l R -> gch g = l1 ++ x :: l2 -> wn wi = wn w -> wp wi = wp w -> wr wi = wr w ->
  hmem (wl wi) l = Some (mkL (Z.of_nat (length (gch g))) st (hd (gch g)) (hd (gch g)) (la (gch g)) true (gcp g) (gde g) (gid g) i) ->
  (forall a, a <> l -> hmem (wl wi) a = hmem (wl w) a) -> hfresh (wl wi) = hfresh (wl w) ->
  exists w' L', (let* w := unlink_node wi l (na x) in drop_node w l (na x)) = Ok w' /\ hmem (wl w') l = Some L' /\ liter L' = i /\
    hfresh (wl w') = hfresh (wl w) /\
    forall hl c i', hmem hl l = Some (set_iter L' i') -> (forall a, a <> l -> hmem hl a = hmem (wl w') a) -> hfresh hl = hfresh (wl w') ->
      iter_ok (l1 ++ l2) c i' -> solo (with_l w' hl) (change g (l1 ++ l2) c) l R /\ wsame w (with_l w' hl) R.
Proof.
  intros S0 EC Wn Wp Wr HL HO HF. pose proof S0 as [GK EO OW].
  pose proof (g_ch GK) as C. rewrite EC in C. destruct OW as [On [Op _]]. cbn [gfp fn fpay] in On, Op. rewrite EC in On, HL.
  destruct (@unlink_spec wi l _ l1 x l2 HL eq_refl eq_refl eq_refl) as [w1 [E1 [Ep [Er [F1 [M1 [O1 [H1 [H2 H3]]]]]]]]].
  { rewrite Wn. exact C. }
  { exact (nodup_app_l (proj1 On)). }
  rewrite E1. cbn [bind]. unfold drop_node. rewrite Wn in M1. rewrite (chain_at C) in M1. rewrite (dload_ok _ _ M1). cbn [bind dval rdcell].
  unfold free_payload, hfree, hload. rewrite Ep, Wp. pose proof (g_pa GK) as P. rewrite EC in P. pose proof P as P0. apply Forall_app in P0 as [_ P0]. inversion P0 as [|? ? Px _]; subst.
  rewrite Px. cbn [bind with_p wn]. unfold dfree. rewrite (dload_ok _ _ M1). cbn [bind with_n with_p wl]. unfold lget, hload. cbn [with_n with_p wl]. rewrite H1. cbn [bind].
  unfold lput. cbn [with_n with_p wl]. rewrite (hstore_ok _ H1). cbn [bind set_links node_count lstate llist lfirst llast has_cmp has_copy has_destroy lref liter].
  destruct x as [x [p v]]. cbn [na pa va fst snd] in *.
  match goal with |- context [mkL (Z.of_nat _ - 1) ?s _ _ _ _ _ _ _ _] => set (st' := s) end.
  match goal with |- context [hput (wl w1) l (Some ?LL)] => set (L' := LL) end.
  unfold with_l, with_n, with_p. cbn [wn wp wr wl]. rewrite Er, Wr. eexists _, L'. split; [reflexivity|]. cbn [wl hput hmem hfresh]. rewrite Nat.eqb_refl.
  split; [reflexivity|]. split; [reflexivity|]. split; [rewrite H3; exact HF|]. intros hl c i' K1 K2 K3 IT. cbn [wn wp wr wl].
  assert (LO : lst_ok (change g (l1 ++ l2) c) (set_iter L' i')).
  { exists st', i'. split; [|exact IT]. unfold L', set_iter. cbn [change gch gcp gde gid]. f_equal. cbn [node_count]. rewrite !app_length. cbn [length]. lia. }
  apply (@delete_step w g l R l1 l2 x p v c (dput (wn w1) x None) hl (set_iter L' i') S0 EC); auto.
  - cbn. rewrite F1, Wn. reflexivity.
  - apply dput_same.
  - intros a N. rewrite dput_other by exact N. rewrite O1, Wn by exact N. reflexivity.
  - intros a N. rewrite K2 by exact N. pose proof N as N'. apply Nat.eqb_neq in N'. rewrite N', H2, HO by exact N. reflexivity.
  - rewrite K3, H3. exact HF.
Qed.

(** setting the iterator only *)
Lemma iter_step w g l R L i c : solo w g l R -> hmem (wl w) l = Some L -> iter_ok (gch g) c i ->
  lst_ok g L -> exists w', lput w l (set_iter L i) = Ok w' /\ solo w' (change g (gch g) c) l R /\ wsame w w' R /\ hfresh (wl w') = hfresh (wl w).
Proof.
  intros S0 EL IT [st [i0 [-> _]]]. unfold lput. rewrite (hstore_ok _ EL). cbn [bind]. eexists. split; [reflexivity|]. pose proof S0 as [GK EO [On [Op [Or Ol]]]].
  split; [split|split; [|reflexivity]].
  - eapply rebuild; [exact S0|reflexivity| | |exact (g_ch GK)|exact (g_pa GK)].
    + cbn. rewrite Nat.eqb_refl. reflexivity.
    + eexists _, i. split; [reflexivity|exact IT].
  - exact EO.
  - split; [exact On|]. split; [exact Op|]. split; [exact Or|]. cbn [with_l wl hput hmem hfresh gfp change fl owners grl]. refine (own_put _ _ Ol). apply in_app_iff. left. exact (solo_in S0).
  - split; [apply same_refl|]. split; [apply same_refl|]. split; [apply same_refl|]. cbn [with_l wl hput hmem]. apply same_put. exact (@own_sep _ _ _ _ _ l Ol (solo_in S0)).
Qed.

Lemma detach_solo w l L rc rl : hmem (wl w) l = Some L -> hmem (wr w) (lref L) = Some rc -> rrep rc rl -> length rl <= 1 -> ListDetach w l = Ok w.
Proof.
  intros EL ER RR LE. unfold ListDetach, lget, hload. rewrite EL. cbn [bind]. rewrite ER. cbn [bind]. rewrite (rrep_shared RR).
  apply Nat.ltb_ge in LE. rewrite LE. reflexivity.
Qed.
Lemma solo_len w g l R : solo w g l R -> length (grl g) <= 1.
Proof. intros [_ EO _]. unfold owners in EO. rewrite <- (map_length snd), EO. cbn. lia. Qed.

Ltac upds := repeat (rewrite ltac_upd in * || rewrite Nat.eqb_refl).
Lemma mprepend_solo w g l R p v l1 x l2 : solo w g l (fadd (mkF [] [p] [] []) R) -> hmem (wp w) p = Some v ->
  gch g = l1 ++ x :: l2 -> gcur g = Some (Some (length l1)) ->
  exists w', ListMutableIteratorPrepend w l (Some p) = Ok (w', 0%Z) /\
    solo w' (change g (l1 ++ (dfresh (wn w), (p, v)) :: x :: l2) (Some (Some (S (length l1))))) l R /\ wsame w w' R /\ hfresh (wl w') = hfresh (wl w).
Proof.
  intros S0 EP EC CU. pose proof S0 as [GK EO OW]. destruct (g_ls GK l (solo_in S0)) as [L [EL [st [i [-> IT]]]]].
  rewrite CU in IT. cbn in IT. destruct IT as [a [Na ->]]. rewrite EC in Na, EL. rewrite map_app, nth_error_app2, map_length, Nat.sub_diag in Na by (rewrite map_length; lia).
  cbn in Na. injection Na as <-. destruct (g_rc GK) as [rc [ER RR]].
  destruct OW as [On _]. cbn [gfp fn fadd app] in On. rewrite EC in On. pose proof (own_fresh On) as bNI. set (b := dfresh (wn w)) in *.
  pose proof (g_ch GK) as C. rewrite EC in C. pose proof (chain_at C) as Ex.
  destruct On as [ND _]. apply nodup_app_l in ND. rewrite map_app in ND. cbn [map] in ND.
  assert (bx : na x <> b). { intros E. apply bNI. rewrite <- E. apply in_app_iff. left. rewrite map_app. apply in_app_iff. right. left. reflexivity. }
  set (h0 := snd (dalloc (wn w) (mkD None None None))).
  assert (M0 : forall a, a <> b -> dmem h0 a = dmem (wn w) a). { intros a N. cbn. fold b. apply Nat.eqb_neq in N. rewrite N. reflexivity. }
  assert (Mb : dmem h0 b = Some (mkD None None None)). { cbn. fold b. rewrite Nat.eqb_refl. reflexivity. }
  unfold ListMutableIteratorPrepend, miter, lget, hload. rewrite EL. cbn [bind liter negb].
  destruct (dalloc (wn w) (mkD None None None)) as [b' h0'] eqn:ED. injection ED as <- <-. fold b. change (mkH _ _) with h0.
  rewrite (@detach_solo (with_n w h0) l _ rc (grl g) EL ER RR (solo_len S0)). cbn [bind with_n wn].
  unfold set_payload. rewrite (dload_ok _ _ Mb). cbn [bind dnext dprev].
  match goal with |- context [dput h0 b ?n] => set (h1 := dput h0 b n) end.
  assert (Ex1 : dmem h1 (na x) = Some (mkD (Some (Some (pa x))) (hd l2) (la l1))). { unfold h1. rewrite dput_other, M0 by exact bx. exact Ex. }
  cbn [deref bind]. rewrite (dload_ok _ _ Ex1). cbn [bind wl dprev]. unfold lget, hload. cbn [with_n wl]. rewrite EL. cbn [bind].
  assert (Eb1 : dmem h1 b = Some (mkD (Some (Some p)) None None)) by (unfold h1; apply dput_same).
  destruct l1 as [|[y [py vy]] l1 _] using rev_ind.
  - change (la []) with (@None nat) in *. cbn iota.
    rewrite (set_prev_eq _ _ _ Eb1). cbn [bind dval dnext]. set (h2 := dput h1 b _).
    assert (Eb2 : dmem h2 b = Some (mkD (Some (Some p)) None None)) by apply dput_same.
    rewrite (set_next_eq _ _ _ Eb2). cbn [bind dval dprev]. set (h3 := dput h2 b _).
    assert (Ex3 : dmem h3 (na x) = Some (mkD (Some (Some (pa x))) (hd l2) None)) by (unfold h3, h2; rewrite !dput_other by exact bx; exact Ex1).
    rewrite (set_prev_eq _ _ _ Ex3). cbn [bind dval dnext]. set (h4 := dput h3 (na x) _).
    unfold lput. cbn [with_n wl]. rewrite (hstore_ok _ EL). cbn [bind].
    unfold set_count, set_links, with_l, with_n. cbn [node_count lstate llist lfirst llast has_cmp has_copy has_destroy lref liter wn wp wr wl].
    match goal with |- context [hput (wl w) l (Some ?LL)] => set (L' := LL) end.
    destruct (@insert_step w g l R [] (x :: l2) p v (Some (Some 1)) h4 L' S0 EC EP) as [X1 X2].
    + reflexivity.
    + fold b. unfold h4. rewrite dput_other by congruence. unfold h3. rewrite dput_same. reflexivity.
    + fold b. intros a N. unfold h4. rewrite ltac_upd. cbn [hd cells map heada oeq]. rewrite (Nat.eqb_sym (na x) a). destruct (Nat.eqb_spec a (na x)) as [->|N2]; [rewrite Ex; reflexivity|].
      unfold h3, h2, h1. rewrite !dput_other, M0 by exact N. destruct (dmem (wn w) a); [|reflexivity]. cbn. rewrite dnode_eta. reflexivity.
    + exists st, (Some (Some (na x), true)). split; [|exists (na x); split; reflexivity]. unfold L'. cbn [change gch gcp gde gid]. f_equal.
      cbn [app length]. lia.
    + eexists. split; [reflexivity|]. split; [exact X1|]. split; [exact X2|]. reflexivity.
  - assert (LA : la (l1 ++ [(y, (py, vy))]) = Some y) by (rewrite la_app; reflexivity). rewrite LA in *.
    pose proof C as C0. rewrite <- app_assoc in C0. cbn [app] in C0. pose proof (chain_at C0) as Ey. cbn [na pa fst snd] in Ey.
    assert (yb : y <> b). { intros E. apply bNI. rewrite <- E. apply in_app_iff. left. rewrite map_app. apply in_app_iff. left. rewrite map_app. apply in_app_iff. right. left. reflexivity. }
    assert (yx : y <> na x). { intros E. apply (nodup_app_dis y ND); [rewrite map_app; apply in_app_iff; right; left; reflexivity|]. left. symmetry. exact E. }
    rewrite (set_prev_eq _ _ _ Eb1). cbn [bind dval dnext]. set (h2 := dput h1 b _).
    assert (Eb2 : dmem h2 b = Some (mkD (Some (Some p)) None (Some y))) by apply dput_same.
    rewrite (set_next_eq _ _ _ Eb2). cbn [bind dval dprev]. set (h3 := dput h2 b _).
    assert (Ey3 : dmem h3 y = Some (mkD (Some (Some py)) (hd (x :: l2)) (la l1))) by (unfold h3, h2, h1; rewrite !dput_other, M0 by exact yb; exact Ey).
    rewrite (set_next_eq _ _ _ Ey3). cbn [bind dval dprev]. set (h4 := dput h3 y _).
    assert (Ex4 : dmem h4 (na x) = Some (mkD (Some (Some (pa x))) (hd l2) (Some y))).
    { unfold h4. rewrite dput_other by congruence. unfold h3, h2. rewrite !dput_other by exact bx. exact Ex1. }
    rewrite (set_prev_eq _ _ _ Ex4). cbn [bind dval dnext]. set (h5 := dput h4 (na x) _).
    unfold lput. cbn [with_n wl]. rewrite (hstore_ok _ EL). cbn [bind].
    unfold set_count, set_links, with_l, with_n. cbn [node_count lstate llist lfirst llast has_cmp has_copy has_destroy lref liter wn wp wr wl].
    match goal with |- context [hput (wl w) l (Some ?LL)] => set (L' := LL) end.
    destruct (@insert_step w g l R (l1 ++ [(y, (py, vy))]) (x :: l2) p v (Some (Some (S (length (l1 ++ [(y, (py, vy))]))))) h5 L' S0 EC EP) as [X1 X2].
    + reflexivity.
    + fold b. unfold h5, h4. rewrite !dput_other by congruence. unfold h3. rewrite dput_same, LA. reflexivity.
    + fold b. intros a N. rewrite LA. unfold h5, h4. rewrite !ltac_upd. cbn [hd cells map heada oeq]. rewrite (Nat.eqb_sym (na x) a), (Nat.eqb_sym y a).
      destruct (Nat.eqb_spec a (na x)) as [->|N2].
      * destruct (Nat.eqb_spec (na x) y) as [E|_]; [congruence|]. rewrite Ex. reflexivity.
      * destruct (Nat.eqb_spec a y) as [->|N3]; [rewrite Ey; reflexivity|].
        unfold h3, h2, h1. rewrite !dput_other, M0 by exact N. destruct (dmem (wn w) a); [|reflexivity]. cbn. rewrite dnode_eta. reflexivity.
    + exists st, (Some (Some (na x), true)). split; [|exists (na x); split; [|reflexivity]].
      * unfold L'. cbn [change gch gcp gde gid]. fold b. f_equal.
        -- rewrite !app_length. cbn [length]. lia.
        -- destruct l1; reflexivity.
        -- destruct l1; reflexivity.
        -- rewrite !la_app. reflexivity.
      * cbn [change gch]. rewrite map_app, nth_error_app2 by (rewrite map_length; lia). rewrite map_length. replace (S _ - _) with 1 by lia. reflexivity.
    + eexists. split; [reflexivity|]. split; [exact X1|]. split; [exact X2|]. reflexivity.
Qed.

Lemma mappend_solo w g l R p v l1 x l2 : solo w g l (fadd (mkF [] [p] [] []) R) -> hmem (wp w) p = Some v ->
  gch g = l1 ++ x :: l2 -> gcur g = Some (Some (length l1)) ->
  exists w', ListMutableIteratorAppend w l (Some p) = Ok (w', 0%Z) /\
    solo w' (change g ((l1 ++ [x]) ++ (dfresh (wn w), (p, v)) :: l2) (Some (Some (length l1)))) l R /\ wsame w w' R /\ hfresh (wl w') = hfresh (wl w).
Proof.
  intros S0 EP EC CU. pose proof S0 as [GK EO OW]. destruct (g_ls GK l (solo_in S0)) as [L [EL [st [i [-> IT]]]]].
  rewrite CU in IT. cbn in IT. destruct IT as [a [Na ->]]. rewrite EC in Na, EL. rewrite map_app, nth_error_app2, map_length, Nat.sub_diag in Na by (rewrite map_length; lia).
  cbn in Na. injection Na as <-. destruct (g_rc GK) as [rc [ER RR]].
  destruct OW as [On _]. cbn [gfp fn fadd app] in On. rewrite EC in On. pose proof (own_fresh On) as bNI. set (b := dfresh (wn w)) in *.
  pose proof (g_ch GK) as C. rewrite EC in C. pose proof (chain_at C) as Ex.
  destruct On as [ND _]. apply nodup_app_l in ND. rewrite map_app in ND. cbn [map] in ND.
  assert (bx : na x <> b). { intros E. apply bNI. rewrite <- E. apply in_app_iff. left. rewrite map_app. apply in_app_iff. right. left. reflexivity. }
  set (h0 := snd (dalloc (wn w) (mkD None None None))).
  assert (M0 : forall a, a <> b -> dmem h0 a = dmem (wn w) a). { intros a N. cbn. fold b. apply Nat.eqb_neq in N. rewrite N. reflexivity. }
  assert (Mb : dmem h0 b = Some (mkD None None None)). { cbn. fold b. rewrite Nat.eqb_refl. reflexivity. }
  unfold ListMutableIteratorAppend, miter, lget, hload. rewrite EL. cbn [bind liter negb].
  destruct (dalloc (wn w) (mkD None None None)) as [b' h0'] eqn:ED. injection ED as <- <-. fold b. change (mkH _ _) with h0.
  rewrite (@detach_solo (with_n w h0) l _ rc (grl g) EL ER RR (solo_len S0)). cbn [bind with_n wn].
  unfold set_payload. rewrite (dload_ok _ _ Mb). cbn [bind dnext dprev].
  match goal with |- context [dput h0 b ?n] => set (h1 := dput h0 b n) end.
  assert (Ex1 : dmem h1 (na x) = Some (mkD (Some (Some (pa x))) (hd l2) (la l1))). { unfold h1. rewrite dput_other, M0 by exact bx. exact Ex. }
  cbn [deref bind]. rewrite (dload_ok _ _ Ex1). cbn [bind wl dnext]. unfold lget, hload. cbn [with_n wl]. rewrite EL. cbn [bind].
  assert (Eb1 : dmem h1 b = Some (mkD (Some (Some p)) None None)) by (unfold h1; apply dput_same).
  assert (EC2 : gch g = (l1 ++ [x]) ++ l2) by (rewrite <- app_assoc; exact EC).
  assert (LA : la (l1 ++ [x]) = Some (na x)) by (rewrite la_app; reflexivity).
  assert (IT2 : nth_error (map na ((l1 ++ [x]) ++ (b, (p, v)) :: l2)) (length l1) = Some (na x)).
  { rewrite <- app_assoc, map_app, nth_error_app2 by (rewrite map_length; lia). rewrite map_length, Nat.sub_diag. reflexivity. }
  destruct l2 as [|[y [py vy]] l2].
  - change (hd []) with (@None nat) in *. cbn iota.
    rewrite (set_next_eq _ _ _ Eb1). cbn [bind dval dprev]. set (h2 := dput h1 b _).
    assert (Eb2 : dmem h2 b = Some (mkD (Some (Some p)) None None)) by apply dput_same.
    rewrite (set_prev_eq _ _ _ Eb2). cbn [bind dval dnext]. set (h3 := dput h2 b _).
    assert (Ex3 : dmem h3 (na x) = Some (mkD (Some (Some (pa x))) None (la l1))) by (unfold h3, h2; rewrite !dput_other by exact bx; exact Ex1).
    rewrite (set_next_eq _ _ _ Ex3). cbn [bind dval dprev]. set (h4 := dput h3 (na x) _).
    unfold lput. cbn [with_n wl]. rewrite (hstore_ok _ EL). cbn [bind].
    unfold set_count, set_links, with_l, with_n. cbn [node_count lstate llist lfirst llast has_cmp has_copy has_destroy lref liter wn wp wr wl].
    match goal with |- context [hput (wl w) l (Some ?LL)] => set (L' := LL) end.
    destruct (@insert_step w g l R (l1 ++ [x]) [] p v (Some (Some (length l1))) h4 L' S0 EC2 EP) as [X1 X2].
    + reflexivity.
    + fold b. unfold h4. rewrite dput_other by congruence. unfold h3. rewrite dput_same, LA. reflexivity.
    + fold b. intros a N. rewrite LA. unfold h4. rewrite ltac_upd. cbn [hd cells map heada oeq]. rewrite (Nat.eqb_sym (na x) a). destruct (Nat.eqb_spec a (na x)) as [->|N2]; [rewrite Ex; reflexivity|].
      unfold h3, h2, h1. rewrite !dput_other, M0 by exact N. destruct (dmem (wn w) a); [|reflexivity]. cbn. rewrite dnode_eta. reflexivity.
    + exists st, (Some (Some (na x), true)). split; [|exists (na x); split; [exact IT2|reflexivity]]. unfold L'. cbn [change gch gcp gde gid]. fold b. f_equal.
      * rewrite !app_length. cbn [length]. lia.
      * destruct l1; reflexivity.
      * destruct l1; reflexivity.
      * rewrite la_app. reflexivity.
    + eexists. split; [reflexivity|]. split; [exact X1|]. split; [exact X2|]. reflexivity.
  - change (hd ((y, (py, vy)) :: l2)) with (Some y) in *. cbn iota.
    assert (C0 : chain (wn w) None (hd (l1 ++ x :: (y, (py, vy)) :: l2)) ((l1 ++ [x]) ++ (y, (py, vy)) :: l2) None) by (rewrite <- app_assoc; exact C).
    pose proof (chain_at C0) as Ey. cbn [na pa fst snd] in Ey. rewrite LA in Ey.
    assert (yb : y <> b). { intros E. apply bNI. rewrite <- E. apply in_app_iff. left. rewrite map_app. apply in_app_iff. right. right. left. reflexivity. }
    assert (yx : y <> na x). { intros E. apply NoDup_remove_2 in ND. apply ND, in_app_iff. right. left. exact E. }
    rewrite (set_next_eq _ _ _ Eb1). cbn [bind dval dprev]. set (h2 := dput h1 b _).
    assert (Eb2 : dmem h2 b = Some (mkD (Some (Some p)) (Some y) None)) by apply dput_same.
    rewrite (set_prev_eq _ _ _ Eb2). cbn [bind dval dnext]. set (h3 := dput h2 b _).
    assert (Ey3 : dmem h3 y = Some (mkD (Some (Some py)) (hd l2) (Some (na x)))) by (unfold h3, h2, h1; rewrite !dput_other, M0 by exact yb; exact Ey).
    rewrite (set_prev_eq _ _ _ Ey3). cbn [bind dval dnext]. set (h4 := dput h3 y _).
    assert (Ex4 : dmem h4 (na x) = Some (mkD (Some (Some (pa x))) (Some y) (la l1))).
    { unfold h4. rewrite dput_other by congruence. unfold h3, h2. rewrite !dput_other by exact bx. exact Ex1. }
    rewrite (set_next_eq _ _ _ Ex4). cbn [bind dval dprev]. set (h5 := dput h4 (na x) _).
    unfold lput. cbn [with_n wl]. rewrite (hstore_ok _ EL). cbn [bind].
    unfold set_count, set_links, with_l, with_n. cbn [node_count lstate llist lfirst llast has_cmp has_copy has_destroy lref liter wn wp wr wl].
    match goal with |- context [hput (wl w) l (Some ?LL)] => set (L' := LL) end.
    destruct (@insert_step w g l R (l1 ++ [x]) ((y, (py, vy)) :: l2) p v (Some (Some (length l1))) h5 L' S0 EC2 EP) as [X1 X2].
    + reflexivity.
    + fold b. unfold h5, h4. rewrite !dput_other by congruence. unfold h3. rewrite dput_same, LA. reflexivity.
    + fold b. intros a N. rewrite LA. unfold h5, h4. rewrite !ltac_upd. cbn [hd cells map heada oeq na fst]. rewrite (Nat.eqb_sym (na x) a), (Nat.eqb_sym y a).
      destruct (Nat.eqb_spec a (na x)) as [->|N2].
      * destruct (Nat.eqb_spec (na x) y) as [E|_]; [congruence|]. rewrite Ex. reflexivity.
      * destruct (Nat.eqb_spec a y) as [->|N3]; [rewrite Ey; reflexivity|].
        unfold h3, h2, h1. rewrite !dput_other, M0 by exact N. destruct (dmem (wn w) a); [|reflexivity]. cbn. rewrite dnode_eta. reflexivity.
    + exists st, (Some (Some (na x), true)). split; [|exists (na x); split; [exact IT2|reflexivity]].
      unfold L'. cbn [change gch gcp gde gid]. fold b. f_equal.
      * rewrite !app_length. cbn [length]. lia.
      * destruct l1; reflexivity.
      * destruct l1; reflexivity.
      * rewrite !la_app. reflexivity.
    + eexists. split; [reflexivity|]. split; [exact X1|]. split; [exact X2|]. reflexivity.
Qed.
End P.
