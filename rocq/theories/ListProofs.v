(** Lists with copies: the memory they occupy. *)
From Verif Require Import Prelude PreludeFacts DllModel DllFacts RefModel PropsRef ListModel ListSpec.
Set Implicit Arguments.

(** * Ownership of memory *)
(** exactly the addresses [L] are allocated, all below [fr] *)
Definition own (T : Type) (m : nat -> option T) (fr : nat) (L : list nat) : Prop :=
  NoDup L /\ (forall a, m a <> None <-> In a L) /\ (forall a, In a L -> a < fr).
Definition same (T : Type) (m m' : nat -> option T) (R : list nat) : Prop := forall a, In a R -> m' a = m a.

Section O.
Variable T : Type.
Lemma own_perm (m : nat -> option T) fr L L' : Permutation L L' -> own m fr L -> own m fr L'.
Proof.
  intros P [N [D F]]. split; [eapply Permutation_NoDup; eauto|]. split.
  - intros a. rewrite D. split; intros H; [apply (Permutation_in a P H)|apply (Permutation_in a (Permutation_sym P) H)].
  - intros a H. apply F. apply (Permutation_in a (Permutation_sym P) H).
Qed.
Lemma own_dom (m m' : nat -> option T) fr L : (forall a, m' a <> None <-> m a <> None) -> own m fr L -> own m' fr L.
Proof. intros E [N [D F]]. split; [exact N|]. split; [|exact F]. intros a. rewrite E. apply D. Qed.
Lemma own_fresh (m : nat -> option T) fr L : own m fr L -> ~ In fr L.
Proof. intros [_ [_ F]] H. apply F in H. lia. Qed.
Lemma own_alloc (m : nat -> option T) fr L x : own m fr L -> own (fun q => if q =? fr then Some x else m q) (S fr) (fr :: L).
Proof.
  intros O. pose proof (own_fresh O) as NI. destruct O as [N [D F]]. split; [constructor; assumption|]. split.
  - intros a. destruct (Nat.eqb_spec a fr) as [->|E]; [split; [left; reflexivity|discriminate]|]. rewrite D. cbn. split; [auto|]. intros [H|H]; [congruence|exact H].
  - intros a [<-|H]; [lia|]. apply F in H. lia.
Qed.
Lemma own_free (m : nat -> option T) fr a L : own m fr (a :: L) -> own (fun q => if q =? a then None else m q) fr L.
Proof.
  intros [N [D F]]. inversion N as [|? ? NI N']; subst. split; [exact N'|]. split.
  - intros b. destruct (Nat.eqb_spec b a) as [->|E]; [split; [congruence|contradiction]|]. rewrite D. cbn. split; [intros [H|H]; [congruence|exact H]|auto].
  - intros b H. apply F. right. exact H.
Qed.
Lemma own_put (m : nat -> option T) fr L a x : In a L -> own m fr L -> own (fun q => if q =? a then Some x else m q) fr L.
Proof.
  intros HI O. eapply own_dom; [|exact O]. intros b. destruct (Nat.eqb_spec b a) as [->|E]; [|tauto].
  destruct O as [_ [D _]]. rewrite D. split; [intros _; exact HI|discriminate].
Qed.
Lemma own_length (m : nat -> option T) fr L l : own m fr L -> NoDup l -> incl l L -> length l <= fr.
Proof.
  intros [_ [_ F]] N H. rewrite <- (seq_length fr 0). apply NoDup_incl_length; [exact N|]. intros a K. apply in_seq. apply H, F in K. lia.
Qed.
Lemma same_refl (m : nat -> option T) R : same m m R.
Proof. intros a _. reflexivity. Qed.
Lemma same_trans (m m1 m2 : nat -> option T) R : same m m1 R -> same m1 m2 R -> same m m2 R.
Proof. intros A B a H. rewrite (B a H). apply A, H. Qed.
Lemma same_put (m : nat -> option T) R a x : ~ In a R -> same m (fun q => if q =? a then x else m q) R.
Proof. intros N b H. destruct (Nat.eqb_spec b a) as [->|E]; [contradiction|reflexivity]. Qed.
Lemma same_incl (m m' : nat -> option T) R R' : incl R' R -> same m m' R -> same m m' R'.
Proof. intros H E a K. apply E, H, K. Qed.
End O.
Arguments own_put [T m fr L a] x _ _.

Lemma nodup_app_l (T : Type) (l1 l2 : list T) : NoDup (l1 ++ l2) -> NoDup l1.
Proof. induction l1 as [|x l1 IH]; cbn; intros H; [constructor|]. inversion H as [|? ? A B]; subst. constructor; [|auto]. intros K. apply A, in_app_iff. auto. Qed.
Lemma nodup_app_r (T : Type) (l1 l2 : list T) : NoDup (l1 ++ l2) -> NoDup l2.
Proof. induction l1 as [|x l1 IH]; cbn; intros H; [exact H|]. inversion H; auto. Qed.
Lemma nodup_app_dis (T : Type) (l1 l2 : list T) x : NoDup (l1 ++ l2) -> In x l1 -> ~ In x l2.
Proof.
  induction l1 as [|y l1 IH]; cbn; intros H K; [destruct K|]. inversion H as [|? ? A B]; subst. destruct K as [->|K]; [|auto].
  intros C. apply A, in_app_iff. auto.
Qed.
Lemma own_sep (T : Type) (m : nat -> option T) fr A R a : own m fr (A ++ R) -> In a A -> ~ In a R.
Proof. intros [N _]. apply nodup_app_dis, N. Qed.

Section P.
Variable V : Type.
Notation world := (world V).

(** the memory used in the four heaps *)
Record fp := mkF { fn : list nat; fpay : list nat; fr : list nat; fl : list nat }.
Definition fadd (a b : fp) : fp := mkF (fn a ++ fn b) (fpay a ++ fpay b) (fr a ++ fr b) (fl a ++ fl b).
Definition f0 : fp := mkF [] [] [] [].
Definition wown (w : world) (F R : fp) : Prop :=
  own (dmem (wn w)) (dfresh (wn w)) (fn F ++ fn R) /\ own (hmem (wp w)) (hfresh (wp w)) (fpay F ++ fpay R) /\
  own (hmem (wr w)) (hfresh (wr w)) (fr F ++ fr R) /\ own (hmem (wl w)) (hfresh (wl w)) (fl F ++ fl R).
Definition wsame (w w' : world) (R : fp) : Prop :=
  same (dmem (wn w)) (dmem (wn w')) (fn R) /\ same (hmem (wp w)) (hmem (wp w')) (fpay R) /\
  same (hmem (wr w)) (hmem (wr w')) (fr R) /\ same (hmem (wl w)) (hmem (wl w')) (fl R).
Lemma wsame_refl w R : wsame w w R.
Proof. repeat split; apply same_refl. Qed.
Lemma wsame_trans w w1 w2 R : wsame w w1 R -> wsame w1 w2 R -> wsame w w2 R.
Proof. intros [A [B [C D]]] [A' [B' [C' D']]]. repeat split; eapply same_trans; eauto. Qed.
Definition fincl (a b : fp) : Prop := incl (fn a) (fn b) /\ incl (fpay a) (fpay b) /\ incl (fr a) (fr b) /\ incl (fl a) (fl b).
Lemma wsame_incl w w' R R' : fincl R' R -> wsame w w' R -> wsame w w' R'.
Proof. intros [A [B [C D]]] [A' [B' [C' D']]]. repeat split; eapply same_incl; eauto. Qed.
Definition fperm (a b : fp) : Prop :=
  Permutation (fn a) (fn b) /\ Permutation (fpay a) (fpay b) /\ Permutation (fr a) (fr b) /\ Permutation (fl a) (fl b).
Lemma wown_perm w F R F' R' : fperm (fadd F R) (fadd F' R') -> wown w F R -> wown w F' R'.
Proof. intros [A [B [C D]]] [A' [B' [C' D']]]. exact (conj (own_perm A A') (conj (own_perm B B') (conj (own_perm C C') (own_perm D D')))). Qed.

(** * Chains of nodes: the node, its payload, the value *)
Notation item := (nat * (nat * V))%type.
Definition na (x : item) : nat := fst x.
Definition pa (x : item) : nat := fst (snd x).
Definition va (x : item) : V := snd (snd x).
Definition cells (l : list item) : list (nat * cell) := map (fun x => (na x, Some (Some (pa x)))) l.
Definition chain (h : dheap cell) (prev start : option nat) (l : list item) (stop : option nat) : Prop :=
  seg h prev start (cells l) stop.
Definition pays (w : world) (l : list item) : Prop := Forall (fun x => hmem (wp w) (pa x) = Some (va x)) l.
Definition hd (l : list item) : option nat := heada (cells l) None.
Definition la (l : list item) : option nat := lasta None (cells l).
Lemma addrs_cells l : addrs (cells l) = map na l.
Proof. unfold addrs, cells. rewrite map_map. reflexivity. Qed.
Lemma cells_app l1 l2 : cells (l1 ++ l2) = cells l1 ++ cells l2.
Proof. apply map_app. Qed.
Lemma chain_frame h h' l prev start stop : same (dmem h) (dmem h') (map na l) -> chain h prev start l stop -> chain h' prev start l stop.
Proof. intros E. apply seg_frame. rewrite addrs_cells. exact E. Qed.
Lemma chain_app h prev start l1 l2 stop : chain h prev start (l1 ++ l2) stop <->
  exists mid, chain h prev start l1 mid /\ chain h (lasta prev (cells l1)) mid l2 stop.
Proof. unfold chain. rewrite cells_app. apply seg_app. Qed.
Lemma pays_frame w w' l : same (hmem (wp w)) (hmem (wp w')) (map pa l) -> pays w l -> pays w' l.
Proof. intros E H. unfold pays in *. rewrite Forall_forall in *. intros x K. rewrite E by (apply in_map; exact K). apply H, K. Qed.

(** * Groups of lists that share their nodes *)
Record grp := mkG { gid : nat; grl : list (nat * nat); gch : list item; gcp : bool; gde : bool; gcur : option (option nat); gab : nat }.
Definition owners (g : grp) : list nat := map snd (grl g).
Definition gfp (g : grp) : fp := mkF (map na (gch g)) (map pa (gch g)) [gid g] (owners g).
Definition gal (g : grp) : alist V := mkA (map va (gch g)) (gcur g) (gcp g) (gab g).
Definition iter_ok (l : list item) (c : option (option nat)) (i : option (option nat * bool)) : Prop :=
  match c with
  | None => i = None
  | Some None => exists x, i = Some (x, false)
  | Some (Some j) => exists a, nth_error (map na l) j = Some a /\ i = Some (Some a, true)
  end.
Definition lst_ok (g : grp) (L : lst) : Prop :=
  exists s i, L = mkL (Z.of_nat (length (gch g))) s (hd (gch g)) (hd (gch g)) (la (gch g)) true (gcp g) (gde g) (gid g) i /\
              iter_ok (gch g) (gcur g) i.
Record gok (w : world) (g : grp) : Prop := mkGok {
  g_rc : exists rc, hmem (wr w) (gid g) = Some rc /\ rrep rc (grl g);
  g_ne : owners g <> [];
  g_sh : 1 < length (owners g) -> gcp g = true /\ gcur g = None;
  g_ls : forall h, In h (owners g) -> exists L, hmem (wl w) h = Some L /\ lst_ok g L;
  g_ch : chain (wn w) None (hd (gch g)) (gch g) None;
  g_pa : pays w (gch g) }.

Lemma gok_frame w w' g : wsame w w' (gfp g) -> gok w g -> gok w' g.
Proof.
  intros [A [B [C D]]] [RC NE SH LS CH PA]. split; auto.
  - destruct RC as [rc [E R]]. exists rc. split; [|exact R]. rewrite C by (left; reflexivity). exact E.
  - intros h H. destruct (LS h H) as [L [E K]]. exists L. split; [|exact K]. rewrite D by exact H. exact E.
  - eapply chain_frame; [exact A|exact CH].
  - eapply pays_frame; [exact B|exact PA].
Qed.

Definition fps (gs : list grp) : fp := fold_right (fun g f => fadd (gfp g) f) f0 gs.
Record winv (w : world) (st : astate V) (gs : list grp) (lost : list nat) : Prop := mkWinv {
  i_ok : Forall (gok w) gs;
  i_own : wown w (fps gs) (mkF [] lost [] []);
  i_st : forall h A, amap st h = Some A <-> exists g, In g gs /\ In h (owners g) /\ A = gal g;
  i_ab : NoDup (map gab gs);
  i_fr : anext st = hfresh (wl w) }.

Lemma fadd_assoc a b c : fadd (fadd a b) c = fadd a (fadd b c).
Proof. unfold fadd. cbn. rewrite !app_assoc. reflexivity. Qed.
Lemma fps_app gs1 gs2 : fps (gs1 ++ gs2) = fadd (fps gs1) (fps gs2).
Proof. induction gs1 as [|g gs1 IH]; cbn [app fps fold_right]; [fold (fps gs2); destruct (fps gs2); reflexivity|]. fold (fps (gs1 ++ gs2)) (fps gs1). rewrite IH, fadd_assoc. reflexivity. Qed.
Lemma wown_assoc w a b c : wown w (fadd a b) c <-> wown w a (fadd b c).
Proof. unfold wown, fadd. cbn [fn fpay fr fl]. rewrite <- !app_assoc. tauto. Qed.
Lemma fps_perm gs gs' : Permutation gs gs' -> fperm (fps gs) (fps gs').
Proof.
  induction 1 as [|g gs gs' P IH|g1 g2 gs|gs1 gs2 gs3 P1 IH1 P2 IH2]; cbn [fps fold_right].
  - repeat split; reflexivity.
  - fold (fps gs) (fps gs'). destruct IH as [A [B [C D]]]. repeat split; apply Permutation_app_head; assumption.
  - fold (fps gs). repeat split; apply Permutation_app_swap_app.
  - destruct IH1 as [A [B [C D]]], IH2 as [A' [B' [C' D']]]. repeat split; etransitivity; eassumption.
Qed.
Lemma winv_perm w st gs gs' lost : Permutation gs gs' -> winv w st gs lost -> winv w st gs' lost.
Proof.
  intros P [OK OW ST AB FR]. split; auto.
  - rewrite Forall_forall in *. intros g H. apply OK. apply (Permutation_in g (Permutation_sym P) H).
  - eapply wown_perm; [|exact OW]. destruct (fps_perm P) as [A [B [C D]]]. repeat split; apply Permutation_app_tail; assumption.
  - intros h A. rewrite ST. split; intros [g [H K]]; exists g; (split; [|exact K]); [apply (Permutation_in g P H)|apply (Permutation_in g (Permutation_sym P) H)].
  - eapply Permutation_NoDup; [|exact AB]. apply Permutation_map, P.
Qed.
(** bringing a list's group to the front *)
Lemma focus w st gs lost h A : winv w st gs lost -> amap st h = Some A ->
  exists g gs', winv w st (g :: gs') lost /\ In h (owners g) /\ A = gal g.
Proof.
  intros I0 E. apply (i_st I0) in E as [g [H [K ->]]]. apply in_split in H as [l1 [l2 ->]].
  exists g, (l1 ++ l2). split; [|auto]. eapply winv_perm; [|exact I0]. symmetry. apply Permutation_middle.
Qed.
Lemma focus2 w st gs lost h A : winv w st gs lost -> amap st h = Some A ->
  exists g gs', Permutation gs (g :: gs') /\ winv w st (g :: gs') lost /\ In h (owners g) /\ A = gal g.
Proof.
  intros I0 E. apply (i_st I0) in E as [g [H [K ->]]]. apply in_split in H as [l1 [l2 ->]].
  assert (P : Permutation (l1 ++ g :: l2) (g :: l1 ++ l2)) by (symmetry; apply Permutation_middle).
  exists g, (l1 ++ l2). split; [exact P|]. split; [|auto]. eapply winv_perm; [exact P|exact I0].
Qed.
(** the frame of the group in front *)
Definition rest (gs : list grp) (lost : list nat) : fp := fadd (fps gs) (mkF [] lost [] []).
Lemma winv_own w st g gs lost : winv w st (g :: gs) lost -> wown w (gfp g) (rest gs lost).
Proof. intros I0. apply wown_assoc. exact (i_own I0). Qed.
Lemma fps_incl g gs : In g gs -> fincl (gfp g) (fps gs).
Proof.
  induction gs as [|x gs IH]; intros H; [destruct H|]. cbn [fps fold_right]. fold (fps gs). destruct H as [->|H].
  - repeat split; intros a K; apply in_app_iff; auto.
  - destruct (IH H) as [A [B [C D]]]. repeat split; intros a K; apply in_app_iff; auto.
Qed.
Lemma rest_ok w w' gs lost : wsame w w' (rest gs lost) -> Forall (gok w) gs -> Forall (gok w') gs.
Proof.
  intros E H. rewrite Forall_forall in *. intros g K. eapply gok_frame; [|apply H, K]. eapply wsame_incl; [|exact E].
  pose proof K as K0. apply fps_incl in K0 as [A [B [C D]]]. repeat split; intros a X; apply in_app_iff; left; auto.
Qed.
Lemma rest_owner gs lost h : In h (fl (rest gs lost)) <-> exists g, In g gs /\ In h (owners g).
Proof.
  unfold rest. cbn [fadd fl]. rewrite app_nil_r. induction gs as [|x gs IH]; cbn [fps fold_right fl f0 fadd].
  - split; [intros []|intros [g [[] _]]].
  - fold (fps gs). rewrite in_app_iff, IH. split.
    + intros [H|[g [H K]]]; [exists x; split; [left; reflexivity|exact H]|exists g; split; [right; exact H|exact K]].
    + intros [g [[->|H] K]]; [left; exact K|right; exists g; auto].
Qed.

(** * The copy made before a change *)
Lemma lasta_ne (A : Type) (l : list (nat * A)) p q : l <> [] -> lasta p l = lasta q l.
Proof. destruct l as [|[a v] l]; [congruence|reflexivity]. Qed.
Lemma copy_loop_spec (l2 : list item) : forall f w D p prev (R : fp), length l2 < f ->
  wown w (mkF (map na D) (map pa D) [] []) R -> incl (map na l2) (fn R) -> incl (map pa l2) (fpay R) ->
  chain (wn w) prev p l2 None -> pays w l2 -> chain (wn w) None (hd D) D None -> pays w D ->
  exists w' D', copy_loop f true w p (hd D) (la D) (hd D) (la D) = Ok (w', hd (D ++ D'), hd (D ++ D'), la (D ++ D')) /\
    map va D' = map va l2 /\ wown w' (mkF (map na (D ++ D')) (map pa (D ++ D')) [] []) R /\ wsame w w' R /\
    chain (wn w') None (hd (D ++ D')) (D ++ D') None /\ pays w' (D ++ D') /\ wr w' = wr w /\ wl w' = wl w.
Proof.
  induction l2 as [|[a [p v]] l2 IH]; intros f w D p0 prev R Lf OW IN IP CH PA CD PD; (destruct f as [|f]; [cbn in Lf; lia|]); cbn [copy_loop].
  - cbn in CH. subst p0. exists w, []. rewrite app_nil_r. repeat split; auto using same_refl; apply OW.
  - destruct CH as [-> [q [Ea CH]]]. cbn [na pa va fst snd] in *. rewrite (dload_ok _ _ Ea). cbn [bind dval dnext].
    pose proof OW as [On [Op [Or Ol]]]. cbn [fn fpay fr fl] in *.
    set (b := dfresh (wn w)) in *.
    assert (aR : In a (fn R)) by (apply IN; left; reflexivity).
    assert (pR : In p (fpay R)) by (apply IP; left; reflexivity).
    assert (bNI : ~ In b (map na D ++ fn R)) by exact (own_fresh On).
    assert (ab : a <> b) by (intros ->; apply bNI, in_app_iff; auto).
    destruct (dalloc_spec (wn w) (mkD (@None (option nat)) None (match hd D with Some _ => la D | None => None end))) as [h [E [M [Fr Ot]]]].
    rewrite E. fold b in E, M, Fr, Ot |- *.
    inversion PA as [|? ? PAx PA']; subst. cbn [pa va fst snd] in PAx.
    (* the previous node of the copy is linked to the new one *)
    assert (H1 : exists h1, match hd D with Some _ => let* q := deref (la D) in set_next h q (Some b) | None => Ok h end = Ok h1 /\
        dfresh h1 = S b /\ dmem h1 b = Some (mkD None None (la D)) /\ chain h1 None (hd (D ++ [(b, (0, v))])) D (Some b) /\
        (forall x, ~ In x (map na D) -> x <> b -> dmem h1 x = dmem (wn w) x) /\ (forall x, x <> b -> (dmem h1 x <> None <-> dmem (wn w) x <> None))).
    { destruct D as [|x D _] using rev_ind.
      - exists h. cbn in M |- *. split; [reflexivity|]. split; [exact Fr|]. split; [exact M|]. split; [reflexivity|]. split.
        + intros x _ X. apply Ot, X.
        + intros x X. rewrite Ot by exact X. reflexivity.
      - destruct x as [c [r u]]. assert (LA : la (D ++ [(c, (r, u))]) = Some c) by (unfold la; rewrite cells_app, lasta_app; reflexivity).
        assert (HD : exists z, hd (D ++ [(c, (r, u))]) = Some z) by (destruct D as [|[? ?] D]; eexists; reflexivity). destruct HD as [z HD].
        rewrite LA, HD in *. cbn [deref bind].
        assert (CD' : chain h None (Some z) (D ++ [(c, (r, u))]) None).
        { eapply chain_frame; [|exact CD]. intros x Hx. apply Ot. intros ->. apply bNI, in_app_iff. left. exact Hx. }
        assert (NC : ~ In c (addrs (cells D))).
        { rewrite addrs_cells. destruct On as [N _]. apply nodup_app_l in N. rewrite map_app in N. cbn in N. apply NoDup_remove_2 in N. rewrite app_nil_r in N. exact N. }
        unfold chain in CD'. rewrite cells_app in CD'. cbn [cells map na pa fst snd] in CD'. fold (cells D) in CD'.
        destruct (@seg_set_next _ h None (Some z) (cells D) c (Some (Some r)) None (Some b) NC CD') as [h1 [E1 [G K]]].
        exists h1. destruct K as [K1 [K2 K3]]. split; [exact E1|]. split; [rewrite K1; exact Fr|].
        assert (cb : c <> b). { intros ->. apply bNI. apply in_app_iff. left. rewrite map_app. apply in_app_iff. right. left. reflexivity. }
        split; [rewrite K2 by congruence; exact M|]. split; [|split].
        + unfold chain. rewrite cells_app. cbn [cells map na pa fst snd]. fold (cells D).
          replace (hd ((D ++ [(c, (r, u))]) ++ [(b, (0, v))])) with (Some z); [exact G|]. rewrite <- HD. destruct D; reflexivity.
        + intros x X1 X2. rewrite K2; [apply Ot, X2|]. intros ->. apply X1. rewrite map_app. apply in_app_iff. right. left. reflexivity.
        + intros x X. rewrite K3, Ot by exact X. reflexivity. }
    destruct H1 as [h1 [E1 [F1 [M1 [C1 [S1 D1]]]]]]. rewrite E1. clear E1. cbn [rdcell bind].
    assert (D1' : own (dmem h1) (S b) (b :: map na D ++ fn R)).
    { eapply own_dom; [|exact (own_alloc (mkD (@None (option nat)) None None) On)]. intros x. cbv beta. fold b. destruct (Nat.eqb_spec x b) as [->|X]; [rewrite M1; split; intros _ X; [discriminate X|]; discriminate X|]. apply D1, X. }
    unfold call_copy. cbn [wp with_n]. unfold hload. rewrite PAx. cbn [bind]. unfold halloc. set (p' := hfresh (wp w)).
    cbn [bind wn with_p with_n wp wr wl]. unfold set_payload. rewrite (dload_ok _ _ M1). cbn [bind with_p with_n wn wp wr wl dnext dprev].
    match goal with |- context [dput h1 b ?x] => set (h2 := dput h1 b x) end.
    set (hp := mkHeap (fun q => if q =? p' then Some v else hmem (wp w) q) (S p')).
    set (w2 := mkW h2 hp (wr w) (wl w)).
    assert (Ea2 : dmem h2 a = Some (mkD (Some (Some p)) q prev)).
    { unfold h2. rewrite dput_other by exact ab. rewrite S1; [exact Ea| |exact ab]. intros X. exact (@nodup_app_dis _ _ _ _ (proj1 On) X aR). }
    change (with_n (with_p (with_n w h1) hp) h2) with w2. change (wn w2) with h2. rewrite (dload_ok _ _ Ea2). cbn [bind dnext].
    set (D2 := D ++ [(b, (p', v))]).
    assert (p'NI : ~ In p' (map pa D ++ fpay R)) by exact (own_fresh Op).
    assert (OW2 : wown w2 (mkF (map na D2) (map pa D2) [] []) R).
    { unfold D2. rewrite !map_app. cbn [map na pa fst snd]. split; [|split; [|split]]; cbn [fn fpay fr fl w2 wn wp wr wl]; auto.
      - assert (X : own (dmem h2) (S b) (b :: map na D ++ fn R)) by (refine (own_put _ _ D1'); left; reflexivity).
        replace (dfresh h2) with (S b) by (symmetry; exact F1). eapply own_perm; [|exact X]. rewrite <- app_assoc. cbn. apply Permutation_middle.
      - eapply own_perm; [|exact (own_alloc v Op)]. rewrite <- app_assoc. cbn. apply Permutation_middle. }
    assert (SM2 : wsame w w2 R).
    { split; [|split; [|split]]; cbn [fn fpay fr fl w2 wn wp wr wl]; auto using same_refl.
      - intros x X. unfold h2. rewrite dput_other; [apply S1|]; try (intros ->; apply bNI, in_app_iff; auto); auto. intros Y. exact (@nodup_app_dis _ _ _ _ (proj1 On) Y X).
      - apply same_put. intros X. apply p'NI, in_app_iff. auto. }
    destruct (IH f w2 D2 q (Some a) R) as [w' [D' [Er [EV [OW' [SM' [CH' [PA'' [Ewr Ewl]]]]]]]]]; auto.
    + cbn [length] in Lf. lia.
    + intros x X. apply IN. right. exact X.
    + intros x X. apply IP. right. exact X.
    + eapply chain_frame; [|exact CH]. intros x X. apply SM2. apply IN. right. exact X.
    + eapply pays_frame; [|exact PA']. intros x X. apply SM2. apply IP. right. exact X.
    + unfold D2. apply chain_app. exists (Some b). split.
      * replace (hd (D ++ [(b, (p', v))])) with (hd (D ++ [(b, (0, v))])) by (destruct D; reflexivity).
        eapply chain_frame; [|exact C1]. intros x X. cbn [w2 wn]. unfold h2. apply dput_other. intros ->. apply bNI, in_app_iff. auto.
      * split; [reflexivity|]. exists None. split; [|reflexivity]. cbn [w2 wn]. unfold h2. rewrite dput_same. reflexivity.
    + unfold D2. apply Forall_app. split.
      * eapply pays_frame; [|exact PD]. intros x X. cbn [w2 wp hp hmem]. destruct (Nat.eqb_spec x p') as [->|N]; [exfalso; apply p'NI, in_app_iff; auto|reflexivity].
      * constructor; [|constructor]. cbn [w2 wp hp hmem pa va fst snd]. rewrite Nat.eqb_refl. reflexivity.
    + exists w', ((b, (p', v)) :: D'). unfold D2 in *. rewrite <- app_assoc in *. cbn [app] in *.
      split; [|split; [cbn; rewrite EV; reflexivity|split; [exact OW'|split; [eapply wsame_trans; [exact SM2|exact SM']|auto]]]].
      replace (la (D ++ [(b, (p', v))])) with (Some b) in Er by (unfold la; rewrite cells_app, lasta_app; reflexivity).
      destruct D as [|d D]; [cbn in Er |- *; exact Er|]. cbn [hd cells map heada app] in Er |- *. exact Er.
Qed.

(** what is left of a group when [l] has left it *)
Definition left_over (g : grp) (l : nat) (gd : list grp) : Prop :=
  (gd = [] /\ owners g = [l]) \/
  (exists g1, gd = [g1] /\ Permutation (owners g) (l :: owners g1) /\ gal g1 = gal g /\ gde g1 = gde g /\ owners g1 <> [] /\ gcur g = None).

Lemma neqb_spec a b : Nat.eqb a b = true <-> a = b.
Proof. apply Nat.eqb_eq. Qed.
Lemma remove_first_perm l (rl : list (nat * nat)) : In l (map snd rl) ->
  Permutation (map snd rl) (l :: map snd (remove_first Nat.eqb l rl)).
Proof.
  induction rl as [|[a x] rl IH]; cbn [map snd remove_first]; [intros []|]. destruct (Nat.eqb_spec x l) as [->|N].
  - intros _. reflexivity.
  - intros [H|H]; [contradiction|]. cbn [map snd]. rewrite (IH H) at 1. apply perm_swap.
Qed.
Lemma hstore_ok (T : Type) (h : heap T) a x y : hmem h a = Some y -> hstore h a x = Ok (hput h a (Some x)).
Proof. intros E. unfold hstore, hload. rewrite E. reflexivity. Qed.
Arguments hstore_ok [T h a] x [y] _.
Lemma rrep_shared O (rc : RefCount O) l : rrep rc l -> RefCountIsShared rc = (1 <? length l).
Proof. intros [C _]. unfold RefCountIsShared. rewrite C. reflexivity. Qed.

Lemma detach_spec w g l R s : gok w g -> In l (owners g) -> wown w (gfp g) R ->
  exists w' g' gd, ListDetach w l = Ok w' /\ wown w' (fps (g' :: gd)) R /\ wsame w w' R /\ Forall (gok w') (g' :: gd) /\
    owners g' = [l] /\ map va (gch g') = map va (gch g) /\ gcur g' = gcur g /\ gcp g' = gcp g /\ gde g' = gde g /\ gab g' = s /\
    left_over g l gd /\ hfresh (wl w') = hfresh (wl w) /\ (gd = [] -> w' = w /\ gch g' = gch g /\ gid g' = gid g).
Proof.
  intros OK IL OW. pose proof OK as [[rc [Erc RR]] NE SH LS CH PA]. destruct (LS l IL) as [L [EL [st [i [-> IT]]]]].
  unfold ListDetach, lget, hload. rewrite EL. cbn [bind lref]. rewrite Erc. cbn [bind]. rewrite (rrep_shared RR).
  destruct (Nat.ltb_spec 1 (length (grl g))) as [SHD|NSH].
  2:{ assert (EO : owners g = [l]).
      { unfold owners in *. destruct (grl g) as [|x [|y rl]]; cbn in *; [contradiction| |lia]. destruct IL as [->|[]]. reflexivity. }
      exists w, (mkG (gid g) (grl g) (gch g) (gcp g) (gde g) (gcur g) s), []. split; [reflexivity|]. split; [|split; [apply wsame_refl|split]].
      - cbn [fps fold_right]. unfold fadd, f0. cbn [fn fpay fr fl gfp gch gid owners grl]. rewrite !app_nil_r. exact OW.
      - constructor; [|constructor]. split; cbn [gid grl gch gcp gde gcur gab owners]; eauto.
      - cbn [gch gcur gcp gde gab owners grl gid]. repeat split; auto. left. auto. }
  assert (SHo : 1 < length (owners g)) by (unfold owners; rewrite map_length; exact SHD).
  destruct (SH SHo) as [CP CU]. rewrite CU in IT. cbn in IT. subst i. cbn [llist has_copy].
  assert (OW0 : wown w (mkF (map na (@nil item)) (map pa (@nil item)) [] []) (fadd (gfp g) R)) by exact OW.
  destruct (@copy_loop_spec (gch g) (S (dfresh (wn w))) w [] (hd (gch g)) None (fadd (gfp g) R)) as [w1 [D [E1 [EV [OW1 [SM1 [CH1 [PA1 [Er El]]]]]]]]]; auto.
  { destruct OW as [On _]. pose proof (own_length On (nodup_app_l _ _ (proj1 On))) as X. cbn [gfp fn] in X. rewrite map_length in X.
    apply Nat.lt_succ_r, X. intros x Hx. apply in_app_iff. auto. }
  { intros x Hx. apply in_app_iff. left. exact Hx. }
  { intros x Hx. apply in_app_iff. left. exact Hx. }
  { reflexivity. }
  { constructor. }
  rewrite CP. change (hd []) with (@None nat) in E1. change (la []) with (@None nat) in E1. rewrite E1. clear E1. cbn [bind app] in *.
  cbn [set_links lref]. destruct (detach_rep _ neqb_spec l RR) as [_ [DR _]]. destruct (DR SHD IL) as [rc1 [Erc1 RR1]]. rewrite Erc1. cbn [bind].
  rewrite Er, (hstore_ok _ Erc). cbn [bind]. destruct (attach_rep _ neqb_spec l (new_rep nat)) as [rc2 [a [Erc2 RR2]]]. rewrite Erc2. cbn [bind app] in *.
  cbn [halloc hput hfresh hmem]. unfold lput. cbn [with_r wl]. rewrite El, (hstore_ok _ EL). cbn [bind set_ref node_count lstate llist lfirst llast has_cmp has_copy has_destroy liter].
  set (r := hfresh (wr w)). set (rl1 := remove_first Nat.eqb l (grl g)) in *.
  set (g1 := mkG (gid g) rl1 (gch g) (gcp g) (gde g) (gcur g) (gab g)).
  set (g' := mkG r [(a, l)] D (gcp g) (gde g) None s).
  pose proof (remove_first_perm _ _ IL) as PRM. fold rl1 in PRM. change (map snd (grl g)) with (owners g) in PRM. change (map snd rl1) with (owners g1) in PRM.
  assert (NDo : NoDup (l :: owners g1)).
  { destruct OW as [_ [_ [_ [N _]]]]. apply nodup_app_l in N. eapply Permutation_NoDup; [exact PRM|exact N]. }
  assert (NEo : owners g1 <> []).
  { intros X. rewrite X in PRM. apply Permutation_length in PRM. cbn in PRM. lia. }
  assert (LEN : length D = length (gch g)) by (rewrite <- (map_length va D), EV; apply map_length).
  destruct OW1 as [On [Op [Or Ol]]]. cbn [fn fpay fr fl fadd gfp map app] in On, Op, Or, Ol. rewrite Er in Or. rewrite El in Ol.
  assert (rNI : r <> gid g /\ ~ In r (fr R)).
  { pose proof (own_fresh Or) as X. cbn in X. fold r in X. split; [intros ->; tauto|tauto]. }
  destruct rNI as [r1 r2].
  eexists _, g', [g1]. split; [reflexivity|]. split; [|split; [|split; [|split; [reflexivity|]]]].
  - cbn [fps fold_right]. unfold fadd, f0, wown. cbn [fn fpay fr fl gfp g' g1 gch gid owners grl map snd app wn wp wr wl with_l with_r hmem hfresh]. rewrite !app_nil_r, <- !app_assoc.
    split; [exact On|]. split; [exact Op|]. split.
    + apply (@own_put _ _ _ _ (gid g) rc1) in Or; [|left; reflexivity]. exact (own_alloc rc2 Or).
    + cbn [hput hmem hfresh]. eapply own_perm; [|refine (own_put _ _ Ol); apply in_app_iff; left; exact IL].
      rewrite app_comm_cons. apply Permutation_app_tail, PRM.
  - destruct SM1 as [Sn [Sp [Sr Sl]]]. split; [|split; [|split]]; cbn [wn wp wr wl with_l with_r hput hmem hfresh].
    + intros x X. apply Sn, in_app_iff. right. exact X.
    + intros x X. apply Sp, in_app_iff. right. exact X.
    + intros x X. destruct (Nat.eqb_spec x r) as [->|_]; [contradiction|]. destruct (Nat.eqb_spec x (gid g)) as [->|_]; [|reflexivity].
      exfalso. destruct Or as [N _]. inversion N; contradiction.
    + apply same_put. eapply own_sep; [exact Ol|exact IL].
  - constructor; [|constructor; [|constructor]].
    + split; cbn [g' gid grl gch gcp gde gcur gab owners map snd wn wp wr wl with_l with_r hput hmem hfresh].
      * exists rc2. rewrite Nat.eqb_refl. auto.
      * discriminate.
      * cbn. lia.
      * intros h [<-|[]]. rewrite Nat.eqb_refl. eexists. split; [reflexivity|]. exists st, None. split; [|reflexivity]. cbn. rewrite LEN, CP. reflexivity.
      * exact CH1.
      * exact PA1.
    + split; cbn [g1 gid grl gch gcp gde gcur gab owners map snd wn wp wr wl with_l with_r hput hmem hfresh].
      * exists rc1. destruct (Nat.eqb_spec (gid g) r) as [X|_]; [congruence|]. rewrite Nat.eqb_refl. auto.
      * exact NEo.
      * auto.
      * intros h H. destruct (Nat.eqb_spec h l) as [->|_]; [inversion NDo; contradiction|].
        destruct (LS h) as [L [EL' K]]; [apply (Permutation_in h (Permutation_sym PRM)); right; exact H|]. exists L. auto.
      * eapply chain_frame; [|exact CH]. intros x X. apply SM1. apply in_app_iff. left. exact X.
      * eapply pays_frame; [|exact PA]. intros x X. apply SM1. apply in_app_iff. left. exact X.
  - cbn [g' gch gcur gcp gde gab gid]. split; [exact EV|]. split; [symmetry; exact CU|]. split; [exact CP|]. split; [reflexivity|]. split; [reflexivity|].
    split; [|split; [reflexivity|discriminate]]. right. exists g1. auto 10.
Qed.

(** * The abstract state after an operation on one list *)
Lemma left_over_owner g l gd h : left_over g l gd -> (exists x, In x (gd) /\ In h (owners x)) -> In h (owners g).
Proof.
  intros [[-> _]|[g1 [-> [P _]]]] [x [H K]]; [destruct H|]. destruct H as [<-|[]]. apply (Permutation_in h (Permutation_sym P)). right. exact K.
Qed.
Lemma wown_owners w F R : wown w F R -> NoDup (fl F ++ fl R).
Proof. intros [_ [_ [_ [N _]]]]. exact N. Qed.
Lemma winv_set w st g gs lost0 lost l w' g' gd : winv w st (g :: gs) lost0 -> In l (owners g) -> owners g' = [l] -> left_over g l gd ->
  alone st l (gab g') -> wown w' (fps (g' :: gd)) (rest gs lost) -> wsame w w' (rest gs lost) -> Forall (gok w') (g' :: gd) ->
  hfresh (wl w') = hfresh (wl w) -> winv w' (aset st l (Some (gal g'))) (g' :: gd ++ gs) lost.
Proof.
  intros INV IL EO LO AL OW SM GK FR. pose proof (winv_own INV) as OW0. destruct INV as [OK _ ST AB FR0].
  inversion OK as [|? ? OKg OKs]; subst. pose proof (wown_owners OW0) as NDO.
  assert (NDg : NoDup (owners g)) by exact (nodup_app_l _ _ NDO).
  assert (Ng : forall x, In x gs -> ~ In l (owners x)).
  { intros x X Y. apply (@nodup_app_dis _ _ _ l NDO IL). apply (rest_owner gs lost0). exists x. auto. }
  assert (Nd : forall x, In x gd -> ~ In l (owners x)).
  { intros x X Y. destruct LO as [[-> _]|[g1 [-> [P _]]]]; [destruct X|]. destruct X as [<-|[]].
    eapply Permutation_NoDup in P; [|exact NDg]. inversion P; contradiction. }
  split.
  - change (g' :: gd ++ gs) with ((g' :: gd) ++ gs). apply Forall_app. split; [exact GK|]. eapply rest_ok; [exact SM|exact OKs].
  - change (g' :: gd ++ gs) with ((g' :: gd) ++ gs). rewrite fps_app. apply wown_assoc. exact OW.
  - intros h A. cbn [aset amap]. destruct (Nat.eqb_spec h l) as [->|N].
    + split.
      * intros [= <-]. exists g'. split; [left; reflexivity|]. rewrite EO. split; [left; reflexivity|reflexivity].
      * intros [x [X [Y ->]]]. destruct X as [<-|X]; [reflexivity|]. exfalso. apply in_app_iff in X as [X|X]; [exact (Nd x X Y)|exact (Ng x X Y)].
    + rewrite ST. split.
      * intros [x [X [Y ->]]]. destruct X as [<-|X].
        -- destruct LO as [[_ E]|[g1 [-> [P [G1 _]]]]]; [rewrite E in Y; destruct Y as [Y|[]]; congruence|].
           apply (Permutation_in h P) in Y. destruct Y as [Y|Y]; [congruence|]. exists g1. split; [right; left; reflexivity|]. auto.
        -- exists x. split; [right; apply in_app_iff; auto|auto].
      * intros [x [X [Y ->]]]. destruct X as [<-|X]; [rewrite EO in Y; destruct Y as [Y|[]]; congruence|]. apply in_app_iff in X as [X|X].
        -- exists g. split; [left; reflexivity|]. destruct LO as [[-> _]|[g1 [-> [P [G1 _]]]]]; [destruct X|]. destruct X as [<-|[]].
           split; [|exact G1]. apply (Permutation_in h (Permutation_sym P)). right. exact Y.
        -- exists x. split; [right; exact X|auto].
  - cbn [map]. cbn [map] in AB. inversion AB as [|? ? A1 A2]; subst. constructor.
    + intros X. apply in_map_iff in X as [x [X1 X2]].
      assert (K : exists k, In k (owners x)).
      { assert (GX : gok w' x). { apply in_app_iff in X2 as [X2|X2]; [inversion GK as [|? ? _ GK']; subst; rewrite Forall_forall in GK'; auto|].
          pose proof (rest_ok SM OKs) as Z. rewrite Forall_forall in Z. auto. }
        pose proof (g_ne GX) as Z. destruct (owners x) as [|k ks]; [congruence|]. exists k. left. reflexivity. }
      destruct K as [k K]. assert (KL : k <> l). { intros ->. apply in_app_iff in X2 as [X2|X2]; [exact (Nd x X2 K)|exact (Ng x X2 K)]. }
      apply in_app_iff in X2 as [X2|X2].
      * destruct LO as [[-> _]|[g1 [-> [P [G1 _]]]]]; [destruct X2|]. destruct X2 as [<-|[]].
        apply (AL k (gal g) KL). { apply ST. exists g. split; [left; reflexivity|]. split; [|reflexivity]. apply (Permutation_in k (Permutation_sym P)). right. exact K. }
        rewrite <- G1. exact X1.
      * apply (AL k (gal x) KL); [apply ST; exists x; split; [right; exact X2|auto]|exact X1].
    + destruct LO as [[-> _]|[g1 [-> [P [G1 _]]]]]; [exact A2|]. cbn [app map].
      replace (gab g1) with (gab g) by exact (eq_sym (f_equal (@astore V) G1)). constructor; assumption.
  - cbn [aset anext]. rewrite FR. exact FR0.
Qed.
End P.
