(** C54: reference counts. *)
From Verif Require Import Prelude PreludeFacts DllModel DllFacts RefModel.
Set Implicit Arguments.

Section P.
Variable O : Type.
Variable oeqb : O -> O -> bool.
Hypothesis oeqb_spec : forall a b, oeqb a b = true <-> a = b.

(** the memory holds exactly the list of owners, in the order of their attachment *)
Definition rrep (r : RefCount O) (l : list (nat * O)) : Prop :=
  user_count r = length l /\ seg (nodes r) None (users r) l None /\ last r = lasta None l /\ exactly (nodes r) l.

Lemma new_rep : rrep RefCountNew [].
Proof. split; [reflexivity|]. split; [reflexivity|]. split; [reflexivity|]. split; [constructor|]. split; [intros a H; exfalso; apply H; reflexivity|reflexivity]. Qed.

Lemma attach_rep r l o : rrep r l -> exists r' a, RefCountAttach r o = Ok r' /\ rrep r' (l ++ [(a, o)]).
Proof.
  intros [C [H [L X]]]. unfold RefCountAttach. rewrite L.
  pose proof (fresh_notin H X) as NI.
  destruct (lasta_case l) as [[-> EL]|[l' [b [w [-> EL]]]]]; rewrite EL.
  - destruct (dalloc_spec (nodes r) (mkD o None None)) as [h [E [M [F Ot]]]]. rewrite E. eexists _, (dfresh (nodes r)). split; [reflexivity|].
    split; [cbn [user_count length app]; cbn in C; lia|]. cbn [users nodes last app]. split; [|split; [reflexivity|]].
    + split; [reflexivity|]. exists None. split; [exact M|reflexivity].
    + eapply exactly_alloc; [exact H|exact X|exact E|reflexivity|tauto|reflexivity].
  - destruct (dalloc_spec (nodes r) (mkD o None (Some b))) as [h [E [M [F Ot]]]]. rewrite E.
    set (a := dfresh (nodes r)) in *.
    assert (BI : In b (addrs (l' ++ [(b, w)]))) by (rewrite addrs_app; apply in_app_iff; right; left; reflexivity).
    assert (H' : seg h None (users r) (l' ++ [(b, w)]) None).
    { eapply seg_frame; [|exact H]. intros x Hx. apply Ot. intros ->. contradiction. }
    assert (NB : ~ In b (addrs l')).
    { intros K. destruct X as [ND _]. rewrite addrs_app in ND. cbn in ND. apply NoDup_remove_2 in ND. apply ND. rewrite app_nil_r. exact K. }
    destruct (@seg_set_next _ h None (users r) l' b w None (Some a) NB H') as [h1 [E1 [G K]]]. rewrite E1. cbn [bind].
    eexists _, a. split; [reflexivity|]. split; [cbn [user_count]; rewrite C, !app_length; cbn; lia|]. cbn [users nodes last]. split; [|split].
    + apply seg_app. exists (Some a). split; [exact G|]. split; [reflexivity|]. exists None. split; [|reflexivity].
      rewrite EL. destruct K as [_ [K _]]. rewrite K; [exact M|]. intros ->. contradiction.
    + rewrite lasta_app. reflexivity.
    + eapply exactly_alloc; [exact H|exact X|exact E| |apply K|apply K]. rewrite addrs_app. cbn. symmetry. apply Permutation_cons_append.
Qed.

(** removes the first occurrence *)
Fixpoint remove_first (o : O) (l : list (nat * O)) : list (nat * O) :=
  match l with [] => [] | (a, x) :: l => if oeqb x o then l else (a, x) :: remove_first o l end.
Lemma detach_loop_spec r l o : rrep r l -> 1 < length l -> forall l2 l1 f, l = l1 ++ l2 -> ~ In o (map snd l1) -> length l2 < f ->
  (In o (map snd l2) -> exists r', detach_loop oeqb f r (heada l2 None) o = Ok (Some (true, r')) /\ user_count r' = user_count r /\
     rrep (mkR (length l - 1) (users r') (last r') (nodes r')) (l1 ++ remove_first o l2)) /\
  (~ In o (map snd l2) -> detach_loop oeqb f r (heada l2 None) o = Ok (Some (false, r))).
Proof.
  intros [C [H [L X]]] L1. induction l2 as [|[a v] l2 IH]; intros l1 f El N1 Lf; (destruct f as [|f]; [cbn in Lf; lia|]); cbn [heada detach_loop].
  - split; [intros []|reflexivity].
  - rewrite El in H, X. destruct (unlink H X) as [Ea U]. rewrite (dload_ok _ _ Ea). cbn [bind dval dprev dnext].
    destruct (oeqb v o) eqn:Ev.
    + apply oeqb_spec in Ev. subst v. split; [intros _|intros K; exfalso; apply K; left; reflexivity].
      destruct U as [h1 [h2 [h3 [E1 [E2 [E3 [G [X3 F3]]]]]]]].
      cbn [remove_first]. replace (oeqb o o) with true by (symmetry; apply oeqb_spec; reflexivity).
      assert (LN : length (l1 ++ l2) = length l - 1) by (rewrite El, !app_length; cbn [length]; lia).
      assert (RR : forall us la, us = heada (l1 ++ l2) None -> la = lasta None (l1 ++ l2) -> rrep (mkR (length l - 1) us la h3) (l1 ++ l2)).
      { intros us la -> ->. split; [cbn; rewrite LN; reflexivity|]. split; [exact G|]. split; [reflexivity|exact X3]. }
      pose proof (seg_head _ _ _ _ _ H) as HH. rewrite El, lasta_app in L. cbn [lasta] in L.
      destruct (lasta_case l1) as [[-> EL]|[l' [b [w [E' EL]]]]]; rewrite EL in *; cbn [app] in *.
      * destruct l2 as [|[c w] l2]; [rewrite El in L1; cbn in L1; lia|]. cbn [heada] in *. injection E1 as <-. rewrite E2. cbn [bind]. rewrite E3. cbn [bind].
        eexists. split; [reflexivity|]. cbn [user_count users last nodes]. split; [reflexivity|]. apply RR; [reflexivity|]. rewrite L. reflexivity.
      * destruct l2 as [|[c w'] l2]; cbn [heada] in *; rewrite E1; cbn [bind].
        -- injection E2 as <-. rewrite E3. cbn [bind]. eexists. split; [reflexivity|]. cbn [user_count users last nodes]. split; [reflexivity|].
           apply RR; [|rewrite app_nil_r, EL; reflexivity]. rewrite HH, E', app_nil_r. destruct l' as [|[x y] l']; reflexivity.
        -- rewrite E2. cbn [bind]. rewrite E3. cbn [bind]. eexists. split; [reflexivity|]. cbn [user_count users last nodes]. split; [reflexivity|].
           apply RR; [|rewrite lasta_app, L; reflexivity]. rewrite HH, E'. destruct l' as [|[x y] l']; reflexivity.
    + destruct (IH (l1 ++ [(a, v)]) f) as [J1 J2].
      * rewrite <- app_assoc. exact El.
      * rewrite map_app, in_app_iff. intros [K|[K|[]]]; [contradiction|]. cbn in K. apply (f_equal (fun x => oeqb x o)) in K. rewrite Ev in K. symmetry in K.
        assert (oeqb o o = true) by (apply oeqb_spec; reflexivity). congruence.
      * cbn [length] in Lf. lia.
      * cbn [map snd In remove_first]. rewrite Ev. rewrite <- app_assoc in J1. cbn [app] in J1. split.
        -- intros [K|K]; [exfalso; subst v; assert (oeqb o o = true) by (apply oeqb_spec; reflexivity); congruence|exact (J1 K)].
        -- intros K. apply J2. tauto.
Qed.

Lemma detach_rep r l o : rrep r l ->
  (length l <= 1 -> RefCountDetach oeqb r o = Ok r) /\
  (1 < length l -> In o (map snd l) -> exists r', RefCountDetach oeqb r o = Ok r' /\ rrep r' (remove_first o l)) /\
  (1 < length l -> ~ In o (map snd l) -> RefCountDetach oeqb r o = Abort).
Proof.
  intros R. pose proof R as [C [H [L X]]]. unfold RefCountDetach. rewrite C. split; [|split].
  - intros Ll. apply Nat.leb_le in Ll. rewrite Ll. reflexivity.
  - intros Ll I. replace (length l <=? 1) with false by (symmetry; apply Nat.leb_gt; lia).
    destruct (@detach_loop_spec r l o R Ll l [] (S (dfresh (nodes r))) eq_refl) as [J _]; [intros []|pose proof (exactly_length H X); lia|].
    rewrite (seg_head _ _ _ _ _ H). destruct (J I) as [r' [E [U RR]]]. rewrite E. cbn [bind]. eexists. split; [reflexivity|]. rewrite U, C. exact RR.
  - intros Ll I. replace (length l <=? 1) with false by (symmetry; apply Nat.leb_gt; lia).
    destruct (@detach_loop_spec r l o R Ll l [] (S (dfresh (nodes r))) eq_refl) as [_ J]; [intros []|pose proof (exactly_length H X); lia|].
    rewrite (seg_head _ _ _ _ _ H), (J I). reflexivity.
Qed.

(** ** the theorem *)
Inductive rop := Attach (o : O) | Detach (o : O).
Definition rcall (r : RefCount O) (x : rop) : res (RefCount O) :=
  match x with Attach o => RefCountAttach r o | Detach o => RefCountDetach oeqb r o end.
Fixpoint rcalls (r : RefCount O) (xs : list rop) : res (RefCount O) :=
  match xs with [] => Ok r | x :: xs => let* r := rcall r x in rcalls r xs end.

Fixpoint drop_first (o : O) (l : list O) : list O :=
  match l with [] => [] | x :: l => if oeqb x o then l else x :: drop_first o l end.
(** the owners attached: a bag; the only owner left stays attached, and a detached owner
    must have been attached *)
Definition owners_after (l : list O) (x : rop) : option (list O) :=
  match x with
  | Attach o => Some (l ++ [o])
  | Detach o => if length l <=? 1 then Some l else if existsb (fun y => oeqb y o) l then Some (drop_first o l) else None
  end.
Fixpoint owners_run (l : list O) (xs : list rop) : option (list O) :=
  match xs with [] => Some l | x :: xs => match owners_after l x with Some l => owners_run l xs | None => None end end.

Lemma drop_remove o l : map snd (remove_first o l) = drop_first o (map snd l).
Proof. induction l as [|[a v] l IH]; cbn; [reflexivity|]. destruct (oeqb v o); cbn; [reflexivity|]. rewrite IH. reflexivity. Qed.

Lemma rcalls_spec xs : forall r l, rrep r l ->
  match owners_run (map snd l) xs with
  | Some os => exists r' l', rcalls r xs = Ok r' /\ rrep r' l' /\ map snd l' = os
  | None => rcalls r xs = Abort
  end.
Proof.
  induction xs as [|x xs IH]; intros r l R; cbn [owners_run rcalls]; [exists r, l; auto|]. destruct x as [o|o]; cbn [owners_after rcall].
  - destruct (attach_rep o R) as [r' [a [E R']]]. rewrite E. cbn [bind]. specialize (IH r' _ R'). rewrite map_app in IH. exact IH.
  - destruct (detach_rep o R) as [D1 [D2 D3]]. rewrite map_length. destruct (Nat.leb_spec (length l) 1) as [Ll|Ll].
    + rewrite (D1 Ll). cbn [bind]. apply IH, R.
    + destruct (existsb (fun y => oeqb y o) (map snd l)) eqn:E.
      * apply existsb_exists in E as [y [Hy Ey]]. apply oeqb_spec in Ey. subst y. destruct (D2 Ll Hy) as [r' [E R']]. rewrite E. cbn [bind].
        specialize (IH r' _ R'). rewrite drop_remove in IH. exact IH.
      * rewrite D3; [reflexivity|exact Ll|]. intros K. assert (existsb (fun y => oeqb y o) (map snd l) = true); [|congruence].
        apply existsb_exists. exists o. split; [exact K|]. apply oeqb_spec. reflexivity.
Qed.

(** After any history the count is the number of attached owners, RefCountIsShared tells
    whether there is more than one, and a history only fails by detaching a stranger. *)
Theorem C54_refcount xs :
  match owners_run [] xs with
  | Some os => exists r, rcalls RefCountNew xs = Ok r /\ user_count r = length os /\ (RefCountIsShared r = true <-> 1 < length os)
  | None => rcalls RefCountNew xs = Abort
  end.
Proof.
  pose proof (rcalls_spec xs new_rep) as H. cbn [map] in H. destruct (owners_run [] xs) as [os|]; [|exact H].
  destruct H as [r [l [E [[C _] <-]]]]. exists r. rewrite map_length. split; [exact E|]. split; [exact C|]. unfold RefCountIsShared. rewrite C. apply Nat.ltb_lt.
Qed.

(** no node is leaked or freed twice: once at most one owner is left, destroying the count
    leaves no memory behind *)
Theorem C54_no_leak xs r : rcalls RefCountNew xs = Ok r -> RefCountIsShared r = false ->
  exists h, RefCountDestroy r = Ok h /\ forall a, dmem h a = None.
Proof.
  intros E Sh. pose proof (rcalls_spec xs new_rep) as H. cbn [map] in H. destruct (owners_run [] xs) as [os|]; [|rewrite E in H; discriminate H].
  destruct H as [r' [l [E' [[C [G [L [ND [DOM FR]]]]] _]]]]. rewrite E in E'. injection E' as <-.
  unfold RefCountIsShared in Sh. apply Nat.ltb_ge in Sh. unfold RefCountDestroy, massert. pose proof Sh as Sh'. apply Nat.leb_le in Sh'. rewrite Sh'.
  rewrite C in Sh. destruct l as [|[a v] [|]]; cbn [length] in Sh; try lia.
  - cbn in G. rewrite G. exists (nodes r). split; [reflexivity|]. intros a. destruct (dmem (nodes r) a) eqn:K; [|reflexivity]. exfalso. apply (DOM a). congruence.
  - cbn in G. destruct G as [-> [q [Ea _]]]. unfold dfree. rewrite (dload_ok _ _ Ea). cbn [bind]. eexists. split; [reflexivity|].
    intros b. destruct (Nat.eq_dec b a) as [->|N]; [apply dput_same|]. rewrite dput_other by exact N.
    destruct (dmem (nodes r) b) eqn:K; [|reflexivity]. exfalso. destruct (DOM b) as [W|[]]; [congruence|]. cbn in W. congruence.
Qed.
End P.

Example C54_ex : exists r, rcalls Nat.eqb RefCountNew [Attach 1; Attach 2; Attach 1; Detach 2; Attach 3; Detach 1] = Ok r /\ user_count r = 2 /\ RefCountIsShared r = true.
Proof. eexists. split; [reflexivity|]. split; reflexivity. Qed.

(** the count is not the number of attached owners in the sense of the name: the last owner
    cannot detach, and neither can a stranger be noticed then *)
Theorem C54_last_owner_refuted : exists r, rcalls Nat.eqb RefCountNew [Attach 1; Detach 1] = Ok r /\ user_count r = 1 /\
  RefCountDetach Nat.eqb r 5 = Ok r.
Proof. eexists. split; [reflexivity|]. split; reflexivity. Qed.
