(** Proofs about libcompat/snprintf.c: whole formats. *)
From Verif Require Import Prelude PreludeFacts Str StrFacts Libc LibcFacts MemSpec PrintfModel PrintfSpec PrintfProofs PrintfProofs2 PrintfProofs3 PrintfFloat4.
Set Implicit Arguments.

Lemma effective_fun d a f1 r1 f2 r2 : effective d a f1 r1 -> effective d a f2 r2 -> f1 = f2 /\ r1 = r2.
Proof.
  intros [a1 neg w a2 p a3 W1 P1] E. inversion E as [a1' neg' w' a2' p' a3' W2 P2]; subst.
  assert (A : a2 = a2' /\ w = w' /\ neg = neg').
  { destruct (dwidth d).
    - destruct W1 as (-> & -> & ->), W2 as (-> & -> & ->). auto.
    - destruct W1 as (-> & -> & ->), W2 as (-> & -> & ->). auto.
    - destruct W1 as (z & E1 & _ & -> & ->), W2 as (z' & E2 & _ & -> & ->). rewrite E2 in E1. injection E1 as -> ->. auto. }
  destruct A as (-> & -> & ->).
  assert (B : a3 = r2 /\ p = p').
  { destruct (dprec d).
    - destruct P1 as (-> & ->), P2 as (-> & ->). auto.
    - destruct P1 as (-> & ->), P2 as (-> & ->). auto.
    - destruct P1 as (z & E1 & _ & ->), P2 as (z' & E2 & _ & ->). rewrite E2 in E1. injection E1 as -> ->. auto. }
  destruct B as (-> & ->). auto.
Qed.
Lemma converts_effective d n a t a' st : converts d n a t a' st -> exists f x, effective d a f (x :: a').
Proof. intros [ ]; eauto. Qed.

Section P.
Variable m0 : cells byte.
Variable size : nat.
Hypothesis SZ : size <= length m0.
Local Notation W := (W m0 size).
Local Notation at_item := (at_item m0 size).

Lemma directive_turns d a txt a' st1 rest t st : wf_item (Directive d) -> supported d a -> converts d (length t) a txt a' st1 ->
  exists n, n <= 8 * length (render (Directive d)) /\ goes size n (at_item t a st (render (Directive d) ++ rest)) (at_item (t ++ txt) a' (st ++ st1) rest).
Proof.
  intros WF SUP CV. destruct (converts_effective CV) as (f & x & EFF).
  destruct (@directive_phase size (W t) d a f (x :: a') st rest WF EFF) as (n & fl & w & LE & G & FL & FW & RW & RP).
  exists (n + 1). split; [exact LE|]. eapply goes_trans; [exact G|]. eapply goes_turn; [reflexivity|]. unfold turn.
  pose proof (@any_conversion_spec m0 size SZ d a (x :: a') f w fl t st txt a' st1 rest) as AC. cbv zeta in AC. rewrite AC; auto.
  intros f0 x0 a0 E0. destruct (effective_fun EFF E0) as [-> E]. auto.
Qed.
Lemma percent_turns t a st rest : goes size 6 (at_item t a st ("%"%char :: "%"%char :: rest)) (at_item (t ++ ["%"%char]) a st rest).
Proof.
  pose (v := fun s fmt => mkV (W t) a st s PRINT_C_NONE no_flags 0%Z (-1)%Z fmt).
  assert (G1 : goes size 1 (v PRINT_S_DEFAULT ("%"%char :: "%"%char :: rest)) (v PRINT_S_FLAGS ("%"%char :: rest))) by (eapply goes_turn; reflexivity).
  assert (G2 : goes size 1 (v PRINT_S_FLAGS ("%"%char :: rest)) (v PRINT_S_WIDTH ("%"%char :: rest))) by (eapply goes_turn; reflexivity).
  assert (G3 : goes size 1 (v PRINT_S_WIDTH ("%"%char :: rest)) (v PRINT_S_DOT ("%"%char :: rest))) by (eapply goes_turn; reflexivity).
  assert (G4 : goes size 1 (v PRINT_S_DOT ("%"%char :: rest)) (v PRINT_S_MOD ("%"%char :: rest))) by (eapply goes_turn; reflexivity).
  assert (G5 : goes size 1 (v PRINT_S_MOD ("%"%char :: rest)) (v PRINT_S_CONV ("%"%char :: rest))) by (eapply goes_turn; reflexivity).
  assert (C : conversion size (v PRINT_S_CONV ("%"%char :: rest)) "%" = Ok (W (t ++ ["%"%char]), a, st)).
  { transitivity (let* o := OUTCHAR size (W t) "%"%char in Ok (o, a, st)); [reflexivity|]. rewrite (@outchar m0 size SZ). reflexivity. }
  assert (G6 : goes size 1 (v PRINT_S_CONV ("%"%char :: rest)) (at_item (t ++ ["%"%char]) a st rest)).
  { eapply goes_turn; [reflexivity|]. unfold turn. fold (v PRINT_S_CONV ("%"%char :: rest)). cbv beta in C. subst v. cbv beta in *. change (float_case "%") with (@None (fstyle * bool)). cbv iota. rewrite C. reflexivity. }
  exact (goes_trans G1 (goes_trans G2 (goes_trans G3 (goes_trans G4 (goes_trans G5 G6))))).
Qed.
Lemma items_turns is : forall t a txt st st1, Forall wf_item is -> expands supported (length t) is a txt st1 ->
  forall rest, exists n a', n <= 8 * length (renders is) /\ goes size n (at_item t a st (renders is ++ rest)) (at_item (t ++ txt) a' (st ++ st1) rest).
Proof.
  induction is as [|i is IH]; intros t a txt st st1 WF E rest.
  - inversion E; subst. exists 0, a. split; [lia|]. rewrite !app_nil_r. apply goes_nil.
  - inversion WF as [|x y WI WF']; subst. unfold renders. cbn [map concat]. change (concat (map render is)) with (renders is).
    inversion E as [|c is' a1 t1 st' E'|is' a1 t1 st' E'|d is' a1 t1 a1' st' t2 st'' AL CV E']; subst.
    + replace (length t + 1) with (length (t ++ [c])) in E' by (rewrite app_length; reflexivity).
      destruct (IH _ _ _ st st1 WF' E' rest) as (n & a' & LE & G). exists (1 + n), a'. split; [cbn [render app length]; lia|].
      eapply goes_trans; [|rewrite <- app_assoc in G; exact G]. cbn [render app]. eapply goes_turn; [reflexivity|]. unfold turn, PrintfProofs3.at_item.
      destruct WI as [WI _]. replace (beq c "%") with false by (symmetry; destruct (beq c "%") eqn:B; auto; apply beq_true in B; congruence).
      rewrite (@outchar m0 size SZ). reflexivity.
    + replace (length t + 1) with (length (t ++ ["%"%char])) in E' by (rewrite app_length; reflexivity).
      destruct (IH _ _ _ st st1 WF' E' rest) as (n & a' & LE & G). exists (6 + n), a'. split; [rewrite app_length; change (length (render Percent)) with 2; lia|].
      rewrite <- app_assoc in G. cbn [render]. change (lit "%%") with ["%"%char; "%"%char]. cbn [app].
      apply (goes_trans (n1 := 6) (@percent_turns t a st (renders is ++ rest)) G).
    + rewrite <- app_length in E'. destruct (IH _ _ _ (st ++ st') st'' WF' E' rest) as (n & a' & LE & G).
      rewrite <- !app_assoc in G.
      destruct (@directive_turns d a t1 a1' st' (renders is ++ rest) t st WI AL CV) as (n1 & LE1 & G1).
      exists (n1 + n), a'. split; [rewrite app_length; lia|]. rewrite <- app_assoc. eapply goes_trans; [exact G1|exact G].
Qed.

Lemma terminate t :
  (if len (W t) <? size then aset (str (W t)) (len (W t)) NUL else if 0 <? size then aset (str (W t)) (size - 1) NUL else Ok (str (W t))) = Ok (terminated size m0 t).
Proof.
  cbn [W len str]. unfold terminated. destruct size as [|n] eqn:ES.
  - cbn. reflexivity.
  - assert (E : exists k, Nat.min n (length t) = k /\ length (firstn n t) = k /\ k < length m0).
    { exists (Nat.min n (length t)). rewrite firstn_length. repeat split; lia. }
    destruct E as (k & K1 & K2 & K3). replace (S n - 1) with n by lia. rewrite K1.
    destruct (skipn k m0) as [|x r] eqn:SK.
    { apply (f_equal (@length _)) in SK. rewrite skipn_length in SK. cbn [length] in SK. lia. }
    assert (SK1 : skipn (k + 1) m0 = r).
    { rewrite Nat.add_comm, <- skipn_skipn, SK. reflexivity. }
    rewrite SK1.
    destruct (Nat.ltb_spec (length t) (S n)) as [C|C].
    + replace (length t) with (length (firstn n t)) by (rewrite firstn_length; lia). apply set_at.
    + cbn [Nat.ltb Nat.leb]. replace n with (length (firstn n t)) at 2 by (rewrite firstn_length; lia). apply set_at.
Qed.
Lemma vsnprintf_run is t a st : Forall wf_item is -> expands supported 0 is a t st ->
  rpl_vsnprintf (Some m0) size (renders is) a =
  Ok (terminated size m0 t, (if INT_MAX <=? Z.of_nat (length t) then -1 else Z.of_nat (length t))%Z, st).
Proof.
  intros WF E. destruct (@items_turns is [] a t [] st WF E []) as (n & a' & LE & G). rewrite app_nil_r in G. cbn [app] in G.
  unfold rpl_vsnprintf.
  assert (ST : start_vars (mkOut m0 0) (renders is) a = at_item [] a [] (renders is)).
  { unfold start_vars, PrintfProofs3.at_item, PrintfProofs.W. rewrite firstn_nil. cbn [length map app]. rewrite Nat.min_0_r. reflexivity. }
  rewrite ST. replace (8 * S (length (renders is))) with (n + S (7 + (8 * length (renders is) - n))) by lia. rewrite G.
  cbn [run at_item PrintfProofs3.at_item v_fmt bind v_out v_stores orb]. rewrite terminate. cbn [bind]. reflexivity.
Qed.
End P.
