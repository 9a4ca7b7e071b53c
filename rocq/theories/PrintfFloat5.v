(** Proofs about libcompat/snprintf.c: numbers %f cannot print, and the byte behind an infinity. *)
From Coq Require Import QArith Qabs Lqa.
From Verif Require Import Prelude PreludeFacts Str StrFacts Libc LibcFacts MemSpec PrintfModel PrintfSpec PrintfProofs PrintfProofs2 PrintfProofs3 PrintfFloat PrintfFloat2 PrintfFloat3 PrintfFloat4 PrintfProofs4.
Local Close Scope Q_scope.
Set Implicit Arguments.

(** ** The byte behind the characters *)
Lemma get_first {A} (l : list A) r i : i < length l -> aget (map Some l ++ r) i = match nth_error l i with Some x => Ok x | None => UB end.
Proof.
  intros LT. unfold aget. rewrite nth_error_app1 by (now rewrite map_length). rewrite nth_error_map. destruct (nth_error l i); reflexivity.
Qed.
Lemma get_next {A} (l : list A) c r : aget (map Some l ++ Some c :: r) (length l) = Ok c.
Proof. unfold aget. rewrite nth_error_app2 by (rewrite map_length; lia). rewrite map_length, Nat.sub_diag. reflexivity. Qed.
Section Next.
Variable chars : list byte.
Variables (c c' : byte) (r r' : cells byte).
Lemma next_strln : forall k f f' i, i + k = length chars -> k < f -> k < f' ->
  strln_loop f (map Some chars ++ Some c :: r) (Some (length chars)) i = strln_loop f' (map Some chars ++ Some c' :: r') (Some (length chars)) i.
Proof.
  induction k as [|k IH]; intros f f' i E L L'; (destruct f as [|f], f' as [|f']; try lia); cbn [strln_loop].
  - replace i with (length chars) by lia. rewrite !get_next. cbn [bind]. rewrite Nat.ltb_irrefl, !andb_false_r. reflexivity.
  - rewrite !get_first by lia. destruct (nth_error chars i); [|reflexivity]. cbn [bind]. destruct (_ && _); [|reflexivity]. apply IH; lia.
Qed.
Lemma next_loop size : forall k f f' i o, i + k = length chars -> k < f -> k < f' ->
  str_loop f size o (map Some chars ++ Some c :: r) i (Some k) = str_loop f' size o (map Some chars ++ Some c' :: r') i (Some k).
Proof.
  induction k as [|k IH]; intros f f' i o E L L'; (destruct f as [|f], f' as [|f']; try lia); cbn [str_loop].
  - replace i with (length chars) by lia. rewrite !get_next. cbn [bind]. rewrite Nat.ltb_irrefl, !andb_false_r. reflexivity.
  - rewrite !get_first by lia. destruct (nth_error chars i); [|reflexivity]. cbn [bind]. destruct (_ && _); [|reflexivity].
    destruct (OUTCHAR _ _ _); cbn [bind]; try reflexivity. rewrite Nat.sub_succ, Nat.sub_0_r. apply IH; lia.
Qed.
Lemma next_byte size o w fl :
  fmtstr size o (Some (map Some chars ++ Some c :: r)) w (Some (length chars)) fl = fmtstr size o (Some (map Some chars ++ Some c' :: r')) w (Some (length chars)) fl.
Proof.
  unfold fmtstr. rewrite (@next_strln (length chars) (S (length (map Some chars ++ Some c :: r))) (S (length (map Some chars ++ Some c' :: r'))) 0) by (rewrite ?app_length, ?map_length; lia).
  destruct (strln_loop _ _ _ _); cbn [bind]; try reflexivity. destruct (_ <? _)%Z; [reflexivity|].
  match goal with |- bind ?x _ = _ => destruct x as [o1| | |]; cbn [bind]; try reflexivity end.
  rewrite (@next_loop size (length chars) (S (length (map Some chars ++ Some c :: r))) (S (length (map Some chars ++ Some c' :: r'))) 0) by (rewrite ?app_length, ?map_length; lia).
  reflexivity.
Qed.
End Next.

(** ** Numbers from 2^64 - 1 on *)
Lemma parts_overflow q p e : (inject_Z (2 ^ 64 - 1) <= Qabs q)%Q -> float_parts q false p e = None.
Proof.
  intros LE. unfold float_parts. cbv zeta.
  assert (C : cast (if Qle_bool 0 q then q else (- q)%Q) = UINTMAX_MAX).
  { unfold cast. replace (Qle_bool (inject_Z UINTMAX_MAX) _) with true; auto. symmetry. apply Qle_bool_iff.
    change UINTMAX_MAX with (2 ^ 64 - 1)%Z. destruct (Qle_bool 0 q) eqn:B.
    - apply Qle_bool_iff in B. rewrite Qabs_pos in LE; auto.
    - apply Qleb_gt in B. rewrite Qabs_neg in LE; auto. lra. }
  rewrite C. reflexivity.
Qed.
Lemma fmtflt_overflow size o q w p fl : (inject_Z (2 ^ 64 - 1) <= Qabs q)%Q -> fmtflt size o (Finite q) w p fl STYLE_F = Ok None.
Proof. intros LE. unfold fmtflt. cbv zeta. cbn [is_G andb bind]. now rewrite parts_overflow. Qed.

Definition plain_item (i : item) : Prop := match i with Directive _ => False | _ => True end.
Section P.
Variable m0 : cells byte.
Variable size : nat.
Hypothesis SZ : size <= length m0.
Local Notation W := (W m0 size).
Local Notation at_item := (at_item m0 size).
Lemma plain_turns is : forall t a txt st st1, Forall wf_item is -> Forall plain_item is -> expands supported (length t) is a txt st1 ->
  st1 = [] /\ forall rest, exists n, n <= 8 * length (renders is) /\ goes size n (at_item t a st (renders is ++ rest)) (at_item (t ++ txt) a st rest).
Proof.
  induction is as [|i is IH]; intros t a txt st st1 WF PL E.
  - inversion E; subst. split; auto. intros rest. exists 0. split; [lia|]. rewrite !app_nil_r. apply goes_nil.
  - inversion WF as [|x y WI WF']; subst. inversion PL as [|x y PI PL']; subst. unfold renders. cbn [map concat]. change (concat (map render is)) with (renders is).
    inversion E as [|c is' a1 t1 st' E'|is' a1 t1 st' E'|d is' a1 t1 a1' st' t2 st'' AL CV E']; subst; [| |contradiction].
    + replace (length t + 1) with (length (t ++ [c])) in E' by (rewrite app_length; reflexivity).
      destruct (IH _ _ _ st st1 WF' PL' E') as (S1 & IH'). split; auto. intros rest. destruct (IH' rest) as (n & LE & G). exists (1 + n). split; [cbn [render app length]; lia|].
      eapply goes_trans; [|rewrite <- app_assoc in G; exact G]. cbn [render app]. eapply goes_turn; [reflexivity|]. unfold turn, PrintfProofs3.at_item.
      destruct WI as [WI _]. replace (beq c "%") with false by (symmetry; destruct (beq c "%") eqn:B; auto; apply beq_true in B; congruence).
      rewrite (@outchar m0 size SZ). reflexivity.
    + replace (length t + 1) with (length (t ++ ["%"%char])) in E' by (rewrite app_length; reflexivity).
      destruct (IH _ _ _ st st1 WF' PL' E') as (S1 & IH'). split; auto. intros rest. destruct (IH' rest) as (n & LE & G). exists (6 + n). split; [rewrite app_length; change (length (render Percent)) with 2; lia|].
      rewrite <- app_assoc in G. cbn [render]. change (lit "%%") with ["%"%char; "%"%char]. cbn [app].
      apply (goes_trans (n1 := 6) (@percent_turns m0 size SZ t a st (renders is ++ rest)) G).
Qed.
(** ordinary characters, then %f or %F with a number that does not fit *)
Lemma float_overflow is t a st d f q a' rest : Forall wf_item is -> Forall plain_item is -> expands supported 0 is a t st ->
  wf_item (Directive d) -> dconv d = Cf \/ dconv d = CF -> effective d a f (AFloat (is_long (dmod d)) (Finite q) :: a') -> (inject_Z (2 ^ 64 - 1) <= Qabs q)%Q ->
  rpl_vsnprintf (Some m0) size (renders is ++ render (Directive d) ++ rest) a = Ok (terminated size m0 t, -1, st)%Z.
Proof.
  intros WF PL E WD CC EFF LE. destruct (@plain_turns is [] a t [] st WF PL E) as (-> & T). destruct (T (render (Directive d) ++ rest)) as (n & LN & G). cbn [app] in G.
  unfold rpl_vsnprintf.
  assert (ST : start_vars (mkOut m0 0) (renders is ++ render (Directive d) ++ rest) a = at_item [] a [] (renders is ++ render (Directive d) ++ rest)).
  { unfold start_vars, PrintfProofs3.at_item, PrintfProofs.W. rewrite firstn_nil. cbn [length map app]. rewrite Nat.min_0_r. reflexivity. }
  rewrite ST. clear ST.
  destruct (@directive_phase size (W t) d a f (AFloat (is_long (dmod d)) (Finite q) :: a') [] rest WD EFF) as (n1 & fl & w & LN1 & G1 & _).
  assert (LEN : n + n1 + 1 <= 8 * length (renders is ++ render (Directive d) ++ rest)) by (rewrite !app_length; lia).
  replace (8 * S (length (renders is ++ render (Directive d) ++ rest))) with (n + (n1 + S (8 * S (length (renders is ++ render (Directive d) ++ rest)) - n - n1 - 1))) by lia.
  rewrite G. unfold PrintfProofs3.at_item. rewrite G1.
  assert (FC : float_case (render_conv (dconv d)) = Some (STYLE_F, is_upper (dconv d))) by (destruct CC as [-> | ->]; reflexivity).
  cbn [run v_fmt]. unfold turn. rewrite FC. unfold float_conversion. cbn [v_flags v_mod v_args v_prec v_out v_width v_stores is_G andb].
  assert (VA : va_float (mod_of (dmod d)) (AFloat (is_long (dmod d)) (Finite q) :: a') = Ok (Finite q, a')) by (destruct (dmod d); reflexivity).
  rewrite VA. cbn [bind]. rewrite fmtflt_overflow by exact LE. cbn [bind v_out v_stores orb]. rewrite (@terminate m0 size SZ). reflexivity.
Qed.
End P.
