(** Proofs about libcompat/snprintf.c: how a format is read and what a conversion writes. *)
From Verif Require Import Prelude PreludeFacts Str StrFacts Libc LibcFacts MemSpec PrintfModel PrintfSpec PrintfProofs.
Set Implicit Arguments.

Definition mod_of (m : modifier) : pmod :=
  match m with Plain => PRINT_C_NONE | HH => PRINT_C_CHAR | H => PRINT_C_SHORT | L => PRINT_C_LONG | LL => PRINT_C_LLONG
             | J => PRINT_C_INTMAX | Z_ => PRINT_C_SIZE | T => PRINT_C_PTRDIFF | LD => PRINT_C_LDOUBLE end.
Definition is_flag (c : byte) : bool := member c (lit "-+ #0'").
Definition add_flag (fl : pflags) (c : byte) : pflags :=
  if beq c "-" then set_minus fl else if beq c "+" then set_plus fl else if beq c " " then set_space fl
  else if beq c "#" then set_num fl else if beq c "0" then set_zero fl else set_quote fl.

(** [n] turns lead from [v] to [v'] *)
Definition goes (size n : nat) (v v' : vars) : Prop := forall f, run (n + f) size v = run f size v'.
Lemma goes_nil size v : goes size 0 v v.
Proof. intros f. reflexivity. Qed.
Lemma goes_trans size n1 n2 v1 v2 v3 : goes size n1 v1 v2 -> goes size n2 v2 v3 -> goes size (n1 + n2) v1 v3.
Proof. intros A B f. rewrite <- Nat.add_assoc, A, B. reflexivity. Qed.
Lemma goes_turn size v v' ch rest : v_fmt v = ch :: rest -> turn size v ch rest = Ok (Some v') -> goes size 1 v v'.
Proof. intros E T f. cbn [Nat.add run]. rewrite E, T. reflexivity. Qed.

Lemma flag_turn size o a st m fl w p c rest : In c (lit "-+ #0'") ->
  goes size 1 (mkV o a st PRINT_S_FLAGS m fl w p (c :: rest)) (mkV o a st PRINT_S_FLAGS m (add_flag fl c) w p rest).
Proof.
  intros IN. eapply goes_turn; [reflexivity|]. unfold turn, add_flag. cbn in IN. repeat (destruct IN as [<-|IN]; [reflexivity|]). contradiction.
Qed.
Lemma flags_turns size o a st m w p rest : forall l fl, Forall (fun c => In c (lit "-+ #0'")) l ->
  goes size (length l) (mkV o a st PRINT_S_FLAGS m fl w p (l ++ rest)) (mkV o a st PRINT_S_FLAGS m (fold_left add_flag l fl) w p rest).
Proof.
  induction l as [|c l IH]; intros fl F; [apply goes_nil|]. inversion F; subst. cbn [length app fold_left].
  change (S (length l)) with (1 + length l). eapply goes_trans; [apply flag_turn; auto|]. apply IH; auto.
Qed.
Lemma noflag_turn size o a st m fl w p c rest : is_flag c = false ->
  goes size 1 (mkV o a st PRINT_S_FLAGS m fl w p (c :: rest)) (mkV o a st PRINT_S_WIDTH m fl w p (c :: rest)).
Proof.
  intros E. eapply goes_turn; [reflexivity|]. unfold turn. revert E. destruct c as [[] [] [] [] [] [] [] []]; try reflexivity; discriminate.
Qed.
(** the flags that were given *)
Definition flags_are (fl : pflags) (minus plus space alt zero : bool) : Prop :=
  F_MINUS fl = minus /\ F_PLUS fl = plus /\ F_SPACE fl = space /\ F_NUM fl = alt /\ F_ZERO fl = zero /\ F_UP fl = false /\ F_UNSIGNED fl = false.
Lemma add_flags l : Forall (fun c => In c (lit "-+ #0'")) l -> forall fl, 
  let fl' := fold_left add_flag l fl in
  F_MINUS fl' = F_MINUS fl || member "-" l /\ F_PLUS fl' = F_PLUS fl || member "+" l /\ F_SPACE fl' = F_SPACE fl || member " " l /\
  F_NUM fl' = F_NUM fl || member "#" l /\ F_ZERO fl' = F_ZERO fl || member "0" l /\ F_UP fl' = F_UP fl /\ F_UNSIGNED fl' = F_UNSIGNED fl.
Proof.
  induction l as [|c l IH]; intros F fl; cbn [fold_left member existsb]; cbv zeta.
  - rewrite !orb_false_r. auto 10.
  - inversion F as [|x y IN F']; subst. specialize (IH F' (add_flag fl c)). cbv zeta in IH. destruct IH as (-> & -> & -> & -> & -> & -> & ->).
    change (existsb (fun x => beq x ?k) l) with (member k l).
    cbn in IN. unfold add_flag. repeat (destruct IN as [<-|IN]; [cbn; rewrite ?orb_true_r; auto 10|]). contradiction.
Qed.

(** ** Numbers in the format *)
Lemma digit_range c : isdigit c = true -> (0 <= digit_value c <= 9)%Z.
Proof. destruct c as [[] [] [] [] [] [] [] []]; intros E; try discriminate E; unfold digit_value; cbn; lia. Qed.
Definition number_from (n : Z) (ds : list byte) : Z := fold_left (fun n c => 10 * n + (Z.of_N (code c) - 48))%Z ds n.
Lemma number_from_mono ds : all_digits ds -> forall n, (0 <= n)%Z -> (n <= number_from n ds)%Z.
Proof.
  induction ds as [|c ds IH]; intros F n P; cbn [number_from fold_left]; [unfold number_from; cbn; lia|]. inversion F as [|x y D F']; subst.
  pose proof (digit_range _ D) as R. unfold digit_value in R. specialize (IH F' (10 * n + (Z.of_N (code c) - 48))%Z ltac:(lia)). unfold number_from in *. lia.
Qed.
Lemma number_bound c ds n : isdigit c = true -> all_digits ds -> (0 <= n)%Z -> (number_from n (c :: ds) <= INT_MAX)%Z ->
  (n >? (INT_MAX - digit_value c) / 10)%Z = false /\ (0 <= 10 * n + digit_value c)%Z.
Proof.
  intros D F P B. pose proof (digit_range _ D) as R. cbn [number_from fold_left] in B.
  pose proof (@number_from_mono ds F (10 * n + (Z.of_N (code c) - 48))%Z ltac:(unfold digit_value in R; lia)) as M. unfold number_from in M.
  change (Z.of_N (code c) - 48)%Z with (digit_value c) in *. split; [|lia]. rewrite Z.gtb_ltb. apply Z.ltb_ge. apply Z.div_le_lower_bound; lia.
Qed.
Lemma width_turns size o a st m fl p rest : forall ds n, all_digits ds -> (0 <= n)%Z -> (number_from n ds <= INT_MAX)%Z ->
  goes size (length ds) (mkV o a st PRINT_S_WIDTH m fl n p (ds ++ rest)) (mkV o a st PRINT_S_WIDTH m fl (number_from n ds) p rest).
Proof.
  induction ds as [|c ds IH]; intros n F P B; [apply goes_nil|]. inversion F as [|x y D F']; subst. destruct (number_bound _ D F' P B) as [G P'].
  cbn [length app]. change (S (length ds)) with (1 + length ds). eapply goes_trans.
  - eapply goes_turn; [reflexivity|]. unfold turn. rewrite D. cbv zeta. rewrite G. reflexivity.
  - apply IH; auto.
Qed.
Lemma prec_turns size o a st m fl w rest : forall ds n, all_digits ds -> (0 <= n)%Z -> (number_from n ds <= INT_MAX)%Z ->
  goes size (length ds) (mkV o a st PRINT_S_PRECISION m fl w n (ds ++ rest)) (mkV o a st PRINT_S_PRECISION m fl w (number_from n ds) rest).
Proof.
  induction ds as [|c ds IH]; intros n F P B; [apply goes_nil|]. inversion F as [|x y D F']; subst. destruct (number_bound _ D F' P B) as [G P'].
  cbn [length app]. change (S (length ds)) with (1 + length ds). eapply goes_trans.
  - eapply goes_turn; [reflexivity|]. unfold turn. replace (n =? -1)%Z with false by (symmetry; apply Z.eqb_neq; lia). rewrite D. cbv zeta. rewrite G. reflexivity.
  - apply IH; auto.
Qed.

(** ** The parts of a directive *)
Definition after_prec (d : directive) (rest : list byte) : list byte := render_mod (dmod d) ++ render_conv (dconv d) :: rest.
Definition after_width (d : directive) (rest : list byte) : list byte := render_prec (dprec d) ++ after_prec d rest.
Lemma after_prec_hd d rest : exists c r, after_prec d rest = c :: r /\ is_flag c = false /\ isdigit c = false /\ beq c "*" = false /\ beq c "." = false.
Proof. unfold after_prec. destruct (dmod d), (dconv d); cbn; do 2 eexists; repeat split; reflexivity. Qed.
Lemma after_width_hd d rest : exists c r, after_width d rest = c :: r /\ is_flag c = false /\ isdigit c = false /\ beq c "*" = false.
Proof.
  unfold after_width. destruct (dprec d); cbn [render_prec app lit]; [|do 2 eexists; repeat split; reflexivity..].
  destruct (after_prec_hd d rest) as (c & r & -> & A & B & C & _). eauto 10.
Qed.
Lemma mod_turn size o a st fl w p d rest :
  goes size 1 (mkV o a st PRINT_S_MOD PRINT_C_NONE fl w p (after_prec d rest)) (mkV o a st PRINT_S_CONV (mod_of (dmod d)) fl w p (render_conv (dconv d) :: rest)).
Proof.
  unfold after_prec. destruct (dmod d), (dconv d); (eapply goes_turn; [reflexivity|reflexivity]).
Qed.
Lemma prec_phase size o fl w a a' p d rest st :
  match dprec d with Precision ds => all_digits ds /\ (number ds <= INT_MAX)%Z | _ => True end ->
  match dprec d with
  | NoPrecision => a = a' /\ p = None
  | Precision ds => a = a' /\ p = Some (Z.to_nat (number ds))
  | PrecisionArg => exists z, a = AInt z :: a' /\ (- 2 ^ 31 <= z <= INT_MAX)%Z /\ p = (if (z <? 0)%Z then None else Some (Z.to_nat z))
  end ->
  exists n, n <= length (render_prec (dprec d)) + 1 /\
    goes size n (mkV o a st PRINT_S_DOT PRINT_C_NONE fl w (-1) (after_width d rest)) (mkV o a' st PRINT_S_MOD PRINT_C_NONE fl w (prec_int p) (after_prec d rest)) /\
    (-1 <= prec_int p <= INT_MAX)%Z.
Proof.
  intros WF E. destruct (after_prec_hd d rest) as (c & r & AP & _ & ND & NS & NDOT). unfold after_width. destruct (dprec d) as [|ds|].
  - destruct E as [-> ->]. exists 1. split; [cbn; lia|]. split; [|cbn; unfold INT_MAX; lia]. cbn [render_prec app prec_int]. rewrite AP.
    eapply goes_turn; [reflexivity|]. unfold turn. rewrite NDOT. reflexivity.
  - destruct E as [-> ->]. destruct WF as [F B]. exists (1 + (length ds + 1)). split; [cbn [render_prec]; rewrite app_length; change (length (lit ".")) with 1; lia|].
    assert (NN : (0 <= number ds)%Z) by (pose proof (number_from_mono F (Z.le_refl 0)); exact H).
    split; [|cbn [prec_int]; rewrite Z2Nat.id; lia]. cbn [prec_int]. rewrite Z2Nat.id by exact NN.
    eapply goes_trans; [eapply goes_turn; [reflexivity|reflexivity]|].
    eapply goes_trans with (v2 := mkV o a' st PRINT_S_PRECISION PRINT_C_NONE fl w (match ds with [] => -1 | _ => number ds end)%Z (after_prec d rest)).
    + destruct ds as [|x ds]; [apply goes_nil|]. inversion F as [|y1 y2 D F']; subst. destruct (number_bound x D F' (Z.le_refl 0) B) as [G P'].
      cbn [length app]. change (S (length ds)) with (1 + length ds). eapply goes_trans; [|apply (@prec_turns size o a' st PRINT_C_NONE fl w (after_prec d rest) ds (10 * 0 + digit_value x)%Z); auto].
      eapply goes_turn; [reflexivity|]. unfold turn. change (-1 =? -1)%Z with true. cbv iota. rewrite D. cbv zeta. rewrite G. reflexivity.
    + rewrite AP. eapply goes_turn; [reflexivity|]. unfold turn. rewrite ND, NS. destruct ds as [|x ds]; [reflexivity|].
      replace (number (x :: ds) =? -1)%Z with false by (symmetry; apply Z.eqb_neq; lia). reflexivity.
  - destruct E as (z & -> & R & ->). exists 2. split; [cbn; lia|]. split.
    + change 2 with (1 + 1). eapply goes_trans; [eapply goes_turn; [reflexivity|reflexivity]|].
      eapply goes_turn; [reflexivity|]. unfold turn. cbn [isdigit beq]. cbn [bind va_int].
      assert (S32 : signed_of 32 z = z) by (unfold signed_of, INT_MAX in *; rewrite Z.mod_small; lia). rewrite S32.
      change (isdigit "*") with false. change (beq "*" "*") with true. cbv iota.
      do 3 f_equal. destruct (Z.ltb_spec z 0); cbn [prec_int]; lia.
    + destruct (Z.ltb_spec z 0); cbn [prec_int]; unfold INT_MAX in *; lia.
Qed.
Lemma width_phase size o fl a a' neg w d rest st :
  match dwidth d with Width ds => all_digits ds /\ ds <> [] /\ hd NUL ds <> "0"%char /\ (number ds <= INT_MAX)%Z | _ => True end ->
  match dwidth d with
  | NoWidth => a = a' /\ w = 0%Z /\ neg = false
  | Width ds => a = a' /\ w = number ds /\ neg = false
  | WidthArg => exists z, a = AInt z :: a' /\ (- INT_MAX <= z <= INT_MAX)%Z /\ w = Z.abs z /\ neg = (z <? 0)%Z
  end ->
  exists n, n <= length (render_width (dwidth d)) + 2 /\
    goes size n (mkV o a st PRINT_S_FLAGS PRINT_C_NONE fl 0 (-1) (render_width (dwidth d) ++ after_width d rest))
                (mkV o a' st PRINT_S_DOT PRINT_C_NONE (if neg then set_minus fl else fl) w (-1) (after_width d rest)) /\
    (0 <= w <= INT_MAX)%Z.
Proof.
  intros WF E. destruct (after_width_hd d rest) as (c & r & AW & NF & ND & NS). destruct (dwidth d) as [|ds|]; cbn [render_width app].
  - destruct E as (-> & -> & ->). exists 2. split; [cbn; lia|]. split; [|unfold INT_MAX; lia]. rewrite AW. change 2 with (1 + 1).
    eapply goes_trans; [apply noflag_turn; auto|]. eapply goes_turn; [reflexivity|]. unfold turn. rewrite ND, NS. reflexivity.
  - destruct E as (-> & -> & ->). destruct WF as (F & NE & NZ & B). exists (1 + (length ds + 1)). split; [lia|].
    assert (NN : (0 <= number ds)%Z) by (pose proof (number_from_mono F (Z.le_refl 0)); exact H). split; [|lia].
    destruct ds as [|x ds]; [congruence|]. assert (DX : isdigit x = true) by now inversion F.
    assert (NFX : is_flag x = false) by (cbn [hd] in NZ; revert DX NZ; destruct x as [[] [] [] [] [] [] [] []]; intros DX NZ; try discriminate DX; try reflexivity; now contradiction NZ).
    eapply goes_trans; [cbn [app]; apply noflag_turn; auto|]. eapply goes_trans; [exact (@width_turns size o a' st PRINT_C_NONE fl (-1) (after_width d rest) (x :: ds) 0%Z F (Z.le_refl 0) B)|].
    rewrite AW. eapply goes_turn; [reflexivity|]. unfold turn. rewrite ND, NS. reflexivity.
  - destruct E as (z & -> & R & -> & ->). exists 2. split; [cbn; lia|]. split; [|unfold INT_MAX in *; lia]. change 2 with (1 + 1). eapply goes_trans; [apply noflag_turn; reflexivity|].
    eapply goes_turn; [reflexivity|]. unfold turn. change (isdigit "*") with false. change (beq "*" "*") with true. cbv iota. cbn [va_int bind].
    assert (S32 : signed_of 32 z = z) by (unfold signed_of, INT_MAX in *; rewrite Z.mod_small; lia). rewrite S32. cbv zeta.
    destruct (Z.ltb_spec z 0) as [C|C].
    + replace (z =? INT_MIN)%Z with false by (symmetry; apply Z.eqb_neq; unfold INT_MIN, INT_MAX in *; lia). rewrite Z.abs_neq by lia. reflexivity.
    + rewrite Z.abs_eq by lia. reflexivity.
Qed.
(** a directive up to its conversion *)
Lemma directive_phase size o d a f a3 st rest : wf_item (Directive d) -> effective d a f a3 ->
  exists n fl w, n + 1 <= 8 * length (render (Directive d)) /\
    goes size n (mkV o a st PRINT_S_DEFAULT PRINT_C_NONE no_flags 0 (-1) (render (Directive d) ++ rest))
                (mkV o a3 st PRINT_S_CONV (mod_of (dmod d)) fl w (prec_int (f_prec f)) (render_conv (dconv d) :: rest)) /\
    flags_are fl (f_minus f) (f_plus f) (f_space f) (f_alt f) (f_zero f) /\ f_width f = Z.to_nat w /\ (0 <= w <= INT_MAX)%Z /\ (-1 <= prec_int (f_prec f) <= INT_MAX)%Z.
Proof.
  intros (WF & WW & WP) [a1 neg w a2 p a3' EW EP].
  pose proof (add_flags WF no_flags) as AF. cbv zeta in AF.
  set (fl := fold_left add_flag (dflags d) no_flags) in *.
  destruct (@width_phase size o fl _ _ _ _ d rest st WW EW) as (n1 & N1 & G1 & RW).
  destruct (@prec_phase size o (if neg then set_minus fl else fl) w _ _ _ d rest st WP EP) as (n2 & N2 & G2 & RP).
  exists (1 + (length (dflags d) + (n1 + (n2 + 1)))), (if neg then set_minus fl else fl), w.
  cbn [f_prec f_minus f_plus f_space f_alt f_zero f_width].
  split; [cbn [render]; rewrite !app_length; change (length (lit "%")) with 1; cbn [length]; lia|]. split.
  - cbn [render]. change (lit "%") with ["%"%char]. cbn [app]. rewrite <- !app_assoc. cbn [app].
    eapply goes_trans; [eapply goes_turn; [reflexivity|reflexivity]|].
    eapply goes_trans; [|eapply goes_trans; [exact G1|eapply goes_trans; [exact G2|apply mod_turn]]].
    pose proof (@flags_turns size o a1 st PRINT_C_NONE 0 (-1) (render_width (dwidth d) ++ after_width d rest) (dflags d) no_flags WF) as G.
    unfold after_width, after_prec in G |- *. exact G.
  - split; [|split; [reflexivity|split; auto]]. unfold flags_are. cbn [no_flags F_MINUS F_PLUS F_SPACE F_NUM F_ZERO F_UP F_UNSIGNED orb] in AF.
    destruct AF as (A1 & A2 & A3 & A4 & A5 & A6 & A7).
    destruct neg; cbn [set_minus F_MINUS F_PLUS F_SPACE F_NUM F_ZERO F_UP F_UNSIGNED]; rewrite ?A1, ?A2, ?A3, ?A4, ?A5, ?A6, ?A7, ?orb_true_r, ?orb_false_r; auto 10.
Qed.
