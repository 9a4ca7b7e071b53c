(** Proofs about libcompat/snprintf.c: any format, any arguments. *)
From Coq Require Import QArith Lqa.
From Verif Require Import Prelude PreludeFacts Str StrFacts Libc LibcFacts MemSpec PrintfModel PrintfSpec PrintfProofs PrintfProofs2 PrintfProofs3 PrintfProofs4 PrintfFloat PrintfFloat2.
Local Close Scope Q_scope.
Set Implicit Arguments.

Ltac binv H :=
  match type of H with
  | bind ?x _ = Ok _ => let E := fresh "E" in destruct x eqn:E; [|discriminate H..]; cbn [bind] in H
  end.
Ltac okinv H := injection H as H; subst.

Lemma upd_skipn {A} (l : list A) i x k : i < k -> skipn k (upd l i x) = skipn k l.
Proof. revert i k. induction l as [|y l IH]; intros i k LT; [destruct i; reflexivity|]. destruct i as [|i], k as [|k]; try lia; cbn; auto. apply IH. lia. Qed.
Section P.
Variable m0 : cells byte.
Variable size : nat.
(** only the bytes before the last of the [size] bytes have been changed *)
Definition within (o : out) : Prop := length (str o) = length m0 /\ skipn (size - 1) (str o) = skipn (size - 1) m0.
(** a computation keeps inside, if it is defined; it always comes to an end *)
Definition keeps (x : res out) : Prop := x <> Fuel /\ forall o, x = Ok o -> within o.
Definition ends {A} (x : res A) : Prop := x <> Fuel.

Lemma outchar_keeps o c : within o -> keeps (OUTCHAR size o c).
Proof.
  intros [L S]. unfold OUTCHAR, keeps. destruct (Nat.ltb_spec (len o + 1) size) as [C|C].
  - unfold aset. destruct (Nat.ltb_spec (len o) (length (str o))) as [D|D]; cbn [bind].
    + split; [discriminate|]. intros o' E. okinv E. split; cbn [str]; [now rewrite length_upd|]. rewrite upd_skipn by lia. exact S.
    + split; [discriminate|]. intros o' E. discriminate.
  - cbn [bind]. split; [discriminate|]. intros o' E. okinv E. split; auto.
Qed.
Lemma bind_keeps x f : keeps x -> (forall o, within o -> keeps (f o)) -> keeps (bind x f).
Proof.
  intros [N K] F. destruct x as [o| | |]; cbn [bind]; try (split; [discriminate|intros; discriminate]); [apply F; auto|congruence].
Qed.
Lemma ok_keeps o : within o -> keeps (Ok o).
Proof. intros I. split; [discriminate|]. intros o' E. okinv E. auto. Qed.
Lemma ub_keeps : keeps UB.
Proof. split; discriminate. Qed.
Lemma out_n_keeps n c : forall o, within o -> keeps (out_n size n o c).
Proof. induction n as [|n IH]; intros o I; cbn [out_n]; [now apply ok_keeps|]. apply bind_keeps; auto using outchar_keeps. Qed.
Lemma pre_keeps {A} (x : res A) f : ends x -> (forall y, x = Ok y -> keeps (f y)) -> keeps (bind x f).
Proof. intros N F. destruct x as [y| | |]; cbn [bind]; try (split; [discriminate|intros; discriminate]); [apply F; auto|congruence]. Qed.
Lemma aget_ends {A} (m : cells A) i : ends (aget m i).
Proof. unfold ends, aget. destruct (nth_error m i) as [[x|]|]; discriminate. Qed.
Lemma aset_ends {A} (m : cells A) i x : ends (aset m i x).
Proof. unfold ends, aset. destruct (_ <? _); discriminate. Qed.
Lemma chr_ends s i : ends (chr s i).
Proof. unfold ends, chr. destruct (nth_error _ i); discriminate. Qed.
Lemma bind_ends {A B} (x : res A) (f : A -> res B) : ends x -> (forall y, x = Ok y -> ends (f y)) -> ends (bind x f).
Proof. intros N F. destruct x as [y| | |]; cbn [bind]; try discriminate; [apply F; auto|congruence]. Qed.
Lemma aget_lt {A} (m : cells A) i x : aget m i = Ok x -> i < length m.
Proof. unfold aget. destruct (nth_error m i) eqn:E; [|discriminate]. intros _. apply nth_error_Some. congruence. Qed.

Lemma strln_ends value p : forall f i, length value < i + f -> i <= length value -> ends (strln_loop f value p i).
Proof.
  induction f as [|f IH]; intros i LT LE; [lia|]. cbn [strln_loop]. apply bind_ends; [apply aget_ends|]. intros c E. apply aget_lt in E.
  destruct (_ && _); [|discriminate]. apply IH; lia.
Qed.
Lemma str_loop_keeps value : forall f i p o, length value < i + f -> i <= length value -> within o -> keeps (str_loop f size o value i p).
Proof.
  induction f as [|f IH]; intros i p o LT LE I; [lia|]. cbn [str_loop]. apply pre_keeps; [apply aget_ends|]. intros c E. apply aget_lt in E.
  destruct (_ && _); [|now apply ok_keeps]. apply bind_keeps; [now apply outchar_keeps|]. intros o' I'. apply IH; auto; lia.
Qed.
Lemma fmtstr_keeps o v w p fl : within o -> keeps (fmtstr size o v w p fl).
Proof.
  intros I. unfold fmtstr. cbv zeta. apply pre_keeps; [apply strln_ends; lia|]. intros n _. destruct (_ <? _)%Z; [apply ub_keeps|].
  apply bind_keeps; [destruct (F_MINUS fl); [now apply ok_keeps|now apply out_n_keeps]|]. intros o1 I1.
  apply bind_keeps; [apply str_loop_keeps; auto; lia|]. intros o2 I2. destruct (F_MINUS fl); [now apply out_n_keeps|now apply ok_keeps].
Qed.
Lemma convert_ends b ds sz : forall f v buf pos, sz <= pos + f -> pos < sz -> ends (convert_loop f v buf sz b ds pos).
Proof.
  induction f as [|f IH]; intros v buf pos LE LT; [lia|]. cbn [convert_loop]. apply bind_ends; [apply chr_ends|]. intros d _.
  apply bind_ends; [apply aset_ends|]. intros buf' _. cbv zeta. destruct (_ =? _)%Z; cbn [negb andb]; [discriminate|].
  destruct (Nat.ltb_spec (S pos) sz); [|discriminate]. apply IH; lia.
Qed.
Lemma digits_out_keeps buf : forall pos o, within o -> keeps (digits_out size o buf pos).
Proof.
  induction pos as [|pos IH]; intros o I; cbn [digits_out]; [now apply ok_keeps|]. apply pre_keeps; [apply aget_ends|]. intros c _.
  apply bind_keeps; [now apply outchar_keeps|]. intros o' I'. now apply IH.
Qed.
Lemma int_sub_ends a b : ends (int_sub a b).
Proof. unfold ends, int_sub. destruct (_ <? _)%Z; discriminate. Qed.
Lemma fmtint_keeps o v b w p fl : within o -> keeps (fmtint size o v b w p fl).
Proof.
  intros I. unfold fmtint. cbv zeta. apply pre_keeps.
  { unfold ends. destruct (F_UNSIGNED fl); [discriminate|]. destruct (0 <=? v)%Z; cbn [bind]; [discriminate|]. destruct (v =? _)%Z; discriminate. }
  intros [u sign] _. apply pre_keeps; [unfold convert; apply convert_ends; unfold MAX_CONVERT_LENGTH; lia|]. intros [buf pos] _.
  do 3 (apply pre_keeps; [apply int_sub_ends|]; intros ? _).
  match goal with |- keeps (let '(_, _) := ?x in _) => destruct x as [lead zp] end.
  apply bind_keeps; [now apply out_n_keeps|]. intros o1 I1.
  apply bind_keeps; [destruct sign; [now apply outchar_keeps|now apply ok_keeps]|]. intros o2 I2.
  apply bind_keeps; [match goal with |- keeps (match ?x with Some _ => _ | None => _ end) => destruct x end; [apply bind_keeps; [now apply outchar_keeps|]; intros; now apply outchar_keeps|now apply ok_keeps]|]. intros o3 I3.
  apply bind_keeps; [now apply out_n_keeps|]. intros o4 I4.
  apply bind_keeps; [now apply digits_out_keeps|]. intros o5 I5. now apply out_n_keeps.
Qed.

(** ** Floating point *)
Lemma down_ends : forall f tmp e, (Z.of_nat f >= e + 100)%Z -> (-99 < e)%Z -> ends (exponent_down f tmp e).
Proof.
  induction f as [|f IH]; intros tmp e LE LT; [lia|]. cbn [exponent_down]. destruct (_ && _); [|discriminate]. cbv zeta.
  destruct (e - 1 >? -99)%Z eqn:G; [|discriminate]. rewrite Z.gtb_ltb in G. apply Z.ltb_lt in G. apply IH; lia.
Qed.
Lemma down_small : forall f t1 e1 t2 e2, exponent_down f t1 e1 = Ok (t2, e2) -> (t2 = t1 /\ e2 = e1) \/ (t2 < 10)%Q.
Proof.
  induction f as [|f IH]; intros t1 e1 t2 e2 H; [discriminate|]. cbn [exponent_down] in H. destruct (Qltb t1 1 && Qltb 0 t1) eqn:B; [|injection H as <- <-; auto].
  apply andb_true_iff in B as [B _]. apply Qltb_lt in B. cbv zeta in H. right.
  destruct (_ >? _)%Z; [|injection H as <- <-; lra]. apply IH in H as [[-> _]|H]; [lra|exact H].
Qed.
Lemma up_ends : forall f tmp e, (e + Z.of_nat f >= 99)%Z -> 0 < f -> ends (exponent_up f tmp e).
Proof.
  induction f as [|f IH]; intros tmp e LE P; [lia|]. cbn [exponent_up]. destruct (Qle_bool 10 tmp); [|discriminate]. cbv zeta.
  destruct (Z.ltb_spec (e + 1) 99); [|discriminate]. apply IH; lia.
Qed.
Lemma getexponent_ends q : ends (getexponent q).
Proof.
  unfold getexponent. cbv zeta. apply bind_ends; [apply down_ends; lia|]. intros [tmp e] E. apply down_small in E as [[_ ->]|L].
  - apply up_ends; lia.
  - change 100 with (S 99). rewrite up_small by exact L. discriminate.
Qed.
Lemma exponent_chars_ends e up : ends (exponent_chars e up).
Proof.
  unfold exponent_chars. destruct (e <? 0)%Z; (apply bind_ends; [apply convert_ends; lia|]); intros [b p] _;
  (apply bind_ends; [destruct (p =? 1); [apply bind_ends; [apply aset_ends|discriminate]|discriminate]|]); intros [b' p'] _;
  (apply bind_ends; [apply aset_ends|]); intros b1 _; (apply bind_ends; [apply aset_ends|]); discriminate.
Qed.
Lemma omit_ends buf fpos : forall f i, fpos < i + f -> i <= fpos -> ends (omit_loop f buf fpos i).
Proof.
  induction f as [|f IH]; intros i LT LE; [lia|]. cbn [omit_loop]. destruct (Nat.ltb_spec i fpos); [|discriminate]. apply bind_ends; [apply aget_ends|]. intros c _.
  destruct (beq c "0"); [apply IH; lia|discriminate].
Qed.
Lemma frac_keeps buf k : forall pos o, within o -> keeps (frac_out size o buf pos k).
Proof.
  induction pos as [|pos IH]; intros o I; cbn [frac_out]; [now apply ok_keeps|]. destruct (_ <? _); [|now apply ok_keeps]. apply pre_keeps; [apply aget_ends|]. intros c _.
  apply bind_keeps; [now apply outchar_keeps|]. intros o' I'. now apply IH.
Qed.
Lemma char_keeps o c : within o -> keeps (char_out size o c).
Proof. intros I. destruct c; [now apply outchar_keeps|now apply ok_keeps]. Qed.
Lemma float_out_keeps o sign w fl es oz p ip fp e : within o -> keeps (float_out size o sign w fl es oz p ip fp e).
Proof.
  intros I. unfold float_out.
  apply pre_keeps; [destruct es; [apply exponent_chars_ends|discriminate]|]. intros [eb ep] _.
  apply pre_keeps; [unfold convert; apply convert_ends; unfold MAX_CONVERT_LENGTH; lia|]. intros [ib ipos] _.
  apply pre_keeps; [destruct (negb _); [unfold convert; apply convert_ends; unfold MAX_CONVERT_LENGTH; lia|discriminate]|]. intros [fb fpos] _. cbv zeta.
  apply pre_keeps. { destruct oz; [|discriminate]. destruct (0 <? fpos); [|discriminate]. apply bind_ends; [apply omit_ends; lia|discriminate]. }
  intros [oc lz] _.
  repeat (match goal with |- context [if (?x <? 0)%Z then 0%Z else ?x] => set (pad := if (x <? 0)%Z then 0%Z else x); clearbody pad end).
  match goal with |- context [if ?z then (let* o := char_out _ _ _ in _) else _] => destruct z end;
  repeat first [apply bind_keeps; [|let o' := fresh "o" in let I' := fresh "I" in intros o' I']
    | match goal with |- keeps (if ?c then _ else _) => destruct c end
    | now apply ok_keeps | now apply char_keeps | now apply out_n_keeps | now apply digits_out_keeps | now apply frac_keeps].
Qed.
Definition keeps_opt (x : res (option out)) : Prop := x <> Fuel /\ forall o, x = Ok (Some o) -> within o.
Lemma ko_some x : keeps x -> keeps_opt (let* o := x in Ok (Some o)).
Proof. intros [N K]. destruct x as [o| | |]; cbn [bind]; (split; [congruence|]); intros o' E; try discriminate. injection E as <-. auto. Qed.
Lemma ko_none : keeps_opt (Ok None).
Proof. split; discriminate. Qed.
Lemma ko_pre {A} (x : res A) f : ends x -> (forall y, keeps_opt (f y)) -> keeps_opt (bind x f).
Proof. intros N F. destruct x as [y| | |]; cbn [bind]; try (split; [discriminate|intros; discriminate]); [apply F; auto|congruence]. Qed.
Lemma fmtflt_keeps o v w p fl s : within o -> keeps_opt (fmtflt size o v w p fl s).
Proof.
  intros I. unfold fmtflt. cbv zeta.
  destruct v as [q| |n|].
  1,2: apply ko_pre; [destruct s; [discriminate|apply getexponent_ends..]|]; intros e;
    destruct (float_parts _ _ _ _) as [[[[p1 i1] f1] e1]|]; [|apply ko_none];
    (destruct (is_G s && _ && _); [|apply ko_some; now apply float_out_keeps]);
    (destruct (float_parts _ _ _ _) as [[[[p2 i2] f2] e2]|]; [|apply ko_none]); apply ko_some; now apply float_out_keeps.
  all: apply ko_some; now apply fmtstr_keeps.
Qed.
(** the same for pairs *)
Definition keeps3 (x : res (out * list arg * list Z)) : Prop := x <> Fuel /\ forall o a st, x = Ok (o, a, st) -> within o.
Lemma k3_bind x (a : list arg) (st : list Z) : keeps x -> keeps3 (let* o := x in Ok (o, a, st)).
Proof. intros [N K]. destruct x as [o| | |]; cbn [bind]; (split; [congruence|]); intros o' a' st' E; try discriminate. injection E as <- <- <-. auto. Qed.
Lemma k3_pre {A} (x : res A) f : ends x -> (forall y, keeps3 (f y)) -> keeps3 (bind x f).
Proof. intros N F. destruct x as [y| | |]; cbn [bind]; try (split; [discriminate|intros; discriminate]); [apply F; auto|congruence]. Qed.
Lemma va_ends a : ends (va_int a) /\ ends (va_long a) /\ ends (va_str a) /\ ends (va_ptr a) /\ ends (va_out a).
Proof. unfold ends. destruct a as [|[] a]; repeat split; discriminate. Qed.
Lemma signed_ends m a : ends (signed_value m a) /\ ends (unsigned_value m a).
Proof. unfold ends. destruct a as [|[] a], m; split; discriminate. Qed.
Lemma conversion_keeps v ch : within (v_out v) -> keeps3 (conversion size v ch).
Proof.
  intros I. destruct (va_ends (v_args v)) as (V1 & V2 & V3 & V4 & V5). unfold conversion. cbv zeta.
  assert (UN : forall base fl, keeps3 (let* ' (value, a) := unsigned_value (v_mod v) (v_args v) in
     let* o := fmtint size (v_out v) value base (v_width v) (v_prec v) (set_unsigned fl) in Ok (o, a, v_stores v))).
  { intros b fl. apply k3_pre; [apply signed_ends|]. intros [z a]. apply k3_bind. now apply fmtint_keeps. }
  destruct (_ || _). { apply k3_pre; [apply signed_ends|]. intros [z a]. apply k3_bind. now apply fmtint_keeps. }
  destruct (beq ch "X"); [apply UN|]. destruct (beq ch "x"); [apply UN|]. destruct (beq ch "o"); [apply UN|]. destruct (beq ch "u"); [apply UN|].
  destruct (beq ch "c"). { apply k3_pre; auto. intros [z a]. apply k3_bind. now apply outchar_keeps. }
  destruct (beq ch "s"). { apply k3_pre; auto. intros [z a]. apply k3_bind. now apply fmtstr_keeps. }
  destruct (beq ch "p"). { apply k3_pre; auto. intros [z a]. apply k3_bind. destruct (z =? 0)%Z; [now apply fmtstr_keeps|now apply fmtint_keeps]. }
  destruct (beq ch "n"). { apply k3_pre; auto. intros a. split; [discriminate|]. intros o a' st E. injection E as <- <- <-. auto. }
  destruct (beq ch "%"). { apply k3_bind. now apply outchar_keeps. }
  split; [discriminate|]. intros o a' st E. injection E as <- <- <-. auto.
Qed.

Lemma float_conversion_keeps v s up : within (v_out v) -> float_conversion size v s up <> Fuel /\ forall o a st, float_conversion size v s up = Ok (Some (o, a, st)) -> within o.
Proof.
  intros I. unfold float_conversion. cbv zeta.
  assert (V : ends (va_float (v_mod v) (v_args v))). { unfold ends, va_float. destruct (v_args v) as [|[] ?]; try discriminate. destruct (Bool.eqb _ _); discriminate. }
  destruct (va_float _ _) as [[x a]| | |]; cbn [bind]; try (split; [discriminate|intros; discriminate]); [|now contradiction V].
  match goal with |- context [fmtflt size ?o ?x ?w ?p ?fl ?s] => destruct (@fmtflt_keeps o x w p fl s I) as [N K]; destruct (fmtflt size o x w p fl s) as [[o'|]| | |] end;
    cbn [bind]; (split; [congruence|]); intros o1 a1 st E; try discriminate. injection E as <- <- <-. auto.
Qed.

(** ** The loop: a measure *)
Definition rank (s : pstate) : nat :=
  match s with PRINT_S_FLAGS => 5 | PRINT_S_WIDTH => 4 | PRINT_S_DOT => 3 | PRINT_S_PRECISION => 2 | PRINT_S_MOD => 1 | _ => 0 end.
Definition measure (v : vars) : nat := 8 * length (v_fmt v) + rank (v_state v).
Definition good_turn (v : vars) (x : res (option vars)) : Prop :=
  x <> Fuel /\ forall v', x = Ok (Some v') -> within (v_out v') /\ measure v' < measure v.
Lemma good_ok v v' : within (v_out v') -> measure v' < measure v -> good_turn v (Ok (Some v')).
Proof. intros A B. split; [discriminate|]. intros v1 E. injection E as <-. auto. Qed.
Lemma good_none v : good_turn v (Ok None).
Proof. split; discriminate. Qed.
Lemma turn_good v ch rest : within (v_out v) -> v_fmt v = ch :: rest -> good_turn v (turn size v ch rest).
Proof.
  intros I FM. destruct v as [o a st s m fl w p fmt]. cbn [v_out v_fmt] in *. subst fmt. unfold turn.
  assert (ME : forall s' m' fl' a' st' w' p' fmt', 8 * length fmt' + rank s' < 8 * S (length rest) + rank s ->
     forall o', within o' -> good_turn (mkV o a st s m fl w p (ch :: rest)) (Ok (Some (mkV o' a' st' s' m' fl' w' p' fmt')))).
  { intros. apply good_ok; auto. }
  destruct s; cbn [rank] in ME.
  - destruct (beq ch "%"); [apply ME; auto; cbn; lia|].
    destruct (outchar_keeps ch I) as [N K]. destruct (OUTCHAR size o ch) as [o'| | |]; cbn [bind]; [|split; discriminate..|congruence]. apply ME; auto; cbn; lia.
  - repeat (match goal with |- context [if ?c then _ else _] => destruct c end; [apply ME; auto; cbn; lia|]). apply ME; auto; cbn; lia.
  - destruct (isdigit ch).
    { cbv zeta. destruct (_ >? _)%Z; [apply good_none|apply ME; auto; cbn; lia]. }
    destruct (beq ch "*"); [|apply ME; auto; cbn; lia].
    destruct (va_ends a) as (N & _). destruct (va_int a) as [[z a']| | |]; cbn [bind]; [|split; discriminate..|congruence]. cbv zeta.
    destruct (_ <? _)%Z; [destruct (_ =? _)%Z; [split; discriminate|]|]; apply ME; auto; cbn; lia.
  - destruct (beq ch "."); apply ME; auto; cbn; lia.
  - cbv zeta. destruct (isdigit ch).
    { destruct (_ >? _)%Z; [apply good_none|apply ME; auto; cbn; lia]. }
    destruct (beq ch "*"); [|apply ME; auto; cbn; lia].
    destruct (va_ends a) as (N & _). destruct (va_int a) as [[z a']| | |]; cbn [bind]; [|split; discriminate..|congruence]. apply ME; auto; cbn; lia.
  - cbv zeta. 
    assert (NX : forall m' r', length r' <= length rest -> good_turn (mkV o a st PRINT_S_MOD m fl w p (ch :: rest)) (Ok (Some (mkV o a st PRINT_S_CONV m' fl w p r')))).
    { intros m' r' LE. apply ME; auto. cbn. lia. }
    destruct (beq ch "h").
    { destruct rest as [|c r]; [apply NX; cbn; lia|]. destruct c as [[] [] [] [] [] [] [] []]; apply NX; cbn; lia. }
    destruct (beq ch "l").
    { destruct rest as [|c r]; [apply NX; cbn; lia|]. destruct c as [[] [] [] [] [] [] [] []]; apply NX; cbn; lia. }
    repeat (match goal with |- context [if ?c then _ else _] => destruct c end; [apply NX; lia|]). apply ME; auto; cbn; lia.
  - destruct (float_case ch) as [[style up]|].
    { destruct (@float_conversion_keeps (mkV o a st PRINT_S_CONV m fl w p (ch :: rest)) style up I) as [N K].
      destruct (float_conversion _ _ _ _) as [[[[o' a'] st']|]| | |]; cbn [bind]; [apply ME; [cbn; lia|eauto]|apply good_none|split; discriminate..|congruence]. }
    destruct (@conversion_keeps (mkV o a st PRINT_S_CONV m fl w p (ch :: rest)) ch I) as [N K].
    destruct (conversion _ _ _) as [[[o' a'] st']| | |]; cbn [bind]; [|split; discriminate..|congruence]. apply ME; [cbn; lia|eauto].
Qed.
Lemma run_good : forall f v, within (v_out v) -> measure v < f ->
  run f size v <> Fuel /\ forall v' b, run f size v = Ok (v', b) -> within (v_out v').
Proof.
  induction f as [|f IH]; intros v I LT; [lia|]. cbn [run]. destruct (v_fmt v) as [|ch rest] eqn:FM.
  - split; [discriminate|]. intros v' b E. injection E as <- <-. auto.
  - destruct (turn_good v I FM) as [N K]. destruct (turn size v ch rest) as [[v1|]| | |] eqn:TT; cbn [bind]; try (split; discriminate); [|split; [discriminate|]|congruence].
    + destruct (K v1 eq_refl) as [I1 M1]. apply IH; auto. lia.
    + intros v' b E. injection E as <- <-. auto.
Qed.
End P.

(** any format, any arguments *)
Lemma vsnprintf_safe m size format args : size <= length m ->
  rpl_vsnprintf (Some m) size format args <> Fuel /\
  forall m' r st, rpl_vsnprintf (Some m) size format args = Ok (m', r, st) ->
    length m' = length m /\ skipn size m' = skipn size m /\ (0 < size -> exists i, i < size /\ nth_error m' i = Some (Some NUL)) /\ (-1 <= r < INT_MAX)%Z.
Proof.
  intros SZ. unfold rpl_vsnprintf.
  destruct (@run_good m size (8 * S (length format)) (start_vars (mkOut m 0) format args)) as [N K].
  { split; reflexivity. }
  { unfold measure. cbn. lia. }
  destruct (run _ size _) as [[v ov]| | |]; cbn [bind]; [|split; discriminate..|congruence].
  destruct (K v ov eq_refl) as [L SK0]. clear N K. set (o := v_out v) in *.
  assert (SKS : 0 < size -> skipn size (str o) = skipn size m).
  { intros P. assert (E : forall l : cells byte, skipn size l = skipn 1 (skipn (size - 1) l)) by (intros l; rewrite skipn_skipn; f_equal; lia). rewrite !E, SK0. reflexivity. }
  assert (RB : (-1 <= (if (ov || (INT_MAX <=? Z.of_nat (len o)))%bool then -1 else Z.of_nat (len o)) < INT_MAX)%Z).
  { destruct (ov || _) eqn:E; [unfold INT_MAX; lia|]. apply orb_false_iff in E as [_ E]. apply Z.leb_gt in E. lia. }
  destruct (Nat.ltb_spec (len o) size) as [C|C].
  - unfold aset. rewrite (proj2 (Nat.ltb_lt (len o) (length (str o)))) by lia. cbn [bind]. split; [discriminate|]. intros m' r st E. injection E as <- <- <-.
    rewrite length_upd. split; auto. split.
    { rewrite upd_skipn by lia. apply SKS; lia. }
    split; [intros _; exists (len o); split; auto; rewrite upd_nth_error, Nat.eqb_refl, (proj2 (Nat.ltb_lt _ _)) by lia; reflexivity|exact RB].
  - destruct (Nat.ltb_spec 0 size) as [D|D]; cbn [bind].
    + unfold aset. rewrite (proj2 (Nat.ltb_lt (size - 1) (length (str o)))) by lia. cbn [bind]. split; [discriminate|]. intros m' r st E. injection E as <- <- <-.
      rewrite length_upd. split; auto. split.
      { rewrite upd_skipn by lia. apply SKS; lia. }
      split; [intros _; exists (size - 1); split; [lia|]; rewrite upd_nth_error, Nat.eqb_refl, (proj2 (Nat.ltb_lt _ _)) by lia; reflexivity|exact RB].
    + split; [discriminate|]. intros m' r st E. injection E as <- <- <-. assert (size = 0) by lia. subst size. cbn [skipn Nat.sub] in *.
      split; auto. split; [exact SK0|]. split; [lia|exact RB].
Qed.

(** ** Numbers that are too large *)
Lemma width_overflow size o a st m fl p rest : forall ds n f, all_digits ds -> (0 <= n <= INT_MAX)%Z -> (INT_MAX < number_from n ds)%Z -> length ds < f ->
  exists v, run f size (mkV o a st PRINT_S_WIDTH m fl n p (ds ++ rest)) = Ok (v, true) /\ v_out v = o /\ v_stores v = st.
Proof.
  induction ds as [|c ds IH]; intros n f F P B LT; [unfold number_from in B; cbn [fold_left] in B; lia|]. inversion F as [|x y D F']; subst. destruct f as [|f]; [lia|]. cbn [length] in LT.
  cbn [run app v_fmt]. unfold turn. rewrite D. cbv zeta. pose proof (digit_range _ D) as R.
  destruct (n >? (INT_MAX - digit_value c) / 10)%Z eqn:G; cbn [bind]; [eexists; split; [reflexivity|split; reflexivity]|].
  rewrite Z.gtb_ltb in G. apply Z.ltb_ge in G. pose proof (Z.mul_div_le (INT_MAX - digit_value c) 10 ltac:(lia)).
  apply IH; auto; lia.
Qed.
Lemma prec_overflow size o a st m fl w rest : forall ds n f, all_digits ds -> (-1 <= n <= INT_MAX)%Z -> (INT_MAX < number_from (Z.max 0 n) ds)%Z -> length ds < f ->
  exists v, run f size (mkV o a st PRINT_S_PRECISION m fl w n (ds ++ rest)) = Ok (v, true) /\ v_out v = o /\ v_stores v = st.
Proof.
  induction ds as [|c ds IH]; intros n f F P B LT; [unfold number_from in B; cbn [fold_left] in B; unfold INT_MAX in *; lia|]. inversion F as [|x y D F']; subst. destruct f as [|f]; [lia|]. cbn [length] in LT.
  cbn [run app v_fmt]. unfold turn. cbv zeta. rewrite D. pose proof (digit_range _ D) as R.
  assert (NM : (if (n =? -1)%Z then 0%Z else n) = Z.max 0 n) by (destruct (Z.eqb_spec n (-1)); lia). rewrite NM.
  destruct (Z.max 0 n >? (INT_MAX - digit_value c) / 10)%Z eqn:G; cbn [bind]; [eexists; split; [reflexivity|split; reflexivity]|].
  rewrite Z.gtb_ltb in G. apply Z.ltb_ge in G. pose proof (Z.mul_div_le (INT_MAX - digit_value c) 10 ltac:(lia)).
  apply IH; auto; try lia. rewrite Z.max_r by lia. exact B.
Qed.
(** [is], then a directive whose width is too large *)
Lemma vsnprintf_overflow m size is t a st flags ds rest : size <= length m -> Forall wf_item is -> expands supported 0 is a t st ->
  Forall (fun c => In c (lit "-+ #0'")) flags -> all_digits ds -> ds <> [] -> hd NUL ds <> "0"%char -> (INT_MAX < number ds)%Z ->
  rpl_vsnprintf (Some m) size (renders is ++ "%"%char :: flags ++ ds ++ rest) a = Ok (terminated size m t, -1, st)%Z.
Proof.
  intros SZ WF E FL F NE NZ B. destruct (@items_turns m size SZ is [] a t [] st WF E ("%"%char :: flags ++ ds ++ rest)) as (n & a' & LE & G). cbn [app] in G.
  unfold rpl_vsnprintf.
  assert (ST : start_vars (mkOut m 0) (renders is ++ "%"%char :: flags ++ ds ++ rest) a = at_item m size [] a [] (renders is ++ "%"%char :: flags ++ ds ++ rest)).
  { unfold start_vars, PrintfProofs3.at_item, PrintfProofs.W. rewrite firstn_nil. cbn [length map app]. rewrite Nat.min_0_r. reflexivity. }
  rewrite ST. rewrite app_length. cbn [length]. rewrite !app_length.
  assert (DX : exists x ds', ds = x :: ds' /\ is_flag x = false).
  { destruct ds as [|x ds]; [congruence|]. exists x, ds. split; auto. assert (DX : isdigit x = true) by now inversion F.
    cbn [hd] in NZ; revert DX NZ; destruct x as [[] [] [] [] [] [] [] []]; intros DX NZ; try discriminate DX; try reflexivity; now contradiction NZ. }
  destruct DX as (x & ds' & EX & NF).
  assert (G2 : goes size (n + (1 + (length flags + 1))) (at_item m size [] a [] (renders is ++ "%"%char :: flags ++ ds ++ rest))
                 (mkV (PrintfProofs.W m size t) a' st PRINT_S_WIDTH PRINT_C_NONE (fold_left add_flag flags no_flags) 0 (-1) (ds ++ rest))).
  { eapply goes_trans; [exact G|]. eapply goes_trans; [eapply goes_turn; [reflexivity|reflexivity]|].
    eapply goes_trans; [apply flags_turns; exact FL|]. rewrite EX. cbn [app]. apply noflag_turn; auto. }
  set (k := n + (1 + (length flags + 1))) in *.
  assert (KL : k + S (length ds) <= 8 * S (length (renders is) + S (length flags + (length ds + length rest)))) by (subst k; lia).
  replace (8 * S (length (renders is) + S (length flags + (length ds + length rest)))) with (k + (8 * S (length (renders is) + S (length flags + (length ds + length rest))) - k)) by lia.
  rewrite G2.
  destruct (@width_overflow size (PrintfProofs.W m size t) a' st PRINT_C_NONE (fold_left add_flag flags no_flags) (-1) rest ds 0
              (8 * S (length (renders is) + S (length flags + (length ds + length rest))) - k)) as (v & EV & OV & SV); auto; [unfold INT_MAX; lia|lia|].
  rewrite EV. cbn [bind]. rewrite OV, SV. rewrite (@terminate m size SZ). cbn [bind orb]. reflexivity.
Qed.

Lemma vsnprintf_overflow_prec m size is t a st flags ds rest : size <= length m -> Forall wf_item is -> expands supported 0 is a t st ->
  Forall (fun c => In c (lit "-+ #0'")) flags -> all_digits ds -> (INT_MAX < number ds)%Z ->
  rpl_vsnprintf (Some m) size (renders is ++ "%"%char :: flags ++ "."%char :: ds ++ rest) a = Ok (terminated size m t, -1, st)%Z.
Proof.
  intros SZ WF E FL F B. destruct (@items_turns m size SZ is [] a t [] st WF E ("%"%char :: flags ++ "."%char :: ds ++ rest)) as (n & a' & LE & G). cbn [app] in G.
  unfold rpl_vsnprintf.
  assert (ST : start_vars (mkOut m 0) (renders is ++ "%"%char :: flags ++ "."%char :: ds ++ rest) a = at_item m size [] a [] (renders is ++ "%"%char :: flags ++ "."%char :: ds ++ rest)).
  { unfold start_vars, PrintfProofs3.at_item, PrintfProofs.W. rewrite firstn_nil. cbn [length map app]. rewrite Nat.min_0_r. reflexivity. }
  rewrite ST. rewrite app_length. cbn [length]. rewrite app_length. cbn [length]. rewrite app_length.
  assert (G2 : goes size (n + (1 + (length flags + (1 + (1 + 1))))) (at_item m size [] a [] (renders is ++ "%"%char :: flags ++ "."%char :: ds ++ rest))
                 (mkV (PrintfProofs.W m size t) a' st PRINT_S_PRECISION PRINT_C_NONE (fold_left add_flag flags no_flags) 0 (-1) (ds ++ rest))).
  { eapply goes_trans; [exact G|]. eapply goes_trans; [eapply goes_turn; [reflexivity|reflexivity]|].
    eapply goes_trans; [apply flags_turns; exact FL|]. eapply goes_trans; [apply noflag_turn; reflexivity|].
    eapply goes_trans; eapply goes_turn; reflexivity. }
  set (k := n + (1 + (length flags + (1 + (1 + 1))))) in *.
  set (T := 8 * S (length (renders is) + S (length flags + S (length ds + length rest)))).
  assert (KL : k + S (length ds) <= T) by (subst k T; lia).
  replace T with (k + (T - k)) by lia.
  rewrite G2.
  destruct (@prec_overflow size (PrintfProofs.W m size t) a' st PRINT_C_NONE (fold_left add_flag flags no_flags) 0 rest ds (-1) (T - k)) as (v & EV & OV & SV); auto; [unfold INT_MAX; lia|lia|].
  rewrite EV. cbn [bind]. rewrite OV, SV. rewrite (@terminate m size SZ). cbn [bind orb]. reflexivity.
Qed.
