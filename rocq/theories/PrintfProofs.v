(** Proofs about libcompat/snprintf.c: what the output functions write. *)
From Verif Require Import Prelude PreludeFacts Str StrFacts Libc LibcFacts PrintfModel PrintfSpec.
Set Implicit Arguments.

Lemma get_at (a : list byte) x t : aget (map Some a ++ Some x :: t) (length a) = Ok x.
Proof. unfold aget. rewrite nth_error_app2; rewrite map_length; [|lia]. now rewrite Nat.sub_diag. Qed.
Lemma get_mid (a b : list byte) x t : aget (map Some (a ++ x :: b) ++ t) (length a) = Ok x.
Proof. rewrite map_app, <- app_assoc. cbn [map app]. apply get_at. Qed.
Lemma cstr_neq s1 c s2 : is_cstr (s1 ++ c :: s2) -> beq c NUL = false.
Proof. intros CS. destruct (beq c NUL) eqn:E; auto. apply beq_true in E as ->. exfalso. apply CS. apply in_or_app. right. now left. Qed.

Lemma set_at (a : list byte) y t x : aset (map Some a ++ y :: t) (length a) x = Ok (map Some a ++ Some x :: t).
Proof.
  unfold aset. rewrite app_length, map_length. cbn [length]. replace (length a <? length a + S (length t)) with true by (symmetry; apply Nat.ltb_lt; lia).
  f_equal. rewrite upd_app_r by (rewrite map_length; lia). rewrite map_length, Nat.sub_diag. reflexivity.
Qed.
Lemma chr_nth s i c : nth_error s i = Some c -> chr s i = Ok c.
Proof. intros E. unfold chr. rewrite nth_error_app1; [now rewrite E|]. apply nth_error_Some. congruence. Qed.

Section P.
Variable m0 : cells byte.
Variable size : nat.
Hypothesis SZ : size <= length m0.

(** the area [m0] of [size] bytes after [t] was written, not yet terminated *)
Definition W (t : list byte) : out :=
  mkOut (map Some (firstn (size - 1) t) ++ skipn (Nat.min (size - 1) (length t)) m0) (length t).

Lemma outchar t c : OUTCHAR size (W t) c = Ok (W (t ++ [c])).
Proof.
  unfold OUTCHAR. cbn [len str W]. destruct (Nat.ltb_spec (length t + 1) size) as [LT|GE].
  - assert (E1 : firstn (size - 1) t = t) by (apply firstn_all2; lia).
    assert (E2 : firstn (size - 1) (t ++ [c]) = t ++ [c]) by (apply firstn_all2; rewrite app_length; cbn [length]; lia).
    unfold W at 1. cbn [str]. rewrite E1, Nat.min_r by lia.
    destruct (skipn (length t) m0) as [|x r] eqn:SK.
    { apply (f_equal (@length _)) in SK. rewrite skipn_length in SK. cbn [length] in SK. lia. }
    unfold aset. rewrite app_length, map_length. cbn [length].
    replace (length t <? length t + S (length r)) with true by (symmetry; apply Nat.ltb_lt; lia). cbn [bind].
    f_equal. unfold W. rewrite E2, app_length. cbn [length]. f_equal. rewrite Nat.min_r by lia.
    rewrite map_app, <- app_assoc. cbn [map app].
    rewrite upd_app_r by (rewrite map_length; lia). rewrite map_length, Nat.sub_diag. cbn [upd]. do 2 f_equal.
    replace (length t + 1) with (S (length t)) by lia. clear - SK. revert m0 SK. induction (length t) as [|n IH]; intros m SK.
    + cbn in SK. subst. reflexivity.
    + destruct m as [|y m]; [discriminate|]. cbn [skipn] in *. now apply IH.
  - cbn [bind]. f_equal. unfold W. rewrite app_length. cbn [length]. f_equal.
    rewrite firstn_app. replace (size - 1 - length t) with 0 by lia. cbn [firstn]. rewrite app_nil_r.
    do 2 f_equal. lia.
Qed.
Lemma out_n_spec n c : forall t, out_n size n (W t) c = Ok (W (t ++ repeat c n)).
Proof.
  induction n as [|n IH]; intros t; cbn [out_n repeat]; [now rewrite app_nil_r|].
  rewrite outchar. cbn [bind]. rewrite IH. now rewrite <- app_assoc.
Qed.
Lemma outs l : forall t, fold_left (fun o c => let* o := o in OUTCHAR size o c) l (Ok (W t)) = Ok (W (t ++ l)).
Proof.
  induction l as [|c l IH]; intros t; cbn [fold_left]; [now rewrite app_nil_r|]. cbn [bind]. rewrite outchar, IH. now rewrite <- app_assoc.
Qed.

(** * Strings *)
Definition cut (p : option nat) (s : list byte) : list byte := match p with None => s | Some n => firstn n s end.
Lemma strln_spec s rest p : is_cstr s -> forall s1 s2 f, s = s1 ++ s2 -> length s2 < f -> length s1 <= match p with None => length s1 | Some n => n end ->
  strln_loop f (map Some s ++ Some NUL :: rest) p (length s1) = Ok (length (cut p s)).
Proof.
  intros CS s1 s2. revert s1. induction s2 as [|c s2 IH]; intros s1 f E LT LE; destruct f as [|f]; cbn [length] in LT; try lia; cbn [strln_loop].
  - rewrite app_nil_r in E. subst s1. rewrite get_at. cbn.
    destruct p as [n|]; cbn [cut]; auto. now rewrite firstn_all2.
  - assert (A : aget (map Some s ++ Some NUL :: rest) (length s1) = Ok c) by (subst s; apply get_mid).
    rewrite A. cbn [bind]. assert (NZ : beq c NUL = false) by (subst s; eapply cstr_neq; eauto).
    rewrite NZ. cbn [negb andb]. destruct p as [n|].
    + destruct (Nat.ltb_spec (length s1) n) as [C|C].
      * replace (S (length s1)) with (length (s1 ++ [c])) by (rewrite app_length; cbn [length]; lia).
        apply IH; [now rewrite <- app_assoc|lia|rewrite app_length; cbn [length]; lia].
      * f_equal. cbn [cut]. rewrite firstn_length. subst s. rewrite app_length. cbn [length]. lia.
    + replace (S (length s1)) with (length (s1 ++ [c])) by (rewrite app_length; cbn [length]; lia).
      apply IH; [now rewrite <- app_assoc|lia|lia].
Qed.
Lemma str_loop_spec s rest : is_cstr s -> forall s2 s1 f p t, s = s1 ++ s2 -> length s2 < f ->
  str_loop f size (W t) (map Some s ++ Some NUL :: rest) (length s1) p = Ok (W (t ++ cut p s2)).
Proof.
  intros CS. induction s2 as [|c s2 IH]; intros s1 f p t E LT; destruct f as [|f]; cbn [length] in LT; try lia; cbn [str_loop].
  - rewrite app_nil_r in E. subst s1. rewrite get_at. cbn.
    destruct p as [[|n]|]; cbn; now rewrite app_nil_r.
  - assert (A : aget (map Some s ++ Some NUL :: rest) (length s1) = Ok c) by (subst s; apply get_mid).
    rewrite A. cbn [bind]. assert (NZ : beq c NUL = false) by (subst s; eapply cstr_neq; eauto). rewrite NZ. cbn [negb andb].
    destruct p as [[|n]|].
    + cbn. now rewrite app_nil_r.
    + cbn [Nat.ltb Nat.leb]. rewrite outchar. cbn [bind].
      replace (S (length s1)) with (length (s1 ++ [c])) by (rewrite app_length; cbn [length]; lia).
      rewrite IH by (try lia; now rewrite <- app_assoc). cbn [cut firstn]. replace (S n - 1) with n by lia. cbn [cut]. now rewrite <- app_assoc.
    + rewrite outchar. cbn [bind].
      replace (S (length s1)) with (length (s1 ++ [c])) by (rewrite app_length; cbn [length]; lia).
      rewrite IH by (try lia; now rewrite <- app_assoc). cbn [cut]. now rewrite <- app_assoc.
Qed.
Lemma fmtstr_spec s rest w p fl t : is_cstr s -> (Z.of_nat (length (cut p s)) <= INT_MAX)%Z ->
  fmtstr size (W t) (Some (map Some s ++ Some NUL :: rest)) w p fl = Ok (W (t ++ pad (if F_MINUS fl then Left else Right) w [] (cut p s))).
Proof.
  intros CS LE. unfold fmtstr. assert (LV : length (map Some s ++ Some NUL :: rest) = length s + S (length rest)) by (rewrite app_length, map_length; reflexivity).
  rewrite LV. pose proof (@strln_spec s rest p CS [] s (S (length s + S (length rest))) eq_refl) as SL. cbn [length] in SL.
  rewrite SL by (try lia; destruct p; lia). cbn [bind].
  replace (INT_MAX <? Z.of_nat (length (cut p s)))%Z with false by (symmetry; apply Z.ltb_ge; lia).
  pose proof (fun t => @str_loop_spec s rest CS s [] (S (length s + S (length rest))) p t eq_refl) as SP. cbn [length] in SP.
  unfold pad. cbn [app length]. destruct (F_MINUS fl); cbn [bind].
  - rewrite SP by lia. cbn [bind]. rewrite out_n_spec. now rewrite <- app_assoc.
  - rewrite out_n_spec. cbn [bind]. rewrite SP by lia. cbn [bind]. now rewrite <- app_assoc.
Qed.

(** * Numbers *)
Lemma convert_spec table b n ds : notation table b n ds -> (1 < b)%Z ->
  forall f pre k sz, length ds <= f -> length ds <= k -> length pre + length ds <= sz ->
  convert_loop f n (map Some pre ++ repeat None k) sz b table (length pre) =
  Ok (map Some (pre ++ rev ds) ++ repeat None (k - length ds), length pre + length ds).
Proof.
  intros NT B. induction NT as [i c LT N|n ds i c NT IH POS LT N]; intros f pre k sz LF LK LS.
  - cbn [length] in *. destruct f as [|f]; [lia|]. cbn [convert_loop]. rewrite Z.mod_small, Nat2Z.id by lia.
    destruct k as [|k]; [lia|]. cbn [repeat].
    assert (CH : chr table i = Ok c) by (eapply chr_nth; eauto). rewrite CH. cbn [bind]. rewrite set_at. cbn [bind].
    rewrite Z.div_small by lia. cbn [Z.eqb negb andb rev app]. f_equal. f_equal; [|lia].
    rewrite map_app. cbn [map]. rewrite <- app_assoc. cbn [app]. replace (S k - 1) with k by lia. reflexivity.
  - rewrite app_length in *. cbn [length] in *. destruct f as [|f]; [lia|]. cbn [convert_loop].
    assert (M : ((b * n + Z.of_nat i) mod b = Z.of_nat i)%Z) by (rewrite Z.add_comm, Z.mul_comm, Z.mod_add by lia; apply Z.mod_small; lia).
    assert (D : ((b * n + Z.of_nat i) / b = n)%Z) by (rewrite Z.add_comm, Z.mul_comm, Z.div_add by lia; rewrite Z.div_small by lia; lia).
    rewrite M, D, Nat2Z.id. destruct k as [|k]; [lia|]. cbn [repeat].
    assert (CH : chr table i = Ok c) by (eapply chr_nth; eauto). rewrite CH. cbn [bind]. rewrite set_at. cbn [bind].
    replace (n =? 0)%Z with false by (symmetry; apply Z.eqb_neq; lia).
    assert (NE : length ds <> 0) by (inversion NT; [discriminate|rewrite app_length; cbn; lia]).
    replace (S (length pre) <? sz) with true by (symmetry; apply Nat.ltb_lt; lia). cbn [negb andb].
    replace (map Some pre ++ Some c :: repeat None k) with (map Some (pre ++ [c]) ++ repeat None k) by (rewrite map_app, <- app_assoc; reflexivity).
    replace (S (length pre)) with (length (pre ++ [c])) by (rewrite app_length; cbn [length]; lia).
    rewrite IH by (rewrite ?app_length; cbn [length]; lia). rewrite rev_app_distr. cbn [rev app]. rewrite app_length. cbn [length].
    rewrite <- app_assoc. cbn [app]. replace (S k - (length ds + 1)) with (k - length ds) by lia. f_equal. f_equal. lia.
Qed.
Lemma notation_size table b n ds : notation table b n ds -> (8 <= b)%Z -> ((8 ^ (Z.of_nat (length ds) - 1) <= n)%Z \/ length ds = 1) /\ (0 <= n)%Z.
Proof.
  intros NT B. induction NT as [i c LT N|n ds i c NT [IH POS'] POS LT N]; [cbn; split; [auto|lia]|].
  split; [|nia]. left. rewrite app_length. cbn [length]. destruct IH as [IH|IH].
  - assert (L : 1 <= length ds) by (inversion NT; cbn; rewrite ?app_length; cbn; lia).
    replace (Z.of_nat (length ds + 1) - 1)%Z with (Z.succ (Z.of_nat (length ds) - 1)) by lia. rewrite Z.pow_succ_r by lia. nia.
  - rewrite IH. cbn. nia.
Qed.
Lemma notation_len table b n ds : notation table b n ds -> (8 <= b)%Z -> (n < 2 ^ 64)%Z -> length ds <= 22.
Proof.
  intros NT B LT. destruct (notation_size NT B) as [[H|H] _]; [|lia].
  destruct (le_lt_dec (length ds) 22) as [C|C]; auto. exfalso.
  assert (P : (8 ^ 22 <= 8 ^ (Z.of_nat (length ds) - 1))%Z) by (apply Z.pow_le_mono_r; lia).
  assert (E : (8 ^ 22 = 2 ^ 66)%Z) by reflexivity. lia.
Qed.
Lemma digits_out_spec ds : forall t rest, digits_out size (W t) (map Some (rev ds) ++ rest) (length ds) = Ok (W (t ++ ds)).
Proof.
  induction ds as [|c ds IH]; intros t rest; cbn [length digits_out rev]; [now rewrite app_nil_r|].
  rewrite map_app, <- app_assoc. cbn [map app].
  assert (L : length ds = length (rev ds)) by now rewrite rev_length.
  rewrite L, get_at. cbn [bind]. rewrite outchar. cbn [bind]. rewrite <- L, IH. now rewrite <- app_assoc.
Qed.

(** ** fmtint *)
Definition zeros (alt : bool) (b u prec : Z) (ds : list byte) : nat :=
  Z.to_nat ((if alt && negb (u =? 0)%Z && (b =? 8)%Z && (prec <=? Z.of_nat (length ds))%Z then Z.of_nat (length ds) + 1 else prec) - Z.of_nat (length ds)).
Definition hex_text (alt up : bool) (b u : Z) : list byte :=
  if alt && negb (u =? 0)%Z && (b =? 16)%Z then ["0"%char; if up then "X"%char else "x"%char] else [].
Lemma fmtint_spec fl value b width prec u sg ds t :
  (if F_UNSIGNED fl then u = unsigned_of 64 value /\ sg = []
   else (- 2 ^ 63 < value < 2 ^ 63)%Z /\ u = Z.abs value /\ sg = sign_text (F_PLUS fl) (F_SPACE fl) value /\ b = 10%Z) ->
  notation (if F_UP fl then digits_upper else digits_lower) b u ds ->
  b = 8%Z \/ b = 10%Z \/ b = 16%Z -> (0 <= u < 2 ^ 64)%Z ->
  (-1 <= prec <= INT_MAX)%Z -> (0 <= width <= INT_MAX)%Z -> (prec = INT_MAX -> hex_text (F_NUM fl) (F_UP fl) b u = []) ->
  fmtint size (W t) value b width prec fl =
  Ok (W (t ++ pad (if F_MINUS fl then Left else if F_ZERO fl && (prec =? -1)%Z then Zeros else Right) (Z.to_nat width)
                  (sg ++ hex_text (F_NUM fl) (F_UP fl) b u) (repeat "0"%char (zeros (F_NUM fl) b u prec ds) ++ ds))).
Proof.
  intros VAL NT B U PR WD HX.
  assert (LN : length ds <= 22) by (apply (notation_len NT); [lia|apply U]).
  assert (CV : convert u b (F_UP fl) = Ok (map Some (rev ds) ++ repeat None (43 - length ds), length ds)).
  { unfold convert, MAX_CONVERT_LENGTH.
    pose proof (@convert_spec _ b u ds NT ltac:(lia) 44 [] 43 43) as C. cbn [length map app] in C. rewrite C by lia. reflexivity. }
  set (sgn := if F_UNSIGNED fl then None else if (value <? 0)%Z then Some "-"%char else if F_PLUS fl then Some "+"%char else if F_SPACE fl then Some " "%char else None).
  assert (SG : sg = match sgn with Some c => [c] | None => [] end).
  { subst sgn. destruct (F_UNSIGNED fl); [tauto|]. destruct VAL as (_ & _ & -> & _). unfold sign_text.
    destruct (value <? 0)%Z, (F_PLUS fl), (F_SPACE fl); reflexivity. }
  assert (FST : (if F_UNSIGNED fl then Ok (unsigned_of 64 value, None)
     else
       let* u := (if (0 <=? value)%Z then Ok value else if (value =? - 2 ^ 63)%Z then UB else Ok (- value)%Z) in
       Ok (u, if (value <? 0)%Z then Some "-"%char else if F_PLUS fl then Some "+"%char else if F_SPACE fl then Some " "%char else None)) = Ok (u, sgn)).
  { subst sgn. destruct (F_UNSIGNED fl); [destruct VAL as [-> _]; reflexivity|]. destruct VAL as (V & -> & _).
    destruct (Z.leb_spec 0 value) as [C|C]; cbn [bind].
    - rewrite Z.abs_eq by lia. reflexivity.
    - replace (value =? - 2 ^ 63)%Z with false by (symmetry; apply Z.eqb_neq; lia). cbn [bind]. rewrite Z.abs_neq by lia. reflexivity. }
  unfold fmtint. rewrite FST. cbn [bind]. rewrite CV. cbn [bind]. clear FST CV.
  set (alt := (F_NUM fl && negb (u =? 0)%Z)%bool) in *.
  set (pr := if alt && (b =? 8)%Z && (prec <=? Z.of_nat (length ds))%Z then (Z.of_nat (length ds) + 1)%Z else prec).
  assert (PB : (-1 <= pr <= INT_MAX)%Z /\ (pr = INT_MAX -> prec = INT_MAX)).
  { subst pr. unfold INT_MAX in *. destruct (alt && (b =? 8)%Z && (prec <=? Z.of_nat (length ds))%Z); lia. }
  assert (HXT : hex_text (F_NUM fl) (F_UP fl) b u = match (if alt && (b =? 16)%Z then Some (if F_UP fl then "X"%char else "x"%char) else None) with Some c => ["0"%char; c] | None => [] end).
  { unfold hex_text. fold alt. destruct (alt && (b =? 16)%Z); reflexivity. }
  assert (ZR : zeros (F_NUM fl) b u prec ds = Z.to_nat (pr - Z.of_nat (length ds))).
  { unfold zeros. fold alt. fold pr. reflexivity. }
  rewrite ZR. rewrite HXT in *. clear HXT ZR.
  set (hx := if alt && (b =? 16)%Z then Some (if F_UP fl then "X"%char else "x"%char) else None) in *.
  assert (SH : match sgn with Some _ => match hx with Some _ => False | None => True end | None => True end).
  { subst sgn hx. destruct (F_UNSIGNED fl); auto. destruct VAL as (_ & _ & _ & ->). cbn [Z.eqb Pos.eqb andb]. rewrite andb_false_r.
    destruct (value <? 0)%Z; auto. destruct (F_PLUS fl); auto. destruct (F_SPACE fl); auto. }
  clearbody sgn hx pr. clear VAL U NT.
  set (sl := match sgn with Some _ => 1%Z | None => 0%Z end). set (hl := match hx with Some _ => 2%Z | None => 0%Z end).
  assert (HL : (0 <= sl /\ 0 <= hl /\ sl + hl <= 2 /\ (pr = INT_MAX -> sl + hl <= 1) /\ Z.of_nat (length sg) = sl)%Z).
  { subst sl hl sg. destruct sgn, hx; cbn [length]; try lia; try contradiction. repeat split; try lia. intros E. destruct PB as [_ PB].
    specialize (HX (PB E)). discriminate. }
  assert (LT : length (sg ++ match hx with Some c => ["0"%char; c] | None => [] end) = Z.to_nat (sl + hl)).
  { rewrite app_length. subst sl hl. destruct HL as (_ & _ & _ & _ & HL). destruct sgn, hx; cbn [length]; lia. }
  unfold int_sub, INT_MIN. unfold INT_MAX in *.
  rewrite (proj2 (Z.ltb_ge (width - Z.max pr (Z.of_nat (length ds))) (- 2 ^ 31))) by lia. cbn [bind].
  rewrite (proj2 (Z.ltb_ge (width - Z.max pr (Z.of_nat (length ds)) - sl) (- 2 ^ 31))) by lia. cbn [bind].
  rewrite (proj2 (Z.ltb_ge (width - Z.max pr (Z.of_nat (length ds)) - sl - hl) (- 2 ^ 31))) by lia. cbn [bind].
  set (z := Z.to_nat (pr - Z.of_nat (length ds))).
  set (n := Z.to_nat width - length ((sg ++ match hx with Some c => ["0"%char; c] | None => [] end) ++ repeat "0"%char z ++ ds)).
  assert (NE : Z.to_nat (Z.max 0 (width - Z.max pr (Z.of_nat (length ds)) - sl - hl)) = n).
  { subst n z. rewrite app_length, LT, app_length, repeat_length. lia. }
  assert (ZE : Z.to_nat (Z.max 0 (pr - Z.of_nat (length ds))) = z) by (subst z; lia).
  assert (ZN : Z.to_nat (Z.max 0 (pr - Z.of_nat (length ds)) + Z.max 0 (width - Z.max pr (Z.of_nat (length ds)) - sl - hl)) = n + z).
  { rewrite Z2Nat.inj_add by lia. rewrite NE, ZE. lia. }
  assert (MID : forall t', (let* o := (match sgn with Some c => OUTCHAR size (W t') c | None => Ok (W t') end) in
                 (match hx with Some c => let* o := OUTCHAR size o "0"%char in OUTCHAR size o c | None => Ok o end)) =
                Ok (W (t' ++ sg ++ match hx with Some c => ["0"%char; c] | None => [] end))).
  { intros t'. subst sg. destruct sgn as [c1|], hx as [c2|]; rewrite ?outchar; cbn [bind app]; rewrite ?outchar; cbn [bind]; rewrite ?outchar; cbn [bind]; rewrite <- ?app_assoc; cbn [app]; rewrite ?app_nil_r; reflexivity. }
  assert (TAIL : forall t' l k r, (let* o := out_n size l (W t') " "%char in
      let* o := (match sgn with Some c => OUTCHAR size o c | None => Ok o end) in
      let* o := (match hx with Some c => let* o := OUTCHAR size o "0"%char in OUTCHAR size o c | None => Ok o end) in
      let* o := out_n size k o "0"%char in
      let* o := digits_out size o (map Some (rev ds) ++ repeat None (43 - length ds)) (length ds) in
      out_n size r o " "%char) =
      Ok (W (t' ++ repeat " "%char l ++ (sg ++ match hx with Some c => ["0"%char; c] | None => [] end) ++ repeat "0"%char k ++ ds ++ repeat " "%char r))).
  { intros t' l k r. rewrite out_n_spec. cbn [bind]. specialize (MID (t' ++ repeat " "%char l)).
    destruct (match sgn with Some c => OUTCHAR size (W (t' ++ repeat " "%char l)) c | None => Ok (W (t' ++ repeat " "%char l)) end) as [o| | |]; try discriminate.
    cbn [bind] in MID |- *. rewrite MID. cbn [bind]. rewrite out_n_spec. cbn [bind]. rewrite digits_out_spec. cbn [bind]. rewrite out_n_spec.
    now rewrite <- !app_assoc. }
  unfold pad. fold n. clear MID.
  destruct (F_MINUS fl).
  - rewrite TAIL. cbn [Z.to_nat repeat app]. rewrite NE, ZE. now rewrite <- !app_assoc.
  - destruct (F_ZERO fl && (prec =? -1)%Z).
    + rewrite TAIL. cbn [Z.to_nat repeat app]. rewrite ZN, repeat_app, app_nil_r. now rewrite <- !app_assoc.
    + rewrite TAIL. cbn [Z.to_nat repeat app]. rewrite NE, ZE, app_nil_r. now rewrite <- !app_assoc.
Qed.
End P.

Lemma notation_head table b n ds : notation table b n ds -> (0 < n)%Z -> (0 < b)%Z -> exists i, 0 < i /\ nth_error table i = Some (hd NUL ds) /\ ds <> [].
Proof.
  intros NT. induction NT as [i c LT N|n ds i c NT IH POS LT N]; intros P B.
  - exists i. repeat split; [lia|exact N|discriminate].
  - destruct (IH POS B) as (j & J & NE & NN). exists j. destruct ds as [|d ds]; [congruence|]. repeat split; auto. discriminate.
Qed.
Lemma notation_zero table b ds : notation table b 0 ds -> (0 < b)%Z -> exists c, ds = [c] /\ nth_error table 0 = Some c.
Proof.
  intros NT B. inversion NT as [i c LT N|n ds' i c NT' POS LT N].
  - assert (i = 0) by lia. subst. eauto.
  - nia.
Qed.
Definition prec_int (p : option nat) : Z := match p with None => -1 | Some n => Z.of_nat n end.
Lemma number_form table b alt m p ds' : number_text table b alt m p ds' ->
  table = digits_lower \/ table = digits_upper -> b = 8%Z \/ b = 10%Z \/ b = 16%Z -> (0 <= m)%Z -> (p = Some 0 -> m = 0%Z -> b = 8%Z /\ alt = true) ->
  exists ds, notation table b m ds /\ ds' = repeat "0"%char (zeros alt b m (prec_int p) ds) ++ ds.
Proof.
  intros NT TB B M C. destruct NT as [ds NT ds2]. exists ds. split; auto.
  assert (B' : (0 < b)%Z) by lia.
  destruct (Z.eq_dec m 0) as [->|NZ].
  - destruct (notation_zero NT B') as (c & -> & E). assert (c = "0"%char) by (destruct TB as [-> | ->]; cbn in E; congruence). subst c.
    unfold zeros. cbn [Z.eqb negb andb]. rewrite andb_false_r. cbn [andb length].
    subst ds2. destruct p as [[|n]|]; cbn [prec_int].
    + destruct (C eq_refl eq_refl) as [-> ->]. reflexivity.
    + unfold zero_filled. cbn [length]. replace (Z.to_nat (Z.of_nat (S n) - Z.of_nat 1)) with n by lia. replace (S n - 1) with n by lia.
      destruct (alt && (b =? 8)%Z); auto. destruct n; reflexivity.
    + replace (Z.to_nat (-1 - Z.of_nat 1)) with 0 by lia. cbn [repeat app]. destruct (alt && (b =? 8)%Z); reflexivity.
  - assert (P : (0 < m)%Z) by lia. destruct (notation_head NT P B') as (i & I & HD & NN). destruct ds as [|d ds]; [congruence|]. cbn [hd] in HD.
    assert (D : d <> "0"%char).
    { intros ->. assert (ND : i = 0); [|lia]. destruct TB as [-> | ->]; do 17 (destruct i as [|i]; [try reflexivity; cbn in HD; discriminate|]); cbn in HD; destruct i; discriminate. }
    assert (OZ : octal_zero (d :: ds) = "0"%char :: d :: ds).
    { unfold octal_zero. destruct d as [[] [] [] [] [] [] [] []]; try reflexivity. now contradiction D. }
    assert (DS : ds2 = zero_filled (Z.to_nat (prec_int p)) (d :: ds)).
    { subst ds2. destruct p as [[|n]|]; cbn [prec_int]; rewrite ?(proj2 (Z.eqb_neq m 0) NZ); unfold zero_filled; auto. now rewrite Nat2Z.id. }
    rewrite DS. unfold zeros. rewrite (proj2 (Z.eqb_neq m 0) NZ). cbn [negb]. rewrite andb_true_r.
    destruct (alt && (b =? 8)%Z); cbn [andb].
    + destruct (Z.leb_spec (prec_int p) (Z.of_nat (length (d :: ds)))) as [LE|GT].
      * unfold zero_filled. replace (Z.to_nat (prec_int p) - length (d :: ds)) with 0 by lia. cbn [repeat app]. rewrite OZ.
        replace (Z.to_nat (Z.of_nat (length (d :: ds)) + 1 - Z.of_nat (length (d :: ds)))) with 1 by lia. reflexivity.
      * unfold zero_filled. replace (Z.to_nat (prec_int p - Z.of_nat (length (d :: ds)))) with (Z.to_nat (prec_int p) - length (d :: ds)) by lia.
        destruct (Z.to_nat (prec_int p) - length (d :: ds)) as [|k] eqn:E; [lia|]. reflexivity.
    + unfold zero_filled. replace (Z.to_nat (prec_int p - Z.of_nat (length (d :: ds)))) with (Z.to_nat (prec_int p) - length (d :: ds)) by lia. reflexivity.
Qed.
