(** Proofs about libcompat/snprintf.c: what the floating point conversions write. *)
From Coq Require Import QArith Qabs.
From Verif Require Import Prelude PreludeFacts Str StrFacts Libc LibcFacts PrintfModel PrintfSpec PrintfProofs PrintfProofs2 PrintfProofs3 PrintfFloat PrintfFloat2.
Local Close Scope Q_scope.
Set Implicit Arguments.

(** * Digits *)
Lemma number_snoc ds c : number (ds ++ [c]) = (10 * number ds + digit_value c)%Z.
Proof. unfold number. rewrite fold_left_app. reflexivity. Qed.
Lemma digit_table c : isdigit c = true -> exists i, i < 10 /\ nth_error digits_lower i = Some c /\ digit_value c = Z.of_nat i.
Proof.
  intros E. exists (N.to_nat (code c) - 48). revert E. destruct c as [[] [] [] [] [] [] [] []]; intros E; try discriminate E; (split; [cbn; lia|split; reflexivity]).
Qed.
Lemma digit_nonneg ds : all_digits ds -> (0 <= number ds)%Z.
Proof. intros F. pose proof (number_from_mono F (Z.le_refl 0)) as M. exact M. Qed.
Lemma number_zeros k : number (repeat "0"%char k) = 0%Z.
Proof.
  assert (E : repeat "0"%char k = rev (repeat "0"%char k)).
  { induction k as [|k IH]; [reflexivity|]. cbn [repeat rev]. rewrite <- IH. clear. induction k as [|k IH]; [reflexivity|]. cbn [repeat app]. now rewrite <- IH. }
  induction k as [|k IH]; [reflexivity|]. replace (repeat "0"%char (S k)) with (repeat "0"%char k ++ ["0"%char]).
  - rewrite number_snoc, IH; [reflexivity|]. clear E IH. induction k as [|k IH]; [reflexivity|]. cbn [repeat rev]. rewrite <- IH. clear. induction k as [|k IH]; [reflexivity|]. cbn [repeat app]. now rewrite <- IH.
  - clear. induction k as [|k IH]; [reflexivity|]. cbn [repeat app]. f_equal. exact IH.
Qed.
(** digits are zeros and the notation of their number *)
Lemma digits_form fs : all_digits fs ->
  (number fs = 0%Z -> fs = repeat "0"%char (length fs)) /\
  ((0 < number fs)%Z -> exists j ds, fs = repeat "0"%char j ++ ds /\ notation digits_lower 10 (number fs) ds).
Proof.
  induction fs as [|c fs IH] using rev_ind; intros F; [split; [reflexivity|unfold number; cbn; lia]|].
  apply Forall_app in F as [F D]. inversion D as [|x y DC _]; subst. specialize (IH F). destruct IH as [IH0 IH1].
  rewrite number_snoc. destruct (digit_table _ DC) as (i & LI & NI & VI). pose proof (digit_nonneg F) as NN. rewrite VI. rewrite app_length. cbn [length].
  assert (Z1 : number fs = 0%Z -> fs ++ ["0"%char] = repeat "0"%char (length fs + 1)).
  { intros E. rewrite (IH0 E) at 1. now rewrite repeat_app. }
  split.
  - intros E. assert (i = 0) by lia. subst i. cbn in NI. injection NI as <-. apply Z1. lia.
  - intros P. destruct (Z.eq_dec (number fs) 0) as [E|E].
    + exists (length fs), [c]. split; [rewrite <- (IH0 E); reflexivity|]. rewrite E. change (10 * 0 + Z.of_nat i)%Z with (Z.of_nat i). constructor; [lia|exact NI].
    + destruct IH1 as (j & ds & EF & NT); [lia|]. exists j, (ds ++ [c]). split; [rewrite EF at 1; now rewrite <- app_assoc|]. apply notation_more; auto; lia.
Qed.
Lemma notation_number ds n : notation digits_lower 10 n ds -> number ds = n.
Proof.
  intros NT. induction NT as [i c LT N|n ds i c NT IH POS LT N].
  - assert (D : digit_value c = Z.of_nat i) by (do 10 (destruct i as [|i]; [cbn in N; injection N as <-; reflexivity|]); lia).
    change [c] with ([] ++ [c]). rewrite number_snoc, D. reflexivity.
  - assert (D : digit_value c = Z.of_nat i) by (do 10 (destruct i as [|i]; [cbn in N; injection N as <-; reflexivity|]); lia).
    now rewrite number_snoc, IH, D.
Qed.
Lemma convert_ten n ds : notation digits_lower 10 n ds -> (n < 2 ^ 64)%Z -> convert n 10 false = Ok (map Some (rev ds) ++ repeat None (43 - length ds), length ds).
Proof.
  intros NT U. pose proof (@notation_len [] 0 (Nat.le_refl 0) _ _ _ _ NT ltac:(lia) U) as LN. unfold convert, MAX_CONVERT_LENGTH.
  pose proof (@convert_spec [] 0 (Nat.le_refl 0) _ 10 n ds NT ltac:(lia) 44 [] 43 43) as C. cbn [length map app] in C. rewrite C by lia. reflexivity.
Qed.

(** * The exponent *)
Lemma exponent_chars_spec X up es : exponent_text up X es -> (-99 <= X <= 99)%Z -> exponent_chars X up = Ok (map Some (rev es), 4) /\ length es = 4.
Proof.
  intros [ds NT] R. unfold exponent_chars.
  assert (EX : (if (X <? 0)%Z then ((- X)%Z, "-"%char) else (X, "+"%char)) = (Z.abs X, if (X <? 0)%Z then "-"%char else "+"%char)).
  { destruct (Z.ltb_spec X 0); f_equal; lia. }
  rewrite EX.
  assert (LD2 : length ds = 1 \/ length ds = 2).
  { destruct ds as [|a [|b [|c ds]]]; auto; [inversion NT as [|? ? ? ? ? ? ? ? E]; destruct ds; discriminate|]. exfalso.
    assert (G : forall n l, notation lower_digits 10 n l -> 3 <= length l -> (100 <= n)%Z).
    { intros n l H. induction H as [i x LT Nx|m l i x H IH POS LT Nx]; intros L; [cbn in L; lia|]. rewrite app_length in L. cbn [length] in L.
      inversion H as [i' x' LT' N'|m' l' i' x' H' POS' LT' N']; subst; [cbn in L; lia|]. lia. }
    specialize (G _ _ NT ltac:(cbn; lia)). lia. }
  pose proof (@convert_spec [] 0 (Nat.le_refl 0) _ 10 (Z.abs X) ds NT ltac:(lia) 3 [] 4 2) as C. cbn [length map app] in C. change lower_digits with digits_lower in C. rewrite C by lia. cbn [bind]. clear C.
  destruct ds as [|a [|b [|c ds]]]; cbn [length] in LD2; try lia; cbn; destruct up, (X <? 0)%Z; auto.
Qed.

(** * Digits after the decimal point *)
Section P.
Variable m0 : cells byte.
Variable size : nat.
Hypothesis SZ : size <= length m0.
Local Notation W := (W m0 size).

Lemma frac_out_spec b : forall a rest t, frac_out size (W t) (map Some (rev (a ++ b)) ++ rest) (length (a ++ b)) (length b) = Ok (W (t ++ a)).
Proof.
  induction a as [|c a IH]; intros rest t.
  - cbn [app]. rewrite app_nil_r. destruct b as [|x b]; [reflexivity|]. cbn [length frac_out]. rewrite (proj2 (Nat.ltb_ge _ _)) by lia. reflexivity.
  - cbn [app length frac_out rev]. rewrite (proj2 (Nat.ltb_lt _ _)) by (rewrite app_length; lia).
    rewrite map_app, <- app_assoc. cbn [map app]. assert (L : length (a ++ b) = length (rev (a ++ b))) by now rewrite rev_length.
    rewrite L, get_at. cbn [bind]. rewrite (@outchar m0 size SZ). cbn [bind]. rewrite <- L, IH. now rewrite <- app_assoc.
Qed.
Lemma omit_loop_spec k c l rest : c <> "0"%char -> forall i f, i <= k -> k - i < f ->
  omit_loop f (map Some (repeat "0"%char k ++ c :: l) ++ rest) (length (repeat "0"%char k ++ c :: l)) i = Ok k.
Proof.
  intros NC i f LE. remember (k - i) as d eqn:ED. revert i f LE ED. induction d as [|d IH]; intros i f LE ED LT; (destruct f as [|f]; [lia|]); cbn [omit_loop];
    rewrite (proj2 (Nat.ltb_lt i _)) by (rewrite app_length, repeat_length; cbn [length]; lia).
  - assert (i = k) by lia. subst i. assert (G : aget (map Some (repeat "0"%char k ++ c :: l) ++ rest) k = Ok c) by (pose proof (get_mid (repeat "0"%char k) l c rest) as G; rewrite repeat_length in G; exact G). rewrite G. cbn [bind].
    assert (B : beq c "0" = false) by (destruct (beq c "0") eqn:B; auto; apply beq_true in B; congruence). now rewrite B.
  - assert (G : aget (map Some (repeat "0"%char k ++ c :: l) ++ rest) i = Ok "0"%char).
    { replace k with (i + S d) by lia. rewrite repeat_app. cbn [repeat app]. rewrite <- app_assoc. cbn [app].
      pose proof (get_mid (repeat "0"%char i) (repeat "0"%char d ++ c :: l) "0"%char rest) as G. rewrite repeat_length in G. exact G. }
    rewrite G. cbn [bind]. change (beq "0" "0") with true. cbv iota. apply IH; lia.
Qed.
Lemma repeat_split (x : byte) : forall j a b, repeat x j = a ++ b -> a = repeat x (length a) /\ b = repeat x (length b).
Proof.
  intros j a. revert j. induction a as [|y a IH]; intros j b E.
  - cbn in E. subst b. split; [reflexivity|]. now rewrite repeat_length.
  - destruct j as [|j]; [discriminate|]. cbn in E. injection E as <- E. destruct (IH _ _ E) as [A B]. split; [cbn; now rewrite <- A|exact B].
Qed.
Lemma last_zeros k d : 0 < k -> last (repeat "0"%char k) d = "0"%char.
Proof. intros P. destruct k as [|k]; [lia|]. clear P. induction k as [|k IH]; [reflexivity|]. exact IH. Qed.
Lemma last_app_ne {A} (a b : list A) d : b <> [] -> last (a ++ b) d = last b d.
Proof. intros NE. induction a as [|x a IH]; [reflexivity|]. cbn [app]. rewrite <- IH. destruct (a ++ b) eqn:E; [|reflexivity]. apply app_eq_nil in E as [_ E]. congruence. Qed.

Lemma frac_spec p r fs fs' k strip : all_digits fs -> length fs = p -> number fs = r -> (r < 2 ^ 64)%Z ->
  (if strip : bool then fs = fs' ++ repeat "0"%char k /\ last fs' "1"%char <> "0"%char else fs' = fs) ->
  exists fc fpos omit lead,
    (if negb (r =? 0)%Z then convert r 10 false else Ok (repeat None MAX_CONVERT_LENGTH, 0)) = Ok (fc, fpos) /\
    (if strip then
       if 0 <? fpos then let* omitcount := omit_loop (S fpos) fc fpos 0 in Ok (omitcount, (Z.of_nat p - Z.of_nat fpos)%Z)
       else Ok (Z.to_nat (Z.of_nat p), 0%Z)
     else Ok (0, (Z.of_nat p - Z.of_nat fpos)%Z)) = Ok (omit, lead) /\
    (Z.of_nat p - Z.of_nat omit = Z.of_nat (length fs'))%Z /\
    forall t, (let* o := out_n size (Z.to_nat lead) (W t) "0"%char in frac_out size o fc fpos omit) = Ok (W (t ++ fs')).
Proof.
  intros F LF NF RB ST. pose proof (digits_form F) as [D0 D1]. rewrite NF in D0, D1.
  assert (R0 : (0 <= r)%Z) by (rewrite <- NF; now apply digit_nonneg).
  destruct (Z.eqb_spec r 0) as [E|E]; cbn [negb].
  - specialize (D0 E). exists (repeat None MAX_CONVERT_LENGTH), 0. cbn [Nat.ltb Nat.leb]. destruct strip.
    + destruct ST as [ES LS]. assert (fs' = []).
      { rewrite D0 in ES. apply repeat_split in ES as [ES _]. rewrite ES in LS. destruct fs'; auto. rewrite last_zeros in LS by (cbn; lia). congruence. }
      subst fs'. exists p, 0%Z. rewrite Nat2Z.id. repeat split; [cbn; lia|]. intros t. cbn. now rewrite app_nil_r.
    + subst fs'. exists 0, (Z.of_nat p). rewrite Z.sub_0_r. repeat split; [lia|]. intros t. rewrite Nat2Z.id. rewrite (@out_n_spec m0 size SZ). cbn [bind frac_out]. rewrite <- LF, <- D0. reflexivity.
  - destruct D1 as (j & ds & EF & NT); [lia|].
    assert (LP : p = j + length ds) by (rewrite <- LF, EF, app_length, repeat_length; reflexivity).
    exists (map Some (rev ds) ++ repeat None (43 - length ds)), (length ds). rewrite (convert_ten NT RB).
    assert (NZ : forall n, ds <> repeat "0"%char n).
    { intros n Eds. rewrite Eds in NT. apply notation_number in NT. rewrite number_zeros in NT. congruence. }
    assert (DN : 0 < length ds) by (destruct ds; [exfalso; now apply (NZ 0)|cbn; lia]).
    rewrite (proj2 (Nat.ltb_lt _ _) DN). destruct strip.
    + destruct ST as [ES LS]. rewrite EF in ES. apply app_eq_app in ES as (l & [[E1 E2]|[E1 E2]]).
      { exfalso. apply repeat_split in E2 as [_ E2]. apply (NZ _ E2). }
      assert (NL : l <> []) by (intros ->; apply (NZ k); exact E2).
      assert (LL : last l "1"%char <> "0"%char) by (rewrite E1, last_app_ne in LS by exact NL; exact LS).
      destruct (exists_last NL) as (l0 & c & EL).
      assert (NC : c <> "0"%char) by (rewrite EL, last_last in LL; exact LL).
      assert (RD : rev ds = repeat "0"%char k ++ c :: rev l0).
      { rewrite E2, EL, !rev_app_distr. cbn [rev app]. f_equal. clear. induction k as [|k IH]; [reflexivity|]. cbn [repeat rev]. rewrite IH. clear. induction k as [|k IH]; [reflexivity|]. cbn [repeat app]. now rewrite IH. }
      exists k, (Z.of_nat j). assert (LDS : length ds = length (repeat "0"%char k ++ c :: rev l0)) by now rewrite <- RD, rev_length.
      split; [reflexivity|]. split; [|split].
      * rewrite RD, LDS. rewrite omit_loop_spec; [|exact NC|lia|rewrite app_length, repeat_length; lia]. cbn [bind]. rewrite <- LDS. do 2 f_equal. lia.
      * rewrite E1, app_length, repeat_length. rewrite LP, E2, app_length, repeat_length. lia.
      * intros t. rewrite Nat2Z.id, (@out_n_spec m0 size SZ). cbn [bind]. rewrite E2.
        pose proof (@frac_out_spec (repeat "0"%char k) l (repeat None (43 - length (l ++ repeat "0"%char k))) (t ++ repeat "0"%char j)) as FO. rewrite repeat_length in FO. rewrite FO.
        rewrite E1. now rewrite <- app_assoc.
    + subst fs'. exists 0, (Z.of_nat j). split; [reflexivity|]. split; [|split].
      * do 2 f_equal. lia.
      * lia.
      * intros t. rewrite Nat2Z.id, (@out_n_spec m0 size SZ). cbn [bind].
        pose proof (@frac_out_spec [] ds (repeat None (43 - length ds)) (t ++ repeat "0"%char j)) as FO. rewrite app_nil_r in FO. cbn [length] in FO. rewrite FO.
        rewrite EF. now rewrite <- app_assoc.
Qed.

Definition opt_text (c : option byte) : list byte := match c with Some c => [c] | None => [] end.
Lemma char_out_spec c t : char_out size (W t) c = Ok (W (t ++ opt_text c)).
Proof. destruct c; cbn [char_out opt_text]; [apply (@outchar m0 size SZ)|now rewrite app_nil_r]. Qed.

Lemma float_out_spec sign width fl (estyle strip : bool) p n X es t txt : (0 <= width)%Z -> p <= 19 -> (0 <= n)%Z -> (n / 10 ^ Z.of_nat p < 2 ^ 64)%Z ->
  (if estyle then exponent_text (F_UP fl) X es /\ (-99 <= X <= 99)%Z else es = []) ->
  decimal p (F_NUM fl) strip n txt ->
  float_out size (W t) sign width fl estyle strip (Z.of_nat p) (n / 10 ^ Z.of_nat p)%Z (n mod 10 ^ Z.of_nat p)%Z X =
  Ok (W (t ++ pad (if F_MINUS fl then Left else if F_ZERO fl then Zeros else Right) (Z.to_nat width) (opt_text sign) (txt ++ es))).
Proof.
  intros WD P19 N0 IB EX [ds fs fs' k NI F LF NF ST].
  assert (MP : (0 < 10 ^ Z.of_nat p)%Z) by (apply Z.pow_pos_nonneg; lia).
  assert (MB : (10 ^ Z.of_nat p <= 10 ^ 19)%Z) by (apply Z.pow_le_mono_r; lia).
  assert (RB : (n mod 10 ^ Z.of_nat p < 2 ^ 64)%Z) by (pose proof (Z.mod_pos_bound n _ MP); lia).
  destruct (@frac_spec p (n mod 10 ^ Z.of_nat p)%Z fs fs' k strip F LF NF RB ST) as (fc & fpos & omit & lead & C1 & C2 & C3 & C4).
  set (r := (n mod 10 ^ Z.of_nat p)%Z) in *. clearbody r. set (ip := (n / 10 ^ Z.of_nat p)%Z) in *. clearbody ip.
  assert (EC : exists ec, (if estyle then exponent_chars X (F_UP fl) else Ok (repeat None 4, 0)) = Ok (map Some (rev es) ++ ec, length es)).
  { destruct estyle.
    - destruct EX as [ET R]. destruct (exponent_chars_spec ET R) as [E L]. exists []. rewrite E, L, app_nil_r. reflexivity.
    - subst es. exists (repeat None 4). reflexivity. }
  destruct EC as (ec & EC). unfold float_out. rewrite EC. cbn [bind]. rewrite (convert_ten NI IB). cbn [bind]. rewrite C1. cbn [bind]. rewrite C2. cbn [bind]. cbv zeta. clear C1 C2 EC.
  rewrite C3. clear C3.
  assert (EP : ((Z.of_nat (length fs') >? 0)%Z || F_NUM fl) = (F_NUM fl || negb (length fs' =? 0))).
  { rewrite orb_comm. f_equal. destruct fs' as [|x fs']; reflexivity. }
  rewrite EP. set (pt := F_NUM fl || negb (length fs' =? 0)) in *. clearbody pt.
  set (digits := (ds ++ (if pt then lit "." else []) ++ fs') ++ es).
  set (pl := (width - Z.of_nat (length ds) - Z.of_nat (length es) - Z.of_nat (length fs') - (if pt then 1 else 0) - match sign with Some _ => 1 | None => 0 end)%Z).
  set (pad_n := Z.to_nat width - length (opt_text sign ++ digits)).
  assert (PN : Z.to_nat (if (pl <? 0)%Z then 0%Z else pl) = pad_n).
  { subst pl pad_n digits. rewrite !app_length. assert (length (opt_text sign) = match sign with Some _ => 1 | None => 0 end) by (destruct sign; reflexivity).
    assert (length (if pt then lit "." else []) = if pt then 1 else 0) by (destruct pt; reflexivity).
    match goal with |- context [if (?x <? 0)%Z then _ else _] => destruct (Z.ltb_spec x 0) end; destruct sign, pt; lia. }
  assert (ZF : ((if (pl <? 0)%Z then 0 else pl) >? 0)%Z = (0 <? pad_n)).
  { rewrite <- PN. destruct (0 <? Z.to_nat (if (pl <? 0)%Z then 0%Z else pl)) eqn:E.
    - apply Nat.ltb_lt in E. rewrite Z.gtb_ltb. apply Z.ltb_lt. lia.
    - apply Nat.ltb_ge in E. rewrite Z.gtb_ltb. apply Z.ltb_ge. lia. }
  rewrite ZF, PN. clearbody pl. clear ZF PN.
  assert (TAIL : forall t', (let* o := digits_out size (W t') (map Some (rev ds) ++ repeat None (43 - length ds)) (length ds) in
      let* o := char_out size o (if pt then Some "."%char else None) in
      let* o := out_n size (Z.to_nat lead) o "0"%char in
      let* o := frac_out size o fc fpos omit in
      let* o := digits_out size o (map Some (rev es) ++ ec) (length es) in
      if F_MINUS fl then out_n size pad_n o " "%char else Ok o) = Ok (W (t' ++ digits ++ if F_MINUS fl then repeat " "%char pad_n else []))).
  { intros t'. rewrite (@digits_out_spec m0 size SZ). cbn [bind]. rewrite char_out_spec. cbn [bind].
    specialize (C4 ((t' ++ ds) ++ opt_text (if pt then Some "."%char else None))).
    destruct (out_n size (Z.to_nat lead) (W ((t' ++ ds) ++ opt_text (if pt then Some "."%char else None))) "0"%char) as [o| | |]; try discriminate C4. cbn [bind] in C4 |- *. rewrite C4. cbn [bind].
    rewrite (@digits_out_spec m0 size SZ). cbn [bind]. subst digits. 
    replace (opt_text (if pt then Some "."%char else None)) with (if pt then lit "." else []) by (destruct pt; reflexivity).
    destruct (F_MINUS fl); [rewrite (@out_n_spec m0 size SZ)|rewrite app_nil_r]; now rewrite <- !app_assoc. }
  unfold pad. fold digits pad_n. destruct (F_MINUS fl) eqn:FM; cbn [negb andb orb].
  - cbn [bind]. rewrite char_out_spec. cbn [bind]. rewrite TAIL. now rewrite <- !app_assoc.
  - destruct (F_ZERO fl) eqn:FZ; cbn [andb orb bind].
    + destruct (Nat.ltb_spec 0 pad_n) as [C|C].
      * rewrite char_out_spec. cbn [bind]. rewrite (@out_n_spec m0 size SZ). cbn [bind]. rewrite TAIL. rewrite app_nil_r. now rewrite <- !app_assoc.
      * assert (pad_n = 0) as -> by lia. cbn [out_n bind repeat app]. rewrite char_out_spec. cbn [bind]. rewrite TAIL. rewrite app_nil_r. now rewrite <- !app_assoc.
    + rewrite (@out_n_spec m0 size SZ). cbn [bind]. rewrite char_out_spec. cbn [bind]. rewrite TAIL. rewrite app_nil_r. now rewrite <- !app_assoc.
Qed.
End P.
