(** Proofs about the integer conversions. *)
From Verif Require Import Prelude PreludeFacts Str StrFacts Libc LibcFacts MemSpec NumModel NumSpec EditProofs.
Set Implicit Arguments.
Local Open Scope Z_scope.

Lemma forallb_in (p : byte -> bool) l : (forall c, In c l -> p c = true) -> forallb p l = true.
Proof. intros H. apply forallb_forall. exact H. Qed.

Lemma scan_reads blank sign digits rest : (forall c, In c blank -> isspace c = true) ->
  digits <> [] -> (forall c, In c digits -> isdigit c = true) -> match rest with [] => True | c :: _ => isdigit c = false end ->
  (sign = [] \/ sign = ["+"%char] \/ sign = ["-"%char]) ->
  strto_scan (blank ++ sign ++ digits ++ rest) =
    (match sign with c :: _ => beq c "-"%char | [] => false end, digits, length (blank ++ sign ++ digits)).
Proof.
  intros B ND D R SG. unfold strto_scan.
  assert (S1 : forall x : list byte, match x with [] => True | c :: _ => isspace c = false end -> span isspace (blank ++ x) = (blank, x)).
  { intros x Hx. apply span_app; [apply forallb_in, B|exact Hx]. }
  destruct digits as [|d ds]; [congruence|].
  assert (Dd : isdigit d = true) by (apply D; left; reflexivity).
  assert (Ds : span isdigit ((d :: ds) ++ rest) = (d :: ds, rest)) by (apply span_app; [apply forallb_in, D|exact R]).
  assert (FD : isspace d = false /\ beq d "-"%char = false /\ beq d "+"%char = false).
  { clear -Dd. destruct d as [[] [] [] [] [] [] [] []]; vm_compute in Dd |- *; try discriminate; auto. }
  destruct FD as [F1 [F2 F3]].
  destruct SG as [-> | [-> | -> ]]; cbn [app].
  - rewrite (S1 (d :: ds ++ rest)) by exact F1. rewrite F2, F3. cbn [app] in Ds. rewrite Ds. rewrite app_length. cbn [length]. repeat f_equal; lia.
  - rewrite S1 by reflexivity. change (beq "+" "-") with false. change (beq "+" "+") with true. cbn iota. cbn [app] in Ds. rewrite Ds.
    rewrite app_length. cbn [length]. f_equal. lia.
  - rewrite S1 by reflexivity. change (beq "-" "-") with true. cbn iota. cbn [app] in Ds. rewrite Ds. rewrite app_length. cbn [length]. f_equal. lia.
Qed.

Lemma scan_none s : (forall v rest, ~ reads s v rest) -> exists neg, strto_scan s = (neg, [], 0%nat).
Proof.
  intros N. unfold strto_scan. destruct (span isspace s) as [sp r] eqn:E1. apply span_eq in E1 as [-> [B R]].
  assert (B' : forall c, In c sp -> isspace c = true) by (intros c I; eapply forallb_forall in B; eauto).
  assert (K : forall sign r2 ds rr, r = sign ++ r2 -> (sign = [] \/ sign = ["+"%char] \/ sign = ["-"%char]) -> span isdigit r2 = (ds, rr) -> ds = []).
  { intros sign r2 ds rr Er SG Es. destruct ds as [|d ds]; [reflexivity|exfalso]. apply span_eq in Es as [E2 [D R2]].
    apply (N (match sign with c :: _ => if beq c "-"%char then - Z.of_N (undec (d :: ds)) else Z.of_N (undec (d :: ds)) | [] => Z.of_N (undec (d :: ds)) end) rr).
    exists sp, sign, (d :: ds). split; [rewrite Er, E2; reflexivity|]. split; [exact B'|]. split; [discriminate|].
    split; [intros c I; eapply forallb_forall in D; eauto|]. split; [exact R2|].
    destruct SG as [-> | [-> | -> ]]; auto. }
  destruct r as [|c t].
  - exists false. reflexivity.
  - destruct (beq_spec c "-"%char) as [->|N1].
    + destruct (span isdigit t) as [ds rr] eqn:ES. rewrite (K ["-"%char] t ds rr) by auto. eauto.
    + destruct (beq_spec c "+"%char) as [->|N2].
      * destruct (span isdigit t) as [ds rr] eqn:ES. rewrite (K ["+"%char] t ds rr) by auto. eauto.
      * destruct (span isdigit (c :: t)) as [ds rr] eqn:ES. rewrite (K [] (c :: t) ds rr) by auto. eauto.
Qed.

Lemma undec_nil : undec [] = 0%N. Proof. reflexivity. Qed.

Lemma strtol_none s : (forall v rest, ~ reads s v rest) -> strtol s = (0, 0%nat, false).
Proof. intros N. unfold strtol. destruct (scan_none N) as [neg ->]. destruct neg; reflexivity. Qed.

Definition consumed (s rest : list byte) : nat := (length s - length rest)%nat.
Lemma strtol_reads s v rest : reads s v rest ->
  strtol s = if v >? LONG_MAX then (LONG_MAX, consumed s rest, true) else if v <? LONG_MIN then (LONG_MIN, consumed s rest, true) else (v, consumed s rest, false).
Proof.
  intros [b [sg [ds [E [B [ND [D [R V]]]]]]]]. unfold strtol.
  rewrite E, (@scan_reads b sg ds rest B ND D R) by (destruct V as [[[-> | ->] _]|[-> _]]; auto).
  assert (C : consumed (b ++ sg ++ ds ++ rest) rest = length (b ++ sg ++ ds)) by (unfold consumed; rewrite !app_length; lia).
  rewrite C. destruct V as [[[-> | ->] ->]|[-> ->]]; reflexivity.
Qed.
Lemma strtoul_reads s v rest : reads s v rest ->
  strtoul s = if Z.abs v >? ULONG_MAX then (ULONG_MAX, consumed s rest, true) else (v mod 2 ^ 64, consumed s rest, false).
Proof.
  intros [b [sg [ds [E [B [ND [D [R V]]]]]]]]. unfold strtoul.
  rewrite E, (@scan_reads b sg ds rest B ND D R) by (destruct V as [[[-> | ->] _]|[-> _]]; auto).
  assert (C : consumed (b ++ sg ++ ds ++ rest) rest = length (b ++ sg ++ ds)) by (unfold consumed; rewrite !app_length; lia).
  rewrite C. unfold ULONG_MAX in *.
  assert (A : Z.abs v = Z.of_N (undec ds)) by (destruct V as [[_ ->]|[_ ->]]; lia). rewrite A.
  assert (M : Z.of_N (undec ds) <= 2 ^ 64 - 1 -> Z.of_N (undec ds) mod 2 ^ 64 = Z.of_N (undec ds)) by (intros; apply Z.mod_small; lia).
  destruct V as [[[-> | ->] ->]|[-> ->]]; cbn iota.
  - destruct (Z.gtb_spec (Z.of_N (undec ds)) (2 ^ 64 - 1)); [reflexivity|]. rewrite M by lia. reflexivity.
  - change (beq "+" "-") with false. cbn iota. destruct (Z.gtb_spec (Z.of_N (undec ds)) (2 ^ 64 - 1)); [reflexivity|]. rewrite M by lia. reflexivity.
  - change (beq "-" "-") with true. cbn iota. destruct (Z.gtb_spec (Z.of_N (undec ds)) (2 ^ 64 - 1)); reflexivity.
Qed.
Lemma strtoul_none s : (forall v rest, ~ reads s v rest) -> strtoul s = (0, 0%nat, false).
Proof. intros N. unfold strtoul. destruct (scan_none N) as [neg ->]. destruct neg; reflexivity. Qed.

Lemma reads_pos s v rest : reads s v rest -> (0 < consumed s rest)%nat /\ exists pre, s = pre ++ rest /\ length pre = consumed s rest.
Proof.
  intros [b [sg [ds [-> [B [ND [D [R V]]]]]]]]. unfold consumed. rewrite !app_length. destruct ds as [|b0 ds]; [congruence|]. cbn [length]. split; [lia|].
  exists (b ++ sg ++ b0 :: ds). rewrite <- !app_assoc. split; [reflexivity|]. rewrite !app_length. cbn [length]. lia.
Qed.

Lemma bad_end_reads s v rest : is_cstr s -> reads s v rest -> ascii_next rest -> bad_end s (consumed s rest) = Ok (negb (ends_well rest)).
Proof.
  intros C R A. apply reads_pos in R as [_ [pre [E L]]]. rewrite <- L. rewrite E in C |- *. unfold bad_end. destruct rest as [|c rest].
  - rewrite app_nil_r, chr_end. cbn [bind]. rewrite beq_refl. reflexivity.
  - rewrite chr_app_mid. cbn [bind]. apply is_cstr_app in C as [_ C]. apply is_cstr_cons in C as [N _]. apply beq_false in N. rewrite N.
    cbn in A. unfold isspace_char. replace (128 <=? code c)%N with false by (symmetry; apply N.leb_gt; exact A). reflexivity.
Qed.

Lemma StringToLong_reads s v rest : is_cstr s -> reads s v rest -> ascii_next rest ->
  StringToLong s = Ok (if (v <? LONG_MIN) || (LONG_MAX <? v) then (ERANGE, None)
                       else if ends_well rest then (0, Some v) else (-83, None)).
Proof.
  intros C R A. unfold StringToLong. rewrite (strtol_reads R). pose proof (bad_end_reads C R A) as BE.
  destruct (reads_pos R) as [P _]. destruct (Z.gtb_spec v LONG_MAX).
  - replace (LONG_MAX <? v) with true by (symmetry; apply Z.ltb_lt; lia). rewrite orb_true_r. reflexivity.
  - replace (LONG_MAX <? v) with false by (symmetry; apply Z.ltb_ge; lia). rewrite orb_false_r. destruct (Z.ltb_spec v LONG_MIN); [reflexivity|].
    cbn [andb]. destruct (Nat.eqb_spec (consumed s rest) 0); [lia|]. rewrite BE. cbn [bind]. destruct (ends_well rest); reflexivity.
Qed.
Lemma StringToLong_none s : (forall v rest, ~ reads s v rest) -> StringToLong s = Ok (-81, None).
Proof. intros N. unfold StringToLong. rewrite strtol_none by exact N. reflexivity. Qed.

Lemma skip_blank_spec s e fuel : forall a b x, s = a ++ b ++ x -> (forall c, In c b -> isspace c = true) ->
  match x with [] => False | c :: _ => isspace c = false /\ (code c < 128)%N end -> (length a + length b < e)%nat -> (length b < fuel)%nat ->
  skip_blank fuel (length a) s e = Ok (length a + length b)%nat.
Proof.
  induction fuel as [|g IH]; intros a b x E B X L F; [lia|]. cbn [skip_blank].
  destruct (Nat.ltb_spec (length a) e); [|lia]. destruct b as [|c b].
  - rewrite E. cbn [app]. destruct x as [|c x]; [destruct X|]. rewrite chr_app_mid. cbn [bind]. destruct X as [X1 X2]. unfold isspace_char.
    replace (128 <=? code c)%N with false by (symmetry; apply N.leb_gt; exact X2). cbn [andb bind]. rewrite X1. f_equal. cbn. lia.
  - rewrite E. cbn [app]. rewrite chr_app_mid. cbn [bind]. assert (SC : isspace c = true) by (apply B; left; reflexivity).
    unfold isspace_char. assert (CL : (code c < 128)%N) by (clear -SC; destruct c as [[] [] [] [] [] [] [] []]; vm_compute in SC |- *; try discriminate; reflexivity).
    replace (128 <=? code c)%N with false by (symmetry; apply N.leb_gt; exact CL). cbn [andb bind]. rewrite SC.
    specialize (IH (a ++ [c]) b x). rewrite app_length in IH. cbn [length] in *. rewrite <- Nat.add_1_r. 
    replace (a ++ c :: b ++ x) with s by (rewrite E; reflexivity).
    rewrite IH; [f_equal; lia|rewrite <- app_assoc; exact E|intros y I; apply B; right; exact I|exact X|lia|lia].
Qed.

Lemma sign_char s v rest : reads s v rest -> v <> 0 -> 
  (let* ch := skip_blank (S (length s)) 0 s (consumed s rest) in let* c := chr s ch in Ok (beq c "-"%char)) = Ok (v <? 0).
Proof.
  intros R NZ. destruct R as [b [sg [ds [E [B [ND [D [RR V]]]]]]]].
  destruct ds as [|d ds]; [congruence|].
  assert (Dd : isdigit d = true) by (apply D; left; reflexivity).
  assert (FD : isspace d = false /\ beq d "-"%char = false /\ (code d < 128)%N).
  { clear -Dd. destruct d as [[] [] [] [] [] [] [] []]; vm_compute in Dd |- *; try discriminate; auto. }
  destruct FD as [F1 [F2 F3]].
  pose proof (@skip_blank_spec s (consumed s rest) (S (length s)) [] b (sg ++ (d :: ds) ++ rest)) as X. cbn [app length] in X.
  rewrite Nat.add_0_l in X. rewrite X; clear X; auto.
  - cbn [bind]. rewrite E. destruct V as [[[-> | ->] ->]|[-> ->]]; cbn [app]; rewrite chr_app_mid; cbn [bind].
    + rewrite F2. f_equal. symmetry. apply Z.ltb_ge. lia.
    + f_equal. symmetry. apply Z.ltb_ge. lia.
    + f_equal. symmetry. apply Z.ltb_lt. lia.
  - destruct V as [[[-> | ->] _]|[-> _]]; cbn; auto; split; auto; reflexivity.
  - unfold consumed. rewrite E, !app_length. cbn [length]. lia.
  - rewrite E, !app_length. lia.
Qed.

Lemma StringToUlong_reads s v rest : is_cstr s -> reads s v rest -> ascii_next rest ->
  StringToUlong s = Ok (if (v <? 0) || (ULONG_MAX <? v) then (ERANGE, None)
                        else if ends_well rest then (0, Some v) else (-83, None)).
Proof.
  intros C R A. unfold StringToUlong. rewrite (strtoul_reads R). pose proof (bad_end_reads C R A) as BE.
  destruct (reads_pos R) as [P _]. unfold ULONG_MAX in *. destruct (Z.gtb_spec (Z.abs v) (2 ^ 64 - 1)).
  - rewrite Z.eqb_refl. cbn [andb]. destruct (Z.ltb_spec v 0); [reflexivity|]. destruct (Z.ltb_spec (2 ^ 64 - 1) v); [reflexivity|lia].
  - cbn [andb]. replace (2 ^ 64 - 1 <? v) with false by (symmetry; apply Z.ltb_ge; lia). rewrite orb_false_r.
    destruct (Z.eq_dec v 0) as [Z0|NZ].
    + rewrite Z0. change (0 mod 2 ^ 64) with 0. cbn [Z.ltb Z.compare bind]. rewrite <- Z0.
      destruct (Nat.eqb_spec (consumed s rest) 0); [lia|]. rewrite BE. cbn [bind]. destruct (ends_well rest); reflexivity.
    + assert (PM : 0 < v mod 2 ^ 64).
      { pose proof (Z.mod_pos_bound v (2 ^ 64) ltac:(lia)). destruct (Z.eq_dec (v mod 2 ^ 64) 0) as [E0|]; [|lia].
        apply Z.mod_divide in E0 as [k Ek]; [|lia]. destruct (Z.eq_dec k 0); lia. }
      apply Z.ltb_lt in PM. rewrite PM. rewrite (sign_char R NZ). cbn [bind].
      destruct (Z.ltb_spec v 0); [reflexivity|]. destruct (Nat.eqb_spec (consumed s rest) 0); [lia|]. rewrite BE. cbn [bind].
      rewrite Z.mod_small by lia. destruct (ends_well rest); reflexivity.
Qed.
Lemma StringToUlong_none s : (forall v rest, ~ reads s v rest) -> StringToUlong s = Ok (-81, None).
Proof. intros N. unfold StringToUlong. rewrite strtoul_none by exact N. reflexivity. Qed.

Lemma reads_unique s v r v' r' : reads s v r -> reads s v' r' -> v = v' /\ r = r'.
Proof.
  intros [b [sg [ds [E [B [ND [D [R V]]]]]]]] [b' [sg' [ds' [E' [B' [ND' [D' [R' V']]]]]]]].
  assert (X1 : strto_scan s = (match sg with c :: _ => beq c "-"%char | [] => false end, ds, length (b ++ sg ++ ds))).
  { rewrite E. apply scan_reads; auto. destruct V as [[[-> | ->] _]|[-> _]]; auto. }
  assert (X2 : strto_scan s = (match sg' with c :: _ => beq c "-"%char | [] => false end, ds', length (b' ++ sg' ++ ds'))).
  { rewrite E'. apply scan_reads; auto. destruct V' as [[[-> | ->] _]|[-> _]]; auto. }
  rewrite X1 in X2. injection X2 as Y1 -> Y3. split.
  - destruct V as [[[-> | ->] ->]|[-> ->]], V' as [[[-> | ->] ->]|[-> ->]]; auto; discriminate.
  - assert (G : skipn (length (b ++ sg ++ ds')) s = r).
    { rewrite E, !app_assoc, skipn_app, <- !app_assoc, Nat.sub_diag, skipn_all. reflexivity. }
    assert (G' : skipn (length (b' ++ sg' ++ ds')) s = r').
    { rewrite E', !app_assoc, skipn_app, <- !app_assoc, Nat.sub_diag, skipn_all. reflexivity. }
    rewrite <- G, <- G', Y3. reflexivity.
Qed.

Lemma reads_sdec z : reads (sdec z) z [].
Proof.
  assert (X : forall n, (forall c, In c (udec n) -> isdigit c = true)) by (intros n c I; eapply forallb_forall in I; [exact I|apply udec_digits]).
  destruct z as [|p|p]; unfold sdec.
  - exists [], [], (udec (Z.to_N 0)). rewrite app_nil_r. cbn [app]. split; [reflexivity|]. split; [intros c []|]. split; [apply udec_nonempty|].
    split; [apply X|]. split; [exact Logic.I|]. left. split; [auto|]. reflexivity.
  - exists [], [], (udec (Z.to_N (Zpos p))). rewrite app_nil_r. cbn [app]. split; [reflexivity|]. split; [intros c []|]. split; [apply udec_nonempty|].
    split; [apply X|]. split; [exact Logic.I|]. left. split; [auto|]. rewrite udec_undec. reflexivity.
  - exists [], ["-"%char], (udec (Npos p)). rewrite app_nil_r. cbn [app]. split; [reflexivity|]. split; [intros c []|]. split; [apply udec_nonempty|].
    split; [apply X|]. split; [exact Logic.I|]. right. split; [auto|]. rewrite udec_undec. reflexivity.
Qed.
Lemma sdec_cstr z : is_cstr (sdec z).
Proof. destruct z; unfold sdec; try apply udec_cstr. apply is_cstr_cons. split; [discriminate|apply udec_cstr]. Qed.
Lemma sdec_length z : LONG_MIN <= z <= LONG_MAX -> (length (sdec z) <= 20)%nat.
Proof.
  unfold LONG_MIN, LONG_MAX. intros R. destruct z as [|p|p]; unfold sdec.
  - cbn. lia.
  - pose proof (@udec_length (Z.to_N (Z.pos p)) 19) as X. assert (length (udec (Z.to_N (Z.pos p))) <= 19)%nat by (apply X; [change (10 ^ N.of_nat 19)%N with 10000000000000000000%N; lia|lia]). lia.
  - pose proof (@udec_length (N.pos p) 19) as X. assert (length (udec (N.pos p)) <= 19)%nat by (apply X; [change (10 ^ N.of_nat 19)%N with 10000000000000000000%N; lia|lia]). cbn [length]. lia.
Qed.
