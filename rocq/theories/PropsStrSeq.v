(** C28: serialization of string sequences; C64: the other operations on them. *)
From Verif Require Import Prelude PreludeFacts Str StrFacts Libc LibcFacts EditModel EditProofs EditProofs2 EditProofs3 WriterModel PropsWriter IoModel IoProofs PropsIo MemSpec BufProofs StrSeqModel.
Set Implicit Arguments.

(** ** Specification: the format *)
(** ten characters: a decimal number, then anything that is not a digit, a blank at the end *)
Definition good_prefix (p : list byte) (n : nat) : Prop :=
  length p = 10 /\ last p NUL = " "%char /\
  exists ds rest, p = ds ++ rest /\ ds <> [] /\ forallb isdigit ds = true /\
                  match rest with c :: _ => isdigit c = false | [] => True end /\ undec ds = N.of_nat n.
(** the text [s] stands for the strings [ss] *)
Inductive serial : list (list byte) -> list byte -> Prop :=
| serial_nil : serial [] []
| serial_cons p t ss s : good_prefix p (length t) -> serial ss s -> serial (t :: ss) (p ++ t ++ [ascii_of_N 10] ++ s).

(** ** Proofs *)
Lemma gp_det p n m : good_prefix p n -> good_prefix p m -> n = m.
Proof.
  intros [_ [_ [ds [r [E [N [F [B U]]]]]]]] [_ [_ [ds' [r' [E' [N' [F' [B' U']]]]]]]].
  pose proof (@span_app isdigit ds r F B) as S1. pose proof (@span_app isdigit ds' r' F' B') as S2. rewrite <- E in S1. rewrite <- E' in S2. rewrite S1 in S2. injection S2 as -> _. lia.
Qed.
Lemma app_inv_len (A : Type) (a b c d : list A) : a ++ b = c ++ d -> length a = length c -> a = c /\ b = d.
Proof.
  revert c. induction a as [|x a IH]; intros [|y c] E L; try discriminate L; [auto|]. injection E as -> E. injection L as L. destruct (IH c E L) as [-> ->]. auto.
Qed.
Lemma record_det p t r p' t' r' : p ++ t ++ [cNEWL] ++ r = p' ++ t' ++ [cNEWL] ++ r' -> good_prefix p (length t) -> good_prefix p' (length t') -> p = p' /\ t = t' /\ r = r'.
Proof.
  intros E G G'. assert (Lp : length p = length p') by (destruct G as [-> _], G' as [-> _]; reflexivity).
  destruct (@app_inv_len _ _ _ _ _ E Lp) as [-> E2]. pose proof (gp_det G G') as L. destruct (@app_inv_len _ _ _ _ _ E2 L) as [-> E3]. injection E3 as ->. auto.
Qed.

Lemma hasnul_spec l : forall a j i, i = length a -> HasNulByte (a ++ map Some l ++ j) i (length l) = Ok (existsb (fun c => beq c NUL) l).
Proof.
  induction l as [|c l IH]; intros a j i E; [reflexivity|]. cbn [length HasNulByte map app existsb].
  assert (G : aget (a ++ Some c :: map Some l ++ j) i = Ok c) by (unfold aget; rewrite nth_error_app2, E, Nat.sub_diag by lia; reflexivity).
  rewrite G. cbn [bind]. destruct (beq c NUL); [reflexivity|]. specialize (IH (a ++ [Some c]) j (S i)). rewrite <- app_assoc in IH. cbn [app] in IH. apply IH. rewrite app_length. cbn. lia.
Qed.
Lemma existsb_cstr s : is_cstr s -> existsb (fun c => beq c NUL) s = false.
Proof. intros C. destruct (existsb _ s) eqn:E; [|reflexivity]. apply existsb_exists in E as [c [I B]]. apply beq_true in B. subst. destruct (C I). Qed.
Lemma hasnul_short s : forall a j i n, i = length a -> is_cstr s -> length s < n -> HasNulByte (a ++ map Some s ++ Some NUL :: j) i n = Ok true.
Proof.
  induction s as [|c s IH]; intros a j i n E C L.
  - destruct n as [|n]; [cbn in L; lia|]. cbn [HasNulByte map app]. unfold aget. rewrite nth_error_app2, E, Nat.sub_diag by lia. cbn [nth_error bind]. rewrite beq_refl. reflexivity.
  - apply is_cstr_cons in C as [N C]. destruct n as [|n]; [cbn in L; lia|]. cbn [HasNulByte map app].
    assert (G : aget (a ++ Some c :: map Some s ++ Some NUL :: j) i = Ok c) by (unfold aget; rewrite nth_error_app2, E, Nat.sub_diag by lia; reflexivity).
    rewrite G. cbn [bind]. apply beq_false in N. rewrite N. specialize (IH (a ++ [Some c]) j (S i) n). rewrite <- app_assoc in IH. cbn [app] in IH. apply IH; auto; [rewrite app_length; cbn; lia|cbn in L; lia].
Qed.

Lemma aget_at (a : cells byte) c b i : i = length a -> aget (a ++ Some c :: b) i = Ok c.
Proof. intros ->. unfold aget. rewrite nth_error_app2, Nat.sub_diag by lia. reflexivity. Qed.

(** GetLengthPrefix on ten characters *)
Lemma prefix_spec (p : list byte) a j : length p = 10 -> is_cstr p ->
  exists z, GetLengthPrefix (a ++ map Some p ++ j) (length a) = Ok z /\
   ((exists n, z = Z.of_nat n /\ good_prefix p n) \/ (z = (-1)%Z /\ forall n, ~ good_prefix p n)).
Proof.
  intros L C. unfold GetLengthPrefix, STR_LENGTH_PREFIX_LEN. pose proof (@hasnul_spec p a j (length a) eq_refl) as HN. rewrite L, existsb_cstr in HN by exact C. rewrite HN. cbn [bind].
  destruct p as [|c0 p]; [discriminate L|]. cbn [map app]. rewrite aget_at by reflexivity. cbn [bind].
  destruct (isdigit c0) eqn:D0; cbn [negb].
  2:{ exists (-1)%Z. split; [reflexivity|]. right. split; [reflexivity|]. intros n [_ [_ [ds [r [E [N [F _]]]]]]]. destruct ds as [|d ds]; [congruence|]. injection E as -> _. cbn in F. rewrite D0 in F. discriminate. }
  assert (G9 : aget (a ++ Some c0 :: map Some p ++ j) (length a + (10 - 1)) = Ok (last (c0 :: p) NUL)).
  { destruct (@exists_last _ (c0 :: p) ltac:(discriminate)) as [q [c9 Eq]]. rewrite Eq, last_last. change (Some c0 :: map Some p ++ j) with (map Some (c0 :: p) ++ j). rewrite Eq.
    rewrite map_app, <- !app_assoc. cbn [map app]. rewrite app_assoc. apply aget_at. rewrite app_length, map_length. rewrite Eq, app_length in L. cbn in L. lia. }
  rewrite G9. cbn [bind]. destruct (beq_spec (last (c0 :: p) NUL) cSPACE) as [S|S]; cbn [negb].
  2:{ exists (-1)%Z. split; [reflexivity|]. right. split; [reflexivity|]. intros n [_ [X _]]. exact (S X). }
  change (Some c0 :: map Some p ++ j) with (map Some (c0 :: p) ++ j). pose proof (@aread_mid a (c0 :: p) j (length a) eq_refl) as AR. rewrite L in AR. rewrite AR. cbn [bind].
  eexists. split; [reflexivity|]. left. exists (N.to_nat (undec (fst (span isdigit (c0 :: p))))). split; [lia|].
  destruct (span isdigit (c0 :: p)) as [ds r] eqn:E. cbn [fst]. destruct (span_eq _ _ E) as [E1 [E2 E3]]. split; [exact L|]. split; [exact S|].
  exists ds, r. split; [exact E1|]. split; [|split; [exact E2|split; [destruct r; auto|lia]]]. intros ->. cbn in E. rewrite D0 in E. destruct (span isdigit p). discriminate.
Qed.

(** one round of the loop *)
Definition round_ (m : cells byte) (src : nat) : res (option (cells byte * nat)) :=
  let* length_ := GetLengthPrefix m src in
  let src := src + STR_LENGTH_PREFIX_LEN in
  if (length_ <? 0)%Z then Ok None
  else let* before := aget m (src - 1) in
       if negb (beq before cSPACE) then Ok None
       else let n := Z.to_nat length_ in
            let* new_str := ValidDuplicate m src n in
            match new_str with
            | None => Ok None
            | Some new_str => let* after := aget m (src + n) in if negb (beq after cNEWL) then Ok None else Ok (Some (new_str, src + n + 1))
            end.
Lemma deserialize_round fuel m src acc : deserialize (S fuel) m src acc =
  let* c := aget m src in if beq c NUL then Ok (Some acc) else let* o := round_ m src in match o with None => Ok None | Some (d, src) => deserialize fuel m src (acc ++ [d]) end.
Proof.
  cbn [deserialize]. unfold round_. destruct (aget m src) as [c| | |]; [|reflexivity..]. cbn [bind]. destruct (beq c NUL); [reflexivity|].
  destruct (GetLengthPrefix m src) as [z| | |]; [|reflexivity..]. cbn [bind]. destruct (z <? 0)%Z; [reflexivity|].
  destruct (aget m (src + STR_LENGTH_PREFIX_LEN - 1)) as [b| | |]; [|reflexivity..]. cbn [bind]. destruct (negb (beq b cSPACE)); [reflexivity|].
  destruct (ValidDuplicate _ _ _) as [[d|]| | |]; [|reflexivity..]. cbn [bind]. destruct (aget m _) as [e| | |]; [|reflexivity..]. cbn [bind]. destruct (negb (beq e cNEWL)); reflexivity.
Qed.

Definition mem (s : list byte) (j : cells byte) : cells byte := map Some s ++ Some NUL :: j.
Lemma round_spec (a s : list byte) j : is_cstr s -> exists o, round_ (map Some a ++ mem s j) (length a) = Ok o /\
  ((exists p t r d, o = Some (d, length a + 10 + length t + 1) /\ holds d t /\ s = p ++ t ++ [cNEWL] ++ r /\ good_prefix p (length t)) \/
   (o = None /\ forall p t r, s = p ++ t ++ [cNEWL] ++ r -> ~ good_prefix p (length t))).
Proof.
  intros C. unfold round_, mem. destruct (Nat.lt_ge_cases (length s) 10) as [G|G].
  - exists None. unfold GetLengthPrefix. rewrite hasnul_short by (rewrite ?map_length; auto). cbn [bind Z.ltb Z.compare]. split; [reflexivity|]. right. split; [reflexivity|].
    intros p t r E [L _]. apply (f_equal (@length byte)) in E. rewrite app_length in E. lia.
  - set (p := firstn 10 s). set (q := skipn 10 s). assert (Es : s = p ++ q) by (symmetry; apply firstn_skipn).
    assert (Lp : length p = 10) by (unfold p; rewrite firstn_length; lia). rewrite Es in C. apply is_cstr_app in C as [Cp Cq].
    rewrite Es. rewrite map_app, <- app_assoc.
    destruct (@prefix_spec p (map Some a) (map Some q ++ Some NUL :: j) Lp Cp) as [z [E Z]]. rewrite map_length in E. rewrite E. cbn [bind].
    destruct Z as [[n [-> P]]|[-> P]].
    2:{ exists None. split; [reflexivity|]. right. split; [reflexivity|]. intros p' t r E' G'. assert (Lpp : length p = length p') by (destruct G' as [-> _]; exact Lp).
        destruct (@app_inv_len _ _ _ _ _ E' Lpp) as [-> _]. exact (P _ G'). }
    replace (Z.of_nat n <? 0)%Z with false by (symmetry; apply Z.ltb_ge; lia). rewrite Nat2Z.id.
    assert (G9 : aget (map Some a ++ map Some p ++ map Some q ++ Some NUL :: j) (length a + STR_LENGTH_PREFIX_LEN - 1) = Ok cSPACE).
    { destruct P as [_ [P9 _]]. destruct (@exists_last _ p) as [p' [c9 Ep]]; [intros X; rewrite X in Lp; discriminate|]. rewrite Ep, last_last in P9. subst c9. rewrite Ep.
      rewrite map_app, <- !app_assoc. cbn [map app]. rewrite app_assoc. apply aget_at. rewrite app_length, !map_length. rewrite Ep, app_length in Lp. cbn in Lp. unfold STR_LENGTH_PREFIX_LEN. lia. }
    rewrite G9. cbn [bind]. change (beq cSPACE cSPACE) with true. cbn [negb].
    unfold ValidDuplicate, STR_LENGTH_PREFIX_LEN.
    replace (skipn (length a + 10) (map Some a ++ map Some p ++ map Some q ++ Some NUL :: j)) with (mem q j).
    2:{ unfold mem; rewrite app_assoc, <- map_app, skipn_app_ge by (rewrite map_length, app_length; lia). rewrite map_length, app_length. replace (length a + 10 - (length a + length p)) with 0 by lia. reflexivity. }
    assert (Hq : holds (mem q j) q) by (split; [exact Cq|exists j; reflexivity]). rewrite (proj2 (mstr_holds _ _) Hq). cbn [bind].
    destruct (@StringCopy_spec q (repeat (Some NUL) (n + 1)) (n + 1) Cq) as [d [Ed [Hd _]]]; [rewrite repeat_length; lia|]. rewrite Ed. cbn [bind].
    replace (n + 1 - 1) with n in Hd by lia.
    assert (NO : forall p' t r, p ++ q = p' ++ t ++ [cNEWL] ++ r -> good_prefix p' (length t) -> q = t ++ [cNEWL] ++ r /\ length t = n).
    { intros p' t r E' G'. assert (Lpp : length p = length p') by (destruct G' as [-> _]; exact Lp). destruct (@app_inv_len _ _ _ _ _ E' Lpp) as [<- E2]. split; [exact E2|]. exact (gp_det G' P). }
    destruct (Nat.ltb_spec (length q) (n + 1)) as [H|H].
    + destruct (Nat.ltb_spec (length q) n) as [H'|H'].
      * exists None. split; [reflexivity|]. right. split; [reflexivity|]. intros p' t r E' G'. destruct (NO _ _ _ E' G') as [X Y]. apply (f_equal (@length byte)) in X. rewrite app_length in X. lia.
      * exists None. split; [|right; split; [reflexivity|]].
        -- assert (A : aget (map Some a ++ map Some p ++ map Some q ++ Some NUL :: j) (length a + 10 + n) = Ok NUL).
           { rewrite !app_assoc, <- !map_app. apply aget_at. rewrite map_length, !app_length. lia. }
           rewrite A. reflexivity.
        -- intros p' t r E' G'. destruct (NO _ _ _ E' G') as [X Y]. apply (f_equal (@length byte)) in X. rewrite app_length in X. cbn [app length] in X. lia.
    + replace (n + 1 <? n) with false by (symmetry; apply Nat.ltb_ge; lia).
      assert (Eq : q = firstn n q ++ nth n q NUL :: skipn (S n) q) by (rewrite <- (firstn_skipn n q) at 1; f_equal; apply skipn_cons_nth; lia).
      assert (Ln : length (firstn n q) = n) by (rewrite firstn_length; lia).
      assert (A : aget (map Some a ++ map Some p ++ map Some q ++ Some NUL :: j) (length a + 10 + n) = Ok (nth n q NUL)).
      { rewrite Eq at 1. rewrite map_app. cbn [map]. rewrite <- app_assoc. cbn [app]. rewrite !app_assoc, <- !map_app. apply aget_at. rewrite map_length, !app_length. lia. }
      rewrite A. cbn [bind]. destruct (beq_spec (nth n q NUL) cNEWL) as [B|B]; cbn [negb].
      * eexists. split; [reflexivity|]. left. exists p, (firstn n q), (skipn (S n) q), d. rewrite Ln. split; [reflexivity|]. split; [exact Hd|]. split; [|exact P].
        rewrite Eq at 1. rewrite B. reflexivity.
      * exists None. split; [reflexivity|]. right. split; [reflexivity|]. intros p' t r E' G'. destruct (NO _ _ _ E' G') as [X Y]. apply B. rewrite X, app_nth2 by lia. rewrite Y, Nat.sub_diag. reflexivity.
Qed.

Lemma deserialize_spec fuel : forall (a s : list byte) j acc, is_cstr s -> length s < fuel -> exists o, deserialize fuel (map Some a ++ mem s j) (length a) acc = Ok o /\
  ((exists ss ds, serial ss s /\ o = Some (acc ++ ds) /\ Forall2 holds ds ss) \/ ((forall ss, ~ serial ss s) /\ o = None)).
Proof.
  induction fuel as [|fuel IH]; intros a s j acc C L; [lia|]. rewrite deserialize_round. destruct s as [|c s].
  - change (mem [] j) with (Some NUL :: j). rewrite aget_at by (rewrite map_length; reflexivity). cbn [bind]. rewrite beq_refl. eexists. split; [reflexivity|]. left. exists [], []. split; [constructor|]. rewrite app_nil_r. auto.
  - assert (A : aget (map Some a ++ mem (c :: s) j) (length a) = Ok c) by (unfold mem; apply aget_at; rewrite map_length; reflexivity).
    rewrite A. cbn [bind]. apply is_cstr_cons in C as C'. destruct C' as [N C']. apply beq_false in N. rewrite N.
    destruct (@round_spec a (c :: s) j C) as [o [E [[p [t [r [d [-> [H [Es G]]]]]]]|[-> NO]]]]; rewrite E; cbn [bind].
    + specialize (IH (a ++ p ++ t ++ [cNEWL]) r j (acc ++ [d])).
      assert (Cr : is_cstr r) by (rewrite Es in C; apply is_cstr_app in C as [_ C]; apply is_cstr_app in C as [_ C]; apply is_cstr_app in C as [_ C]; exact C).
      assert (Lp : length p = 10) by (destruct G as [G0 _]; exact G0).
      assert (Lr : length r < fuel) by (apply (f_equal (@length byte)) in Es; rewrite !app_length in Es; cbn [length] in Es; cbn [length] in L; lia).
      destruct (IH Cr Lr) as [o [E' D]].
      replace (map Some (a ++ p ++ t ++ [cNEWL]) ++ mem r j) with (map Some a ++ mem (c :: s) j) in E'.
      2:{ rewrite Es. unfold mem. rewrite !map_app, <- !app_assoc. reflexivity. }
      replace (length (a ++ p ++ t ++ [cNEWL])) with (length a + 10 + length t + 1) in E' by (rewrite !app_length; cbn [length]; lia).
      exists o. split; [exact E'|]. destruct D as [[ss [ds [D1 [D2 D3]]]]|[D1 D2]].
      * left. exists (t :: ss), (d :: ds). split; [rewrite Es; constructor; auto|]. split; [rewrite D2, <- app_assoc; reflexivity|]. constructor; auto.
      * right. split; [|exact D2]. intros ss S. inversion S as [Q1 Q2|p' t' ss' s' G' S' Q1 Q2]; subst. rewrite Es in Q2. destruct (@record_det _ _ _ _ _ _ Q2 G' G) as [_ [_ ->]]. exact (D1 _ S').
    + eexists. split; [reflexivity|]. right. split; [|reflexivity]. intros ss S. inversion S as [Q1 Q2|p' t' ss' s' G' S' Q1 Q2]; subst. exact (NO _ _ _ (eq_sym Q2) G').
Qed.

(** Deserialization of any string is memory safe, succeeds exactly on texts in the format
    and returns exactly the strings they stand for. *)
Theorem C28_deserialize m s : holds m s -> exists o, SeqStringDeserialize m = Ok o /\
  ((exists ss ds, serial ss s /\ o = Some ds /\ Forall2 holds ds ss) \/ ((forall ss, ~ serial ss s) /\ o = None)).
Proof.
  intros [C [j ->]]. unfold SeqStringDeserialize. destruct (@deserialize_spec (S (length (mem s j))) [] s j [] C) as [o [E D]]; [unfold mem; rewrite app_length, map_length; lia|].
  exists o. split; [exact E|exact D].
Qed.
(** The format is unambiguous. *)
Theorem C28_unambiguous ss ss' s : serial ss s -> serial ss' s -> ss = ss'.
Proof.
  intros S. revert ss'. induction S as [|p t ss s G S IH]; intros ss' S'.
  - inversion S' as [|p t ss s G S Q1 Q2]; [reflexivity|]. destruct p; [destruct G; discriminate|discriminate].
  - inversion S' as [Q1 Q2|p' t' ss2 s' G' S2 Q1 Q2]; subst.
    + destruct p; [destruct G; discriminate|discriminate].
    + destruct (@record_det _ _ _ _ _ _ Q2 G' G) as [_ [-> ->]]. f_equal. apply IH. exact S2.
Qed.

(** ** Writing *)
Definition record_text (s : list byte) : list byte := ljust10 (udec (N.of_nat (length s))) ++ s ++ [cNEWL].
Definition short (s : list byte) : Prop := (N.of_nat (length s) < 10 ^ 9)%N.
Lemma record_good s : short s -> good_prefix (ljust10 (udec (N.of_nat (length s)))) (length s).
Proof.
  intros H. set (u := udec (N.of_nat (length s))). assert (L : length u <= 9) by (apply udec_length; [exact H|lia]).
  unfold ljust10. split; [rewrite app_length, repeat_length; lia|]. assert (R : repeat cSPACE (10 - length u) = repeat cSPACE (9 - length u) ++ [cSPACE]).
  { replace (10 - length u) with ((9 - length u) + 1) by lia. rewrite repeat_app. reflexivity. }
  split; [rewrite R, app_assoc, last_last; reflexivity|]. exists u, (repeat cSPACE (10 - length u)). split; [reflexivity|]. split; [apply udec_nonempty|]. split; [apply udec_digits|].
  split; [replace (10 - length u) with (S (9 - length u)) by lia; reflexivity|apply udec_undec].
Qed.
Lemma cstr_record s : is_cstr s -> is_cstr (record_text s).
Proof.
  intros C. unfold record_text, ljust10. rewrite !is_cstr_app. split; [split; [apply udec_cstr|]|split; [exact C|intros [X|[]]; discriminate]].
  intros I. apply repeat_spec in I. discriminate.
Qed.
Lemma records_serial ss : Forall short ss -> serial ss (concat (map record_text ss)).
Proof.
  induction 1 as [|s ss H Hs IH]; [constructor|]. cbn [map concat]. unfold record_text at 1. rewrite <- !app_assoc. constructor; [apply record_good; exact H|exact IH].
Qed.
Lemma write_ok ss : forall w a, wholds w a -> Forall is_cstr ss -> Forall short ss -> exists w', SeqStringWrite ss w = Ok (w', true) /\ wholds w' (a ++ concat (map record_text ss)) /\
  match w, w' with WT_STRING _, WT_STRING _ | WT_FILE _, WT_FILE _ => True | _, _ => False end.
Proof.
  induction ss as [|s ss IH]; intros w a H C S.
  - exists w. cbn [SeqStringWrite map concat]. rewrite app_nil_r. split; [reflexivity|]. split; [exact H|]. destruct w; exact Logic.I.
  - inversion_clear C as [|? ? C1 C2]. inversion_clear S as [|? ? S1 S2]. cbn [SeqStringWrite]. unfold WriteLenPrefixedString. fold (record_text s).
    assert (Lg : wlegal (WF (record_text s))).
    { split; [apply cstr_record; exact C1|]. unfold record_text. rewrite !app_length. destruct (record_good S1) as [L _]. rewrite L. unfold short in S1. cbn [length]. change (10 ^ 9)%N with 1000000000%N in S1. lia. }
    destruct (@wcall_ok w a (WF (record_text s)) H Lg) as [w1 [E [H1 K1]]]. cbn [wcall wtext] in E, H1. rewrite E. cbn [bind].
    assert (NZ : length (record_text s) =? 0 = false) by (apply Nat.eqb_neq; unfold record_text; rewrite !app_length; cbn [length]; lia). rewrite NZ. cbn [negb].
    destruct (IH w1 _ H1 C2 S2) as [w2 [E2 [H2 K2]]]. exists w2. split; [exact E2|]. cbn [map concat]. rewrite app_assoc. split; [exact H2|]. destruct w, w1, w2; auto.
Qed.

(** Serializing any sequence of C strings shorter than 10^9 bytes and deserializing the result
    gives the same strings. *)
Theorem C28_round_trip ss : Forall is_cstr ss -> Forall short ss -> exists d ds,
  SeqStringSerialize ss = Ok d /\ SeqStringDeserialize d = Ok (Some ds) /\ Forall2 holds ds ss.
Proof.
  intros C S. destruct (@write_ok ss StringWriter []) as [w [E [H K]]]; auto.
  { split; [reflexivity|]. split; [reflexivity|]. exists []. reflexivity. }
  cbn in K. destruct w as [i|]; [|destruct K]. cbn [app wholds] in H. destruct H as [H1 [H2 [r H3]]]. set (t := concat (map record_text ss)) in *.
  assert (Ct : is_cstr t). { unfold t. clear - C. induction C; cbn; [intros []|]. apply is_cstr_app. split; [apply cstr_record; assumption|assumption]. }
  assert (Hd : holds (wdata i) t) by (split; [exact Ct|exists r; exact H3]).
  destruct (C28_deserialize Hd) as [o [Eo [[ss' [ds [D1 [D2 D3]]]]|[D1 _]]]]; [|exfalso; exact (D1 _ (records_serial S))].
  rewrite (C28_unambiguous D1 (records_serial S)) in D3. exists (wdata i), ds. split; [unfold SeqStringSerialize; rewrite E; reflexivity|]. split; [rewrite Eo, D2; reflexivity|exact D3].
Qed.

(** ** Reading from a file *)
Lemma FullRead_exact (b r : list byte) rs : match FullRead (mkIn (b ++ r) rs) (repeat None (length b)) 0 (length b) with
  | Ok (f, m, z) => (z = Z.of_nat (length b) /\ m = map Some b /\ left_ f = r /\ exists used, rs = used ++ ranswers f /\ progress used <= length b) \/ (z = (-1)%Z /\ In Fail rs)
  | Fuel => ~ In Fail rs /\ progress rs <= length b
  | _ => False
  end.
Proof.
  unfold FullRead. cbn [ranswers left_]. pose proof (read_loop_spec rs (b ++ r) (repeat None (length b)) 0 (length b) 0) as H. rewrite repeat_length in H. specialize (H (le_n _)).
  destruct (read_loop _ _ _ _ _ _) as [[[f m] z]| | |]; auto.
  - destruct H as [k [u [K1 [K2 [K3 [K4 [K6 [[E1 E2]|[E1 E2]]]]]]]]].
    + left. rewrite app_length in E2. assert (Ek : k = length b) by lia. clear E2. subst k. assert (FA : firstn (length b) (b ++ r) = b) by (rewrite firstn_app_le, firstn_all2 by lia; reflexivity). rewrite FA in K2. rewrite skipn_app_ge, Nat.sub_diag in K3 by lia.
      split; [exact E1|]. split.
      { rewrite K2. unfold stored. cbn [firstn app Nat.add]. rewrite skipn_all2 by (rewrite repeat_length; lia). apply app_nil_r. }
      split; [exact K3|]. exists u. split; [exact K4|]. rewrite Nat.ltb_irrefl in K6. lia.
    + right. split; [exact E1|]. rewrite K4. apply in_or_app. auto.
  - destruct H as [H1 H2]. rewrite app_length in H2. split; [exact H1|lia].
Qed.

Lemma ReadLen_spec p t r rs : is_cstr p -> is_cstr t -> good_prefix p (length t) ->
  match ReadLenPrefixedString (mkIn (p ++ t ++ [cNEWL] ++ r) rs) with
  | Ok (f, z, d) => (z = 1%Z /\ (exists m, d = Some m /\ holds m t) /\ left_ f = r /\ exists used, rs = used ++ ranswers f /\ progress used <= 11 + length t) \/ (z = (-1)%Z /\ In Fail rs)
  | Fuel => progress rs <= 11 + length t
  | _ => False
  end.
Proof.
  intros Cp Ct G. assert (Lp : length p = 10) by (destruct G as [G0 _]; exact G0). unfold ReadLenPrefixedString.
  pose proof (FullRead_exact p (t ++ [cNEWL] ++ r) rs) as H. rewrite Lp in H. change STR_LENGTH_PREFIX_LEN with 10.
  destruct (FullRead _ _ _ _) as [[[f m] z]| | |]; cbn [bind]; auto; [|lia].
  destruct H as [[-> [-> [E [u [U1 U2]]]]]|[-> I]].
  2:{ cbn. auto. }
  change (Z.of_nat 10 =? 0)%Z with false. change (Z.of_nat 10 <? 0)%Z with false. cbn iota.
  destruct (@prefix_spec p [] [] Lp Cp) as [z [P [[n [-> P']]|[_ P']]]]; [|exfalso; exact (P' _ G)].
  rewrite app_nil_r in P. cbn [app length] in P. rewrite <- (gp_det G P') in P. clear P'.
  assert (G9 : aget (map Some p) (10 - 1) = Ok cSPACE).
  { destruct G as [_ [P9 _]]. destruct (@exists_last _ p) as [p' [c9 Ep]]; [intros X; rewrite X in Lp; discriminate|]. rewrite Ep, last_last in P9. subst c9. rewrite Ep.
    rewrite map_app. apply aget_at. rewrite map_length. rewrite Ep, app_length in Lp. cbn in Lp. lia. }
  rewrite G9. cbn [bind]. change (beq cSPACE cSPACE) with true. cbn [massert]. rewrite P. cbn [bind].
  set (size := (Z.of_nat (length t) + 1)%Z). assert (Es : Z.to_nat size = length (t ++ [cNEWL])) by (rewrite app_length; cbn [length]; unfold size; lia). rewrite Es.
  destruct f as [lf ra]. cbn [left_ ranswers] in E, U1. subst lf. rewrite app_assoc.
  pose proof (FullRead_exact (t ++ [cNEWL]) r ra) as H. destruct (FullRead _ _ _ _) as [[[f m] z]| | |]; cbn [bind]; auto.
  - destruct H as [[-> [-> [E [u' [U1' U2']]]]]|[-> I]].
    + rewrite app_length in *. cbn [length] in *. replace (Z.of_nat (length t + 1) =? size)%Z with true by (symmetry; apply Z.eqb_eq; unfold size; lia). cbn [negb].
      replace (Z.of_nat (length t) <? 0)%Z with false by (symmetry; apply Z.ltb_ge; lia). rewrite Nat2Z.id.
      rewrite map_app. cbn [map]. rewrite aget_at by (rewrite map_length; reflexivity). cbn [bind]. change (beq cNEWL cNEWL) with true. cbn [negb].
      rewrite (@write_at t [Some cNEWL] (length t) NUL eq_refl) by (cbn; lia). cbn [bind]. left. split; [reflexivity|]. split.
      { eexists. split; [reflexivity|]. split; [exact Ct|]. exists []. rewrite map_app, <- app_assoc. reflexivity. }
      split; [exact E|]. exists (u ++ u'). rewrite <- app_assoc, <- U1'. split; [exact U1|]. unfold progress in *. rewrite filter_app, app_length. lia.
    + replace (-1 =? size)%Z with false by (symmetry; apply Z.eqb_neq; unfold size; lia). cbn [negb]. right. split; [reflexivity|]. rewrite U1. apply in_or_app. auto.
  - destruct H as [_ H]. rewrite app_length in H. cbn [length] in H. rewrite U1. unfold progress in *. rewrite filter_app, app_length. lia.
Qed.
Lemma read_file_spec ss : Forall is_cstr ss -> Forall short ss -> forall fuel rs acc, length (concat (map record_text ss)) < fuel ->
  match read_file fuel (mkIn (concat (map record_text ss)) rs) acc with
  | Ok (Some ds) => exists ds', ds = acc ++ ds' /\ Forall2 holds ds' ss
  | Ok None => In Fail rs
  | Fuel => progress rs <= length (concat (map record_text ss))
  | _ => False
  end.
Proof.
  intros C. induction C as [|s ss Cs C IH]; intros S fuel rs acc L.
  - destruct fuel as [|fuel]; [lia|]. cbn [map concat read_file]. unfold ReadLenPrefixedString. change STR_LENGTH_PREFIX_LEN with 10.
    unfold FullRead. cbn [ranswers left_]. pose proof (read_loop_spec rs [] (repeat None 10) 0 10 0 ltac:(rewrite repeat_length; lia)) as H.
    destruct (read_loop _ _ _ _ _ _) as [[[f m] z]| | |]; cbn [bind]; auto; [|cbn in *; lia].
    destruct H as [k [u [K1 [K2 [K3 [K4 [K6 [[E1 E2]|[E1 E2]]]]]]]]].
    + cbn in E2. subst. cbn. exists []. rewrite app_nil_r. auto.
    + subst z. cbn. rewrite K4. apply in_or_app. auto.
  - inversion_clear S as [|? ? S1 S2]. destruct fuel as [|fuel]; [lia|]. cbn [map concat] in *. set (R := concat (map record_text ss)) in *. cbn [read_file].
    assert (Lr : length (record_text s) = 11 + length s) by (unfold record_text; rewrite !app_length; destruct (record_good S1) as [X _]; rewrite X; cbn [length]; lia).
    rewrite app_length in L.
    assert (Cp : is_cstr (ljust10 (udec (N.of_nat (length s))))) by (pose proof (cstr_record Cs) as X; unfold record_text in X; apply is_cstr_app in X; tauto).
    pose proof (@ReadLen_spec (ljust10 (udec (N.of_nat (length s)))) s R rs Cp Cs (record_good S1)) as H.
    replace (record_text s ++ R) with (ljust10 (udec (N.of_nat (length s))) ++ s ++ [cNEWL] ++ R) by (unfold record_text; rewrite <- !app_assoc; reflexivity).
    destruct (ReadLenPrefixedString _) as [[[f z] d]| | |]; cbn [bind]; auto.
    + destruct H as [[-> [[m [-> Hm]] [E [u [U1 U2]]]]]|[-> I]]; [|exact I].
      change (1 <? 0)%Z with false. change (1 =? 0)%Z with false. cbn iota. destruct f as [lf ra]. cbn [left_ ranswers] in E, U1. subst lf.
      specialize (IH S2 fuel ra (acc ++ [m]) ltac:(lia)). destruct (read_file fuel _ _) as [[ds|]| | |]; auto.
      * destruct IH as [ds' [-> IH]]. exists (m :: ds'). split; [rewrite <- app_assoc; reflexivity|]. constructor; auto.
      * rewrite U1. apply in_or_app. auto.
      * rewrite U1, !app_length. unfold progress in *. rewrite filter_app, app_length. cbn [length]. 
        assert (length (ljust10 (udec (N.of_nat (length s)))) = 10) by (destruct (record_good S1) as [X _]; exact X). lia.
    + rewrite !app_length. cbn [length]. assert (length (ljust10 (udec (N.of_nat (length s)))) = 10) by (destruct (record_good S1) as [X _]; exact X). lia.
Qed.

(** Writing a sequence to a file and reading it back, whatever way the kernel cuts the reads,
    gives the same strings, or NULL if the kernel failed. *)
Theorem C28_file_round_trip ss rs : Forall is_cstr ss -> Forall short ss -> exists file,
  SeqStringWriteFileStream ss = Ok (file, true) /\
  match SeqStringReadFile (mkIn file rs) with
  | Ok (Some ds) => Forall2 holds ds ss
  | Ok None => In Fail rs
  | Fuel => progress rs <= length file
  | _ => False
  end.
Proof.
  intros C S. destruct (@write_ok ss FileWriter []) as [w [E [H K]]]; [reflexivity|exact C|exact S|]. cbn in K. destruct w as [|f]; [destruct K|]. cbn [wholds app] in H. subst f.
  exists (concat (map record_text ss)). split; [unfold SeqStringWriteFileStream; rewrite E; reflexivity|].
  unfold SeqStringReadFile. cbn [left_]. pose proof (@read_file_spec ss C S (1 + (length (concat (map record_text ss)))) rs [] (Nat.lt_succ_diag_r _)) as X.
  destruct (read_file _ _ _) as [[ds|]| | |]; auto. destruct X as [ds' [-> X]]. exact X.
Qed.

(** A string of 10^9 bytes or more does not survive: its length leaves no blank in the prefix. *)
Theorem C28_long_string_refuted s : is_cstr s -> (10 ^ 9 <= N.of_nat (length s) <= 2147483000)%N -> exists d,
  SeqStringSerialize [s] = Ok d /\ SeqStringDeserialize d = Ok None.
Proof.
  intros C [L1 L2]. set (u := udec (N.of_nat (length s))).
  assert (Lu : length u = 10).
  { assert (X : length u <= 10) by (apply udec_length; [change (10 ^ N.of_nat 10)%N with 10000000000%N; lia|lia]).
    assert (Y : ~ length u <= 9); [|lia]. intros Y. pose proof (@undec_lt u (udec_digits _)) as Z. unfold u in Z at 1. rewrite udec_undec in Z.
    assert (10 ^ N.of_nat (length u) <= 10 ^ 9)%N by (apply N.pow_le_mono_r; lia). lia. }
  assert (Lr : length (record_text s) = 11 + length s) by (unfold record_text, ljust10; fold u; rewrite !app_length, repeat_length, Lu; cbn [length]; lia).
  assert (Lg : wlegal (WF (record_text s))) by (split; [apply cstr_record; exact C|rewrite Lr; lia]).
  destruct (@wcall_ok StringWriter [] (WF (record_text s))) as [w [E [H K]]]; [|exact Lg|].
  { split; [reflexivity|]. split; [reflexivity|]. exists []. reflexivity. }
  cbn in K. destruct w as [i|]; [|destruct K]. cbn [app wholds wtext wcall] in H, E. destruct H as [H1 [H2 [r H3]]].
  exists (wdata i). split.
  { unfold SeqStringSerialize. cbn [SeqStringWrite]. unfold WriteLenPrefixedString. fold (record_text s). rewrite E. cbn [bind]. rewrite Lr. reflexivity. }
  assert (Hd : holds (wdata i) (record_text s)) by (split; [apply cstr_record; exact C|exists r; exact H3]).
  destruct (C28_deserialize Hd) as [o [Eo [[ss' [ds [D1 [D2 D3]]]]|[D1 D2]]]]; [exfalso|rewrite Eo, D2; reflexivity].
  inversion D1 as [Q1 Q2|p t ss s' G S Q1 Q2].
  - apply (f_equal (@length byte)) in Q2. rewrite Lr in Q2. discriminate.
  - unfold record_text in Q2. fold u in Q2. destruct G as [G1 [G2 _]].
    assert (Ep : p = ljust10 u) by (apply (@app_inv_len _ _ _ _ _ Q2); unfold ljust10; rewrite app_length, repeat_length; lia).
    unfold ljust10 in Ep. rewrite Lu in Ep. cbn [repeat Nat.sub] in Ep. rewrite app_nil_r in Ep.
    pose proof (udec_digits (N.of_nat (length s))) as F. fold u in F. rewrite <- Ep in F. rewrite forallb_forall in F.
    assert (I : In (last p NUL) p). { destruct (@exists_last _ p) as [p' [c Ec]]; [intros X; rewrite X in G1; discriminate|]. rewrite Ec, last_last. apply in_or_app. right. left. reflexivity. }
    apply F in I. rewrite G2 in I. discriminate.
Qed.
(** A damaged prefix is accepted if its first digits and last blank survive. *)
Theorem C28_damaged_prefix_refuted : exists ds, SeqStringDeserialize (block (lit "3xyz!4 7  abc" ++ [cNEWL])) = Ok (Some ds) /\ Forall2 holds ds [lit "abc"].
Proof. eexists. split; [reflexivity|]. constructor; [|constructor]. split; [intros H; repeat destruct H as [H|H]; try discriminate H; destruct H|]. exists []. reflexivity. Qed.
(** A file cut inside a prefix, or with a prefix that is not a number, is undefined behaviour. *)
Theorem C28_cut_file_refuted : SeqStringReadFile (mkIn (lit "3    ") [Done 9; Done 9]) = UB.
Proof. reflexivity. Qed.
Theorem C28_bad_file_refuted : SeqStringReadFile (mkIn (lit "x         ") [Done 9; Done 9; Done 9]) = UB.
Proof. reflexivity. Qed.
Example C28_example : Forall is_cstr [lit "ab"; []; lit "3         abc"] /\ Forall short [lit "ab"; []; lit "3         abc"].
Proof. split; repeat constructor; intros H; repeat destruct H as [H|H]; try discriminate H; destruct H. Qed.

(** * C64 *)
(** Splitting: joining the pieces with the delimiter gives the text back, no piece has the
    delimiter, and only a trailing empty piece is dropped. *)
Theorem C64_FromString s d : let ps := SeqStringFromString (Some s) d in
  Forall (fun p => ~ In d p) ps /\
  (s = [] /\ ps = [] \/ s <> [] /\ ps <> [] /\ (s = join [d] ps /\ last ps [] <> [] \/ s = join [d] ps ++ [d])).
Proof.
  cbn [SeqStringFromString].
  assert (G : forall s prev, ~ In d prev -> let ps := add_split prev s d in Forall (fun p => ~ In d p) ps /\
    (prev ++ s = [] /\ ps = [] \/ prev ++ s <> [] /\ ps <> [] /\ (prev ++ s = join [d] ps /\ last ps [] <> [] \/ prev ++ s = join [d] ps ++ [d]))).
  { clear s. induction s as [|c s IH]; intros prev N; cbn [add_split].
    - destruct prev as [|x prev]; cbn zeta; [split; [constructor|left; auto]|]. split; [repeat constructor; exact N|]. right. rewrite app_nil_r.
      split; [discriminate|]. split; [discriminate|]. left. split; [reflexivity|discriminate].
    - destruct (beq_spec c d) as [->|M]; cbn zeta.
      + destruct (IH [] (fun H => H)) as [F D]. cbn [app] in D. split; [constructor; auto|]. right. split; [destruct prev; discriminate|]. split; [discriminate|].
        destruct D as [[-> E]|[S1 [S2 D]]].
        * cbn [add_split]. right. reflexivity.
        * destruct (add_split [] s d) as [|q qs] eqn:E; [congruence|]. change (join [d] (prev :: q :: qs)) with (prev ++ [d] ++ join [d] (q :: qs)).
          destruct D as [[D1 D2]|D1]; [left; split; [rewrite D1 at 1; reflexivity|exact D2]|right; rewrite D1 at 1; rewrite <- !app_assoc; reflexivity].
      + assert (N' : ~ In d (prev ++ [c])) by (intros I; apply in_app_or in I as [I|[I|[]]]; auto).
        destruct (IH (prev ++ [c]) N') as [F D]. rewrite <- app_assoc in D. cbn [app] in D. split; [exact F|]. destruct D as [[D1 D2]|D]; [destruct prev; discriminate|]. right. exact D. }
  exact (G s [] (fun H => H)).
Qed.
Theorem C64_FromString_null d : SeqStringFromString None d = []. Proof. reflexivity. Qed.
(** hence the empty piece after a final delimiter is lost *)
Theorem C64_trailing_piece_refuted : SeqStringFromString (Some (lit "a,b,")) ","%char = SeqStringFromString (Some (lit "a,b")) ","%char.
Proof. reflexivity. Qed.
Theorem C64_Contains seq s : SeqStringContains seq s = true <-> In s seq.
Proof.
  unfold SeqStringContains. rewrite existsb_exists. split.
  - intros [x [I E]]. apply bytes_eqb_eq in E. subst. exact I.
  - intros I. exists s. split; [exact I|apply bytes_eqb_refl].
Qed.
(** The total length is right as long as it is an int; beyond it overflows. *)
Theorem C64_Length seq : SeqStringLength seq = if (Z.of_nat (length (concat seq)) <=? INT_MAX)%Z then Ok (Z.of_nat (length (concat seq))) else UB.
Proof.
  unfold SeqStringLength. assert (G : forall seq t, (t <= INT_MAX)%Z -> seq_string_length seq t = if (t + Z.of_nat (length (concat seq)) <=? INT_MAX)%Z then Ok (t + Z.of_nat (length (concat seq)))%Z else UB).
  { clear seq. induction seq as [|s seq IH]; intros t Ht; cbn [seq_string_length concat].
    - cbn [length]. rewrite Z.add_0_r. replace (t <=? INT_MAX)%Z with true by (symmetry; apply Z.leb_le; exact Ht). reflexivity.
    - rewrite app_length. replace (t + Z.of_nat (length s + length (concat seq)))%Z with (t + Z.of_nat (length s) + Z.of_nat (length (concat seq)))%Z by lia.
      destruct (Z.leb_spec (t + Z.of_nat (length s)) INT_MAX) as [H|H]; [apply IH; exact H|].
      destruct (Z.leb_spec (t + Z.of_nat (length s) + Z.of_nat (length (concat seq))) INT_MAX) as [H'|H']; [lia|reflexivity]. }
  apply (G seq 0%Z). unfold INT_MAX. lia.
Qed.
Example C64_example : SeqStringFromString (Some (lit ",a,,b")) ","%char = [[]; lit "a"; []; lit "b"] /\ SeqStringLength [lit "ab"; lit "c"] = Ok 3%Z.
Proof. split; reflexivity. Qed.
