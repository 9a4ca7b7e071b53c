(** C134-C136: functions with a printf format: buffers, strings, writers, FILEs. *)
From Verif Require Import Prelude PreludeFacts Str StrFacts Libc LibcFacts MemSpec PrintfModel PrintfSpec PrintfProofs PrintfProofs4 PropsPrintf BufModel BufSpec BufProofs PropsBuf WriterModel PropsWriter CsvModel FormatModel.
From Coq Require Import QArith Qabs Lqa.
Local Close Scope Q_scope.
Set Implicit Arguments.

(** * C134: BufferPrintf, BufferVPrintf, BufferAppendF *)
Lemma vsnprintf_same m off size is args t st : Forall wf_item is -> expands supported 0 is args t st -> off + size <= length m ->
  vsnprintf m off size (renders is) args = (let* ' (m', _) := mvsnprintf m off size t in Ok (m', printf_result t)).
Proof.
  intros WF E L. unfold vsnprintf. rewrite (proj2 (Nat.ltb_ge _ _)) by lia.
  assert (SZ : size <= length (skipn off m)) by (rewrite skipn_length; lia).
  pose proof (C91_vsnprintf_partial (skipn off m) WF E SZ) as V. unfold cells in V |- *. rewrite V. cbn [bind]. unfold mvsnprintf, terminated.
  destruct size as [|n]; cbn [Nat.eqb bind]; [now rewrite firstn_skipn|]. replace (S n - 1) with n by lia. cbv zeta.
  rewrite skipn_length in SZ. rewrite acopy_Ok; [|rewrite firstn_length; lia|rewrite length_block; lia]. cbn [bind]. do 2 f_equal.
  cbn [skipn]. rewrite (@firstn_all2 _ (S (length (firstn n t))) (block (firstn n t))) by (rewrite length_block; lia). rewrite block_eq, <- app_assoc. cbn [app]. do 2 f_equal.
  rewrite skipn_skipn, firstn_length. do 2 f_equal. lia.
Qed.
Lemma expand_length b n : length (bmem b) = bcap b -> length (bmem (ExpandIfNeeded b n)) = bcap (ExpandIfNeeded b n).
Proof. intros L. unfold ExpandIfNeeded. destruct (bcap b <=? n); [|exact L]. cbn [bmem bcap]. unfold arealloc. rewrite app_length, firstn_length, repeat_length. lia. Qed.
Lemma size_t_small n : (Z.of_nat n < 2 ^ 64)%Z -> Z.to_nat (to_size_t (Z.of_nat n)) = n.
Proof. intros L. unfold to_size_t. rewrite Z.mod_small by lia. lia. Qed.
Lemma mvsnprintf_length m off size t m' n : mvsnprintf m off size t = Ok (m', n) -> n = length t /\ length m' = length m.
Proof.
  unfold mvsnprintf. destruct (size =? 0); [intros H; injection H as <- <-; auto|]. cbv zeta.
  destruct (acopy m off (block (firstn (size - 1) t)) 0 (S (length (firstn (size - 1) t)))) as [m1| | |] eqn:A; try discriminate. cbn [bind]. intros H. injection H as <- <-.
  split; auto. now apply acopy_length in A.
Qed.
Lemma BufferVPrintf_same b is args t st : Forall wf_item is -> expands supported 0 is args t st -> length (bmem b) = bcap b ->
  (Z.of_nat (length t) < INT_MAX)%Z ->
  BufferVPrintf b (renders is) args = (let* ' (b', n) := BufferPrintf b t in Ok (b', Z.of_nat n)).
Proof.
  intros WF E L LI. assert (PR : printf_result t = Z.of_nat (length t)) by (unfold printf_result; now rewrite (proj2 (Z.leb_gt _ _) LI)).
  unfold INT_MAX in LI.
  unfold BufferVPrintf, BufferPrintf. rewrite (@vsnprintf_same (bmem b) 0 (bcap b) is args t st WF E) by lia. rewrite PR.
  destruct (mvsnprintf (bmem b) 0 (bcap b) t) as [[m n]| | |] eqn:M; [|reflexivity|reflexivity|reflexivity]. cbn [bind]. cbn [bcap bmem bmd bused].
  destruct (mvsnprintf_length _ _ _ _ M) as [-> LM]. rewrite (proj2 (Z.ltb_ge _ _)) by lia.
  destruct (Nat.leb_spec (bcap b) (length t)) as [F|F].
  - rewrite (proj2 (Z.leb_le _ _)) by lia. cbv zeta. rewrite Nat2Z.id. set (b2 := ExpandIfNeeded _ _).
    assert (L2 : length (bmem b2) = bcap b2) by (apply expand_length; cbn; congruence).
    rewrite (@vsnprintf_same (bmem b2) 0 (bcap b2) is args t st WF E) by lia. rewrite PR.
    destruct (mvsnprintf (bmem b2) 0 (bcap b2) t) as [[m2 n2]| | |] eqn:M2; [|reflexivity|reflexivity|reflexivity]. cbn [bind].
    destruct (mvsnprintf_length _ _ _ _ M2) as [-> _]. rewrite size_t_small by lia. reflexivity.
  - rewrite (proj2 (Z.leb_gt _ _)) by lia. rewrite size_t_small by lia. reflexivity.
Qed.
Lemma expand_room b n : (Z.of_nat n < 2 ^ 62)%Z -> n < bcap (ExpandIfNeeded b n).
Proof.
  intros L. unfold ExpandIfNeeded. destruct (Nat.leb_spec (bcap b) n) as [H|H]; [|exact H]. cbn [bcap].
  pose proof (@upper_ge (N.of_nat (n + 1))) as U. change (2 ^ 63)%N with 9223372036854775808%N in U. change (2 ^ 62)%Z with 4611686018427387904%Z in L. lia.
Qed.
Lemma BufferAppendF_same b is args t st : Forall wf_item is -> expands supported 0 is args t st -> length (bmem b) = bcap b -> bused b <= bcap b ->
  (Z.of_nat (length t) < INT_MAX)%Z -> (Z.of_nat (bused b + length t) < 2 ^ 62)%Z ->
  BufferAppendF b (renders is) args = BufModel.BufferAppendF b t.
Proof.
  intros WF E L UB_ LI LU. assert (PR : printf_result t = Z.of_nat (length t)) by (unfold printf_result; now rewrite (proj2 (Z.leb_gt _ _) LI)).
  unfold BufferAppendF, BufModel.BufferAppendF. rewrite (@vsnprintf_same (bmem b) (bused b) (bcap b - bused b) is args t st WF E) by lia. rewrite PR.
  destruct (mvsnprintf (bmem b) (bused b) (bcap b - bused b) t) as [[m n]| | |] eqn:M; [|reflexivity|reflexivity|reflexivity]. cbn [bind]. cbn [bcap bmem bmd bused].
  destruct (mvsnprintf_length _ _ _ _ M) as [-> LM]. unfold massert. rewrite (proj2 (Z.leb_le 0 _)) by lia. cbv iota.
  destruct (Nat.leb_spec (bcap b - bused b) (length t)) as [F|F].
  - rewrite (proj2 (Z.leb_le _ _)) by lia. cbv zeta. rewrite Nat2Z.id. set (b2 := ExpandIfNeeded _ _).
    assert (L2 : length (bmem b2) = bcap b2) by (apply expand_length; cbn; congruence).
    assert (U2 : bused b2 = bused b) by (unfold b2, ExpandIfNeeded; cbn [bcap bused]; now destruct (bcap b <=? _)).
    assert (K : bused b2 <= bcap b2) by (rewrite U2; pose proof (@expand_room (mkB m (bmd b) (bcap b) (bused b)) (bused b + length t) ltac:(lia)); subst b2; lia).
    rewrite (@vsnprintf_same (bmem b2) (bused b2) (bcap b2 - bused b2) is args t st WF E) by lia. rewrite PR.
    destruct (mvsnprintf (bmem b2) (bused b2) (bcap b2 - bused b2) t) as [[m2 n2]| | |] eqn:M2; [|reflexivity|reflexivity|reflexivity]. cbn [bind].
    destruct (mvsnprintf_length _ _ _ _ M2) as [-> _]. rewrite <- Nat2Z.inj_add, size_t_small by (rewrite U2; lia). reflexivity.
  - rewrite (proj2 (Z.leb_gt _ _)) by lia. rewrite <- Nat2Z.inj_add, size_t_small by lia. reflexivity.
Qed.
Lemma calls_snoc b os o : calls b (os ++ [o]) = (let* b := calls b os in call b o).
Proof. unfold calls. rewrite fold_left_app. reflexivity. Qed.
Lemma legal_snoc os : forall st o, legal_history st os -> legal (fold_left step os st) o -> legal_history st (os ++ [o]).
Proof. induction os as [|p os IH]; intros st o L LO; cbn in *; [auto|]. destruct L as [A B]. split; auto. Qed.
Lemma total_snoc os o : total (os ++ [o]) = total os + weight o.
Proof. unfold total. induction os as [|p os IH]; cbn [app fold_right]; lia. Qed.
Lemma length_after os : forall st, length (abytes (fold_left step os st)) <= length (abytes st) + total os.
Proof. induction os as [|o os IH]; intros st; cbn [fold_left total fold_right]; [lia|]. fold (total os). pose proof (IH (step st o)). pose proof (step_len st o). lia. Qed.
(** After any legal history, formatting a text without NUL that C99 says is t behaves like the call that is
    handed t: it gives the length of t, and the buffer can be used on. *)
Theorem C134_printf cap os is args t st : 0 < cap -> legal_history fresh os -> (N.of_nat (total (os ++ [OPrintf t])) < 2 ^ 62)%N ->
  Forall wf_item is -> expands supported 0 is args t st -> is_cstr t -> (Z.of_nat (length t) < INT_MAX)%Z ->
  exists b b', calls (BufferNewWithCapacity cap) os = Ok b /\ BufferVPrintf b (renders is) args = Ok (b', Z.of_nat (length t)) /\
    calls (BufferNewWithCapacity cap) (os ++ [OPrintf t]) = Ok b' /\ represents b' (mkA (amode (fold_left step os fresh)) t true).
Proof.
  intros P LH B WF E C LI. rewrite total_snoc in B. cbn [weight] in B. destruct (new_spec P) as [b0 [EN [R0 _]]]. rewrite EN.
  destruct (@calls_spec os b0 fresh R0 LH) as [b [Eb R]]. { unfold small, LIM. cbn [fresh abytes length]. lia. }
  destruct (@printf_spec b _ t R C) as [b' [Ep R']]. { unfold small, LIM. lia. }
  exists b, b'. split; [exact Eb|]. split.
  { rewrite (@BufferVPrintf_same b is args t st WF E) by (auto; exact (proj1 (proj2 (proj2 R)))). rewrite Ep. reflexivity. }
  split; [|exact (rep_represents R')]. rewrite calls_snoc, Eb. cbn [bind call]. rewrite Ep. reflexivity.
Qed.
Theorem C134_append cap os is args t st : 0 < cap -> legal_history fresh os -> (N.of_nat (total (os ++ [OAppendF t])) < 2 ^ 62)%N ->
  Forall wf_item is -> expands supported 0 is args t st -> is_cstr t -> (Z.of_nat (length t) < INT_MAX)%Z ->
  exists b b', calls (BufferNewWithCapacity cap) os = Ok b /\ BufferAppendF b (renders is) args = Ok b' /\
    calls (BufferNewWithCapacity cap) (os ++ [OAppendF t]) = Ok b' /\
    represents b' (mkA (amode (fold_left step os fresh)) (abytes (fold_left step os fresh) ++ t) true).
Proof.
  intros P LH B WF E C LI. rewrite total_snoc in B. cbn [weight] in B. destruct (new_spec P) as [b0 [EN [R0 _]]]. rewrite EN.
  destruct (@calls_spec os b0 fresh R0 LH) as [b [Eb R]]. { unfold small, LIM. cbn [fresh abytes length]. lia. }
  pose proof (length_after os fresh) as LA. cbn [fresh abytes length] in LA.
  destruct (@appendf_spec b _ t R C) as [b' [Ep R']]. { unfold small, LIM. fold fresh in LA. lia. }
  exists b, b'. split; [exact Eb|]. split.
  { rewrite <- Ep. destruct R as (M & U & L & _ & x & r & Em & _). apply (@BufferAppendF_same b is args t st WF E L); auto.
    - rewrite <- L, Em, app_length, map_length. lia.
    - rewrite U. change (2 ^ 62)%N with 4611686018427387904%N in B. change (2 ^ 62)%Z with 4611686018427387904%Z. fold fresh in LA. lia. }
  split; [|exact (rep_represents R')]. rewrite calls_snoc, Eb. exact Ep.
Qed.
(** whatever the format: a call that comes back leaves a buffer with a NUL inside of its memory, of the same mode *)
Theorem C134_any_format b format args b' r : 0 < bcap b -> length (bmem b) = bcap b -> BufferVPrintf b format args = Ok (b', r) ->
  length (bmem b') = bcap b' /\ bcap b <= bcap b' /\ BufferMode b' = BufferMode b /\ (exists i, i < bcap b' /\ nth_error (bmem b') i = Some (Some NUL)) /\
  ((r < 0)%Z -> r = (-1)%Z).
Proof.
  assert (V : forall m size, size <= length m -> forall m' n, vsnprintf m 0 size format args = Ok (m', n) ->
    length m' = length m /\ (0 < size -> exists i, i < size /\ nth_error m' i = Some (Some NUL)) /\ (-1 <= n < INT_MAX)%Z).
  { intros m size SZ m' n H. unfold vsnprintf in H. cbn [skipn firstn app] in H. change (length m <? 0) with false in H. cbv iota in H.
    destruct (@C92_never_outside m size format args SZ) as [_ X]. unfold cells in *.
    destruct (rpl_vsnprintf (Some m) size format args) as [[[m1 r1] st]| | |] eqn:E; try discriminate. cbn [bind] in H. injection H as <- <-.
    destruct (X _ _ _ eq_refl) as (A & _ & B & C). auto. }
  intros P L H. unfold BufferVPrintf in H. destruct (vsnprintf (bmem b) 0 (bcap b) format args) as [[m n]| | |] eqn:E; try discriminate.
  destruct (V (bmem b) (bcap b) ltac:(lia) _ _ E) as (L1 & N1 & R1). specialize (N1 P). cbn [bind] in H. cbn [bcap bmem bmd bused] in H. cbv zeta in H.
  destruct (Z.ltb_spec n 0) as [NEG|POS].
  { injection H as <- <-. cbn. repeat split; auto; try lia. }
  destruct (Z.leb_spec (Z.of_nat (bcap b)) n) as [F|F]; [|injection H as <- <-; cbn; repeat split; auto; lia].
  set (b1 := mkB m (bmd b) (bcap b) (bused b)) in *. assert (L2 : length (bmem (ExpandIfNeeded b1 (Z.to_nat n))) = bcap (ExpandIfNeeded b1 (Z.to_nat n))) by (apply expand_length; cbn; congruence).
  assert (LT : Z.to_nat n < bcap (ExpandIfNeeded b1 (Z.to_nat n))).
  { apply expand_room. unfold INT_MAX in R1. change (2 ^ 62)%Z with 4611686018427387904%Z. lia. }
  assert (MD : bmd (ExpandIfNeeded b1 (Z.to_nat n)) = bmd b) by (unfold ExpandIfNeeded; now destruct (bcap b1 <=? Z.to_nat n)).
  destruct (vsnprintf (bmem (ExpandIfNeeded b1 (Z.to_nat n))) 0 (bcap (ExpandIfNeeded b1 (Z.to_nat n))) format args) as [[m2 n2]| | |] eqn:E2; try discriminate.
  destruct (V (bmem (ExpandIfNeeded b1 (Z.to_nat n))) (bcap (ExpandIfNeeded b1 (Z.to_nat n))) ltac:(lia) _ _ E2) as (L3 & N3 & R3). cbn [bind] in H. injection H as <- <-. cbn. unfold BufferMode.
  split; [congruence|]. split; [lia|]. split; [exact MD|]. split; [apply N3; lia|lia].
Qed.
(** a text too long to be counted: -1 for BufferPrintf, the assertion for BufferAppendF *)
Theorem C134_too_long b is args t st : Forall wf_item is -> expands supported 0 is args t st -> length (bmem b) = bcap b -> bused b <= bcap b ->
  (INT_MAX <= Z.of_nat (length t))%Z ->
  (exists b', BufferVPrintf b (renders is) args = Ok (b', (-1)%Z) /\ BufferSize b' = BufferSize b /\ BufferMode b' = BufferMode b) /\
  BufferAppendF b (renders is) args = Abort.
Proof.
  intros WF E L U LI. assert (PR : printf_result t = (-1)%Z) by (unfold printf_result; now rewrite (proj2 (Z.leb_le _ _) LI)).
  assert (V : forall off, off <= bcap b -> exists m, vsnprintf (bmem b) off (bcap b - off) (renders is) args = Ok (m, (-1)%Z)).
  { intros off K. unfold vsnprintf. rewrite (proj2 (Nat.ltb_ge _ _)) by lia. assert (SZ : bcap b - off <= length (skipn off (bmem b))) by (rewrite skipn_length; lia).
    pose proof (C91_vsnprintf_partial (skipn off (bmem b)) WF E SZ) as V. unfold cells in V |- *. rewrite V, PR. cbn [bind]. eauto. }
  split.
  - destruct (V 0 ltac:(lia)) as (m & Vm). rewrite Nat.sub_0_r in Vm. unfold BufferVPrintf. rewrite Vm. cbn [bind]. eexists. split; [reflexivity|]. auto.
  - destruct (V (bused b) U) as (m & Vm). unfold BufferAppendF. rewrite Vm. reflexivity.
Qed.
(** A failed BufferPrintf has nevertheless overwritten the text: the size says 3, the C string is empty *)
Theorem C134_failure_keeps_the_text_refuted : exists b b', calls (BufferNewWithCapacity 8) [OString (lit "abc")] = Ok b /\
  BufferVPrintf b (lit "%2147483648d") [AInt 1] = Ok (b', (-1)%Z) /\ BufferSize b' = 3 /\ mstr (bmem b') = Ok [].
Proof.
  match eval vm_compute in (calls (BufferNewWithCapacity 8) [OString (lit "abc")]) with Ok ?b =>
    match eval vm_compute in (BufferVPrintf b (lit "%2147483648d") [AInt 1]) with Ok (?b', _) => exists b, b' end end.
  repeat split; vm_compute; reflexivity.
Qed.
Print Assumptions C134_printf.
Print Assumptions C134_append.
Print Assumptions C134_any_format.
Print Assumptions C134_too_long.
Print Assumptions C134_failure_keeps_the_text_refuted.
Example C134_instance : match calls (BufferNewWithCapacity 2) [OString (lit "abc")] with
  | Ok b => match BufferAppendF b (lit "[%s=%d]") [AStr (Some (block (lit "n"))); AInt 25] with
            | Ok b1 => mstr (bmem b1) = Ok (lit "abc[n=25]") /\ match BufferVPrintf b1 (lit "%05d") [AInt 7] with Ok (b2, r) => mstr (bmem b2) = Ok (lit "00007") /\ r = 5%Z | _ => False end
            | _ => False end
  | _ => False end.
Proof. vm_compute. repeat split; reflexivity. Qed.

(** * C135: StringFormat, StringVFormat, StringFromDouble *)
(** memory of the size that was asked for *)
Definition allocator (malloc : nat -> option (cells byte)) : Prop := forall n m, malloc n = Some m -> length m = n.
Lemma xvasprintf_same malloc is args t st : allocator malloc -> Forall wf_item is -> expands supported 0 is args t st ->
  xvasprintf malloc (renders is) args =
    if (INT_MAX <=? Z.of_nat (length t))%Z then Abort
    else match malloc (length t + 1) with None => Abort | Some _ => Ok (block t, Z.of_nat (length t)) end.
Proof.
  intros ML WF E. unfold xvasprintf. rewrite (@C93_vasprintf_partial malloc is args t st ML WF E).
  destruct (Z.leb_spec INT_MAX (Z.of_nat (length t))) as [C|C]; [reflexivity|]. destruct (malloc (length t + 1)); [|reflexivity]. cbn [bind].
  destruct (Z.eqb_spec (Z.of_nat (length t)) (-1)); [lia|]. reflexivity.
Qed.
(** the text C99 says, in memory of its own *)
Theorem C135_format malloc is args t st : allocator malloc -> Forall wf_item is -> expands supported 0 is args t st ->
  (Z.of_nat (length t) < INT_MAX)%Z -> malloc (length t + 1) <> None ->
  StringVFormat malloc (renders is) args = Ok (Some (map Some (t ++ [NUL]))).
Proof.
  intros ML WF E LI M. unfold StringVFormat. rewrite (@xvasprintf_same malloc is args t st ML WF E). rewrite (proj2 (Z.leb_gt _ _) LI).
  destruct (malloc (length t + 1)); [|congruence]. cbn [bind]. rewrite (proj2 (Z.ltb_ge _ _)) by lia. reflexivity.
Qed.
(** without memory, or with a text too long to be counted, the process ends *)
Theorem C135_format_fails malloc is args t st : allocator malloc -> Forall wf_item is -> expands supported 0 is args t st ->
  (INT_MAX <= Z.of_nat (length t))%Z \/ malloc (length t + 1) = None ->
  StringVFormat malloc (renders is) args = Abort.
Proof.
  intros ML WF E D. unfold StringVFormat. rewrite (@xvasprintf_same malloc is args t st ML WF E).
  destruct (Z.leb_spec INT_MAX (Z.of_nat (length t))) as [C|C]; [reflexivity|]. destruct D as [D| ->]; [lia|reflexivity].
Qed.
(** whatever the format, and although the code has a branch for it: NULL is never returned, and what is, is a string *)
Theorem C135_never_null malloc format args o : allocator malloc -> StringVFormat malloc format args = Ok o ->
  exists m i, o = Some m /\ nth_error m i = Some (Some NUL).
Proof.
  intros ML H. unfold StringVFormat, xvasprintf in H. unfold cells in *. destruct (rpl_vasprintf malloc format args) as [[strp r]| | |] eqn:E; try discriminate. cbn [bind] in H.
  destruct (@C93_any_format malloc format args strp r ML E) as [R X]. destruct (Z.eqb_spec r (-1)) as [->|N]; [discriminate|].
  destruct (X N) as (m & i & -> & NT & _). cbn [bind] in H. destruct (Z.ltb_spec r 0); [lia|]. injection H as <-. eauto.
Qed.
Definition two_digits : directive := simple NoWidth (Precision (lit "2")) Plain Cf.
Lemma renders_two : renders [Directive two_digits] = lit "%.2f".
Proof. reflexivity. Qed.
Lemma two_wf : Forall wf_item [Directive two_digits].
Proof. repeat constructor; vm_compute; congruence. Qed.
(** A number below 2^64 - 1 is written with two digits after the point, rounded (a half upwards). *)
Theorem C135_double malloc q : allocator malloc -> (forall n, malloc n <> None) -> (Qabs q < inject_Z (2 ^ 64 - 1))%Q ->
  exists n t, rounds (Qabs q * inject_Z 100)%Q n /\ decimal 2 false false n t /\
    StringFromDouble malloc (Finite q) = Ok (Some (map Some ((if Qltb q 0 then lit "-" else []) ++ t ++ [NUL]))).
Proof.
  intros ML M L. destruct (@C91_float_text_total Cf (mkField false false false false false 0 (Some 2)) (Qabs q) eq_refl (Qabs_nonneg q)) as (t & T & _).
  pose proof T as T0. cbn in T. destruct T as [n t R D]. exists n, t. split; [exact R|]. split; [exact D|].
  assert (EFF : forall a, effective two_digits a (mkField false false false false false 0 (Some 2)) a) by (intros a; apply eff_simple; reflexivity).
  assert (E : expands supported 0 [Directive two_digits] [AFloat false (Finite q)] (((if Qltb q 0 then lit "-" else []) ++ t) ++ []) ([] ++ [])).
  { refine (@expands_directive supported _ _ _ _ _ [] _ [] _ _ _ _); [| |apply expands_nil].
    - intros f x a' E. destruct (effective_fun (EFF _) E) as [<- EA]. injection EA as <- <-. split; [cbn; lia|exact L].
    - pose proof (@conv_float two_digits 0 [AFloat false (Finite q)] _ q [] t eq_refl (EFF _) T0) as H. cbn in H. unfold float_sign, sign_text in H. cbn in H. destruct (Qltb q 0); exact H. }
  assert (LT : length t <= 25).
  { destruct D as [ds fs fs' k ND AD LF NF EQ]. subst fs'. apply (@notation_len [] 0 (Nat.le_refl 0)) in ND; [|lia|].
    - rewrite !app_length. rewrite LF. cbn. lia.
    - apply Z.div_lt_upper_bound; [reflexivity|]. destruct R as [R1 _]. assert (Q1 : (inject_Z n < inject_Z (10 ^ 2 * 2 ^ 64))%Q); [|now rewrite <- Zlt_Qlt in Q1].
      change (inject_Z (2 ^ 64 - 1)) with (18446744073709551615 # 1)%Q in L. change (inject_Z (10 ^ 2 * 2 ^ 64)) with (1844674407370955161600 # 1)%Q. change (inject_Z 100) with (100 # 1)%Q in R1. assert (T10 : (10 ^ Z.of_nat 2 == 100 # 1)%Q) by reflexivity. rewrite T10 in R1. lra. }
  rewrite app_nil_r in E. unfold StringFromDouble. rewrite <- renders_two.
  rewrite (C135_format ML two_wf E); [rewrite app_assoc; reflexivity| |apply M].
  rewrite app_length. unfold INT_MAX. destruct (Qltb q 0); cbn [length lit]; cbn; lia.
Qed.
(** larger ones end the process *)
Theorem C135_large_double_refuted : forall malloc, StringFromDouble malloc (Finite (inject_Z (10 ^ 20))) = Abort.
Proof. intros. vm_compute. reflexivity. Qed.
Print Assumptions C135_format.
Print Assumptions C135_format_fails.
Print Assumptions C135_never_null.
Print Assumptions C135_double.
Print Assumptions C135_large_double_refuted.
Definition give (n : nat) : option (cells byte) := Some (repeat None n).
Lemma give_ok : allocator give.
Proof. intros n m H. injection H as <-. apply repeat_length. Qed.
Example C135_instance : allocator give /\ StringFromDouble give (Finite (-31415 # 10000)) = Ok (Some (map Some (lit "-3.14" ++ [NUL]))) /\
  StringVFormat give (lit "%s-%03d") [AStr (Some (block (lit "n"))); AInt 25] = Ok (Some (map Some (lit "n-025" ++ [NUL]))).
Proof. split; [exact give_ok|]. split; vm_compute; reflexivity. Qed.

(** * C136: rpl_vfprintf, WriterWriteF, CsvWriterFieldF *)
Lemma fwrite_text t rest f : fwrite (map Some t ++ rest) (length t) f = Ok (mkFile (written f ++ firstn (room f) t) (room f - length t), Nat.min (length t) (room f)).
Proof.
  unfold fwrite. match goal with |- context [bind (?g _ _) _] => set (rd := g) end.
  assert (X : forall k u a, t = a ++ u -> k <= length u -> rd k (length a) = Ok (firstn k u)).
  { induction k as [|k IH]; intros u a Ea LK; [reflexivity|]. destruct u as [|c u]; [cbn in LK; lia|]. cbn [length rd firstn] in *. fold rd.
    rewrite Ea, map_app, <- app_assoc. cbn [map app]. rewrite EditProofs2.aget_mid by reflexivity. cbn [bind].
    specialize (IH u (a ++ [c])). rewrite app_length in IH. cbn [length] in IH. rewrite Nat.add_1_r in IH. rewrite IH by (rewrite <- ?app_assoc; auto; lia). reflexivity. }
  pose proof (X (Nat.min (length t) (room f)) t [] eq_refl ltac:(lia)) as Y. cbn [length] in Y. rewrite Y. cbn [bind]. do 2 f_equal. f_equal; [|lia].
  f_equal. destruct (Nat.le_ge_cases (length t) (room f)); [rewrite Nat.min_l by lia; rewrite !firstn_all2 by lia; reflexivity|rewrite Nat.min_r by lia; reflexivity].
Qed.
Lemma terminated_all size m t : length t < size -> exists rest, terminated size m t = map Some t ++ rest.
Proof. intros L. unfold terminated. destruct size as [|n]; [lia|]. rewrite firstn_all2 by lia. eauto. Qed.
Lemma vsnprintf0 m size is args t st : Forall wf_item is -> expands supported 0 is args t st -> size <= length m ->
  vsnprintf m 0 size (renders is) args = Ok (terminated size m t, printf_result t).
Proof.
  intros WF E L. unfold vsnprintf. change (length m <? 0) with false. cbn [skipn firstn app]. pose proof (C91_vsnprintf_partial m WF E L) as V. unfold cells in V |- *. rewrite V. reflexivity.
Qed.
(** The stream gets the text, as far as it takes it; the result is the number of characters it took.  Memory
    is only needed for a text of 1024 characters or more. *)
Theorem C136_vfprintf malloc staticbuf f is args t st : allocator malloc -> 1024 <= length staticbuf ->
  Forall wf_item is -> expands supported 0 is args t st -> (Z.of_nat (length t) < INT_MAX)%Z -> (1024 <= length t -> malloc (length t + 1) <> None) ->
  rpl_vfprintf malloc staticbuf f (renders is) args = Ok (mkFile (written f ++ firstn (room f) t) (room f - length t), Z.of_nat (Nat.min (length t) (room f))).
Proof.
  intros ML LB WF E LI M. assert (PR : printf_result t = Z.of_nat (length t)) by (unfold printf_result; now rewrite (proj2 (Z.leb_gt _ _) LI)).
  unfold INT_MAX in LI. unfold rpl_vfprintf. rewrite (@vsnprintf0 staticbuf 1024 is args t st WF E LB), PR. cbn [bind].
  assert (SZ : to_size_t (Z.of_nat (length t)) = Z.of_nat (length t)) by (unfold to_size_t; apply Z.mod_small; lia). rewrite SZ.
  assert (OUT : forall rest, (if (0 <? Z.of_nat (length t))%Z then let* ' (stream, n) := fwrite (map Some t ++ rest) (Z.to_nat (Z.of_nat (length t))) f in Ok (stream, Z.of_nat n) else Ok (f, Z.of_nat (length t)))
    = Ok (mkFile (written f ++ firstn (room f) t) (room f - length t), Z.of_nat (Nat.min (length t) (room f)))).
  { intros rest. rewrite Nat2Z.id. destruct (Z.ltb_spec 0 (Z.of_nat (length t))) as [P|P].
    - rewrite fwrite_text. reflexivity.
    - destruct t; [|cbn in P; lia]. rewrite firstn_nil, app_nil_r, Nat.sub_0_r. destruct f; reflexivity. }
  destruct (Z.leb_spec 1024 (Z.of_nat (length t))) as [G|G].
  - cbv zeta. assert (SB : Z.to_nat (to_size_t (Z.of_nat (length t) + 1)) = length t + 1) by (unfold to_size_t; rewrite Z.mod_small by lia; lia). rewrite SB.
    destruct (malloc (length t + 1)) as [m|] eqn:EM; [|exfalso; apply M; [lia|auto]]. apply ML in EM.
    rewrite (@vsnprintf0 m (length t + 1) is args t st WF E) by lia. rewrite PR. cbn [bind]. rewrite SZ. rewrite (proj2 (Z.leb_gt _ _)) by lia.
    destruct (@terminated_all (length t + 1) m t ltac:(lia)) as [rest ->]. apply OUT.
  - cbn [bind]. destruct (@terminated_all 1024 staticbuf t ltac:(lia)) as [rest ->]. apply OUT.
Qed.
(** an error, and nothing written: a text too long to be counted, or no memory for a long one *)
Theorem C136_vfprintf_fails malloc staticbuf f is args t st : allocator malloc -> 1024 <= length staticbuf ->
  Forall wf_item is -> expands supported 0 is args t st ->
  (INT_MAX <= Z.of_nat (length t))%Z \/ 1024 <= length t /\ malloc (length t + 1) = None ->
  rpl_vfprintf malloc staticbuf f (renders is) args = Ok (f, (-1)%Z).
Proof.
  intros ML LB WF E D. unfold rpl_vfprintf. rewrite (@vsnprintf0 staticbuf 1024 is args t st WF E LB). cbn [bind].
  destruct (Z.leb_spec INT_MAX (Z.of_nat (length t))) as [C|C].
  - assert (PR : printf_result t = (-1)%Z) by (unfold printf_result; now rewrite (proj2 (Z.leb_le _ _) C)). rewrite PR.
    change (1024 <=? to_size_t (-1))%Z with true. cbv iota zeta. change (Z.to_nat (to_size_t (-1 + 1))) with 0.
    destruct (malloc 0) as [m|]; [|reflexivity]. rewrite (@vsnprintf0 m 0 is args t st WF E) by lia. rewrite PR. reflexivity.
  - destruct D as [D|[G M]]; [lia|]. assert (PR : printf_result t = Z.of_nat (length t)) by (unfold printf_result; now rewrite (proj2 (Z.leb_gt _ _) C)). rewrite PR. unfold INT_MAX in C.
    assert (SZ : to_size_t (Z.of_nat (length t)) = Z.of_nat (length t)) by (unfold to_size_t; apply Z.mod_small; lia). rewrite SZ. rewrite (proj2 (Z.leb_le _ _)) by lia. cbv zeta.
    assert (SB : Z.to_nat (to_size_t (Z.of_nat (length t) + 1)) = length t + 1) by (unfold to_size_t; rewrite Z.mod_small by lia; lia). rewrite SB, M. reflexivity.
Qed.
(** a write error gives a number that is not negative, unlike what C99 says of fprintf *)
Theorem C136_write_error_refuted : rpl_vfprintf give (repeat None 1024) (mkFile [] 1) (lit "%d") [AInt 25] = Ok (mkFile (lit "2") 0, 1%Z).
Proof. vm_compute. reflexivity. Qed.
(** WriterWriteF on a string writer: the text goes behind what was written before *)
Theorem C136_writer malloc os is args t st : allocator malloc -> Forall wlegal os -> Forall wf_item is -> expands supported 0 is args t st ->
  is_cstr t -> (Z.of_nat (length t) < INT_MAX)%Z -> malloc (length t + 1) <> None ->
  exists w w' ns d, wcalls StringWriter os = Ok (WT_STRING w, ns) /\ StringWriterWriteVF malloc w (renders is) args = Ok (w', length t) /\
    StringWriterData (WT_STRING w') = Ok d /\ holds d (concat (map wtext os) ++ t).
Proof.
  intros ML LW WF E C LI M. destruct (@wcalls_ok os StringWriter []) as [w [Ew [H K]]]; [split; [reflexivity|]; split; [reflexivity|]; exists []; reflexivity|exact LW|].
  destruct w as [i|f]; [|destruct K]. cbn [app wholds] in H.
  assert (G : gives (block t) NINT_MAX t) by (apply gives_str; [exact C|apply nint; unfold INT_MAX in LI; lia]).
  destruct (len_ok H G) as [w' [El R']]. exists i, w', (map (fun o => length (wtext o)) os), (wdata w'). split; [exact Ew|].
  unfold StringWriterWriteVF. rewrite (@xvasprintf_same malloc is args t st ML WF E). rewrite (proj2 (Z.leb_gt _ _) LI).
  destruct (malloc (length t + 1)); [|congruence]. cbn [bind]. split; [exact El|]. split; [reflexivity|].
  destruct R' as [_ [_ [r Er]]]. split; [|exists r; exact Er]. apply is_cstr_app. split; [|exact C].
  clear - LW. induction LW as [|o os Lo LW IH]; cbn; [intros []|]. apply is_cstr_app. split; [|exact IH].
  destruct o; cbn in *; [apply Lo|apply upto_nul_cstr|apply Lo|]. apply is_cstr_cons. split; [exact Lo|intros []].
Qed.
(** CsvWriterFieldF writes the text as a field *)
Theorem C136_csv malloc c is args t st : allocator malloc -> Forall wf_item is -> expands supported 0 is args t st ->
  is_cstr t -> (Z.of_nat (length t) < INT_MAX)%Z -> malloc (length t + 1) <> None ->
  CsvWriterFieldVF malloc c (renders is) args = Ok (CsvWriterField c t).
Proof.
  intros ML WF E C LI M. unfold CsvWriterFieldVF. rewrite (@xvasprintf_same malloc is args t st ML WF E). rewrite (proj2 (Z.leb_gt _ _) LI).
  destruct (malloc (length t + 1)); [|congruence]. cbn [bind].
  assert (HB : holds (block t) t) by (split; [exact C|exists []; apply block_eq]). rewrite (proj2 (mstr_holds _ _) HB). reflexivity.
Qed.
Print Assumptions C136_vfprintf.
Print Assumptions C136_vfprintf_fails.
Print Assumptions C136_write_error_refuted.
Print Assumptions C136_writer.
Print Assumptions C136_csv.
Example C136_instance : rpl_vfprintf give (repeat None 1024) (mkFile (lit "a") 9) (lit "%s=%d") [AStr (Some (block (lit "n"))); AInt 25] = Ok (mkFile (lit "an=25") 5, 4%Z) /\
  match CsvWriterFieldVF give (CsvWriterField (CsvWriterOpen []) (lit "x")) (lit "%d,%d") [AInt 1; AInt 2] with Ok c => CsvWriterClose c = lit "x," ++ [QUOTE] ++ lit "1,2" ++ [QUOTE; CR; LF] | _ => False end.
Proof. split; [vm_compute; reflexivity|vm_compute; reflexivity]. Qed.
