(** Proofs about buffers. *)
From Verif Require Import Prelude PreludeFacts Str StrFacts Libc LibcFacts MemSpec CmpModel EditModel EditProofs EditProofs2 MiscModel MiscProofs BufModel BufSpec.
Set Implicit Arguments.

Lemma lor_ge a b : (a <= N.lor a b)%N.
Proof.
  rewrite <- (N.lor_ldiff_and a b) at 1. 
  assert (H : (N.lor a b = a + N.ldiff b a)%N).
  { rewrite N.add_nocarry_lxor.
    - apply N.bits_inj. intros j. rewrite N.lor_spec, N.lxor_spec, N.ldiff_spec. destruct (N.testbit a j), (N.testbit b j); reflexivity.
    - apply N.bits_inj. intros j. rewrite N.land_spec, N.ldiff_spec, N.bits_0. destruct (N.testbit a j), (N.testbit b j); reflexivity. }
  rewrite N.lor_ldiff_and. rewrite H. lia.
Qed.
Lemma smear_ge v s : (v <= smear v s)%N. Proof. apply lor_ge. Qed.
Lemma smear_lt v s k : (v < 2 ^ k)%N -> (smear v s < 2 ^ k)%N.
Proof.
  intros H. destruct (N.eq_dec v 0) as [->|NZ]; [unfold smear; rewrite N.shiftr_0_l; exact H|].
  apply N.log2_lt_pow2; [pose proof (smear_ge v s); lia|]. unfold smear. rewrite N.log2_lor, N.log2_shiftr.
  apply N.max_lub_lt; [apply N.log2_lt_pow2; lia|]. assert (N.log2 v < k)%N by (apply N.log2_lt_pow2; lia). lia.
Qed.
Lemma upper_ge v : (1 <= v <= 2 ^ 63)%N -> (v <= UpperPowerOfTwo v)%N.
Proof.
  intros [H1 H2]. unfold UpperPowerOfTwo.
  replace ((v + (two64 - 1)) mod two64)%N with (v - 1)%N.
  2:{ unfold two64. change (2 ^ 63)%N with 9223372036854775808%N in H2. replace (v + (18446744073709551616 - 1))%N with (v - 1 + 1 * 18446744073709551616)%N by lia.
      rewrite N.mod_add by discriminate. rewrite N.mod_small; lia. }
  assert (L0 : (v - 1 < 2 ^ 63)%N) by lia.
  set (v1 := smear (v - 1) 1). set (v2 := smear v1 2). set (v3 := smear v2 4). set (v4 := smear v3 8). set (v5 := smear v4 16).
  assert (L5 : (v5 < 2 ^ 63)%N) by (unfold v5, v4, v3, v2, v1; do 5 apply smear_lt; exact L0).
  assert (G : (v - 1 <= v5)%N).
  { unfold v5. etransitivity; [|apply smear_ge]. unfold v4. etransitivity; [|apply smear_ge]. unfold v3. etransitivity; [|apply smear_ge].
    unfold v2. etransitivity; [|apply smear_ge]. unfold v1. apply smear_ge. }
  change (2 ^ 63)%N with 9223372036854775808%N in L5. rewrite N.mod_small by (unfold two64; lia). lia.
Qed.

(** sizes below this bound *)
Definition LIM : N := (2 ^ 62)%N.
Definition small (n : nat) : Prop := (N.of_nat n < LIM)%N.

(** internal form of [represents], with the mode's invariant *)
Definition rep (b : Buffer) (st : abuf) : Prop :=
  bmd b = amode st /\ bused b = length (abytes st) /\ length (bmem b) = bcap b /\
  (amode st = CSTRING -> is_cstr (abytes st)) /\
  exists x r, bmem b = map Some (abytes st) ++ x :: r /\ (aterm st = true -> x = Some NUL).

Lemma rep_represents b st : rep b st -> represents b st.
Proof.
  intros [M [U [L [_ [x [r [E T]]]]]]]. unfold represents, BufferMode, BufferSize, BufferCapacity. split; [exact M|]. split; [exact U|].
  split; [exact L|]. split; [rewrite U, <- L, E, app_length, map_length; cbn; lia|].
  rewrite U, E. split.
  - rewrite firstn_app_le by (rewrite map_length; lia). apply firstn_all2. rewrite map_length. lia.
  - intros Ht. rewrite nth_error_app2 by (rewrite map_length; lia). rewrite map_length, Nat.sub_diag. cbn. rewrite T by exact Ht. reflexivity.
Qed.

Lemma expand_spec b st needed : rep b st -> (N.of_nat needed < 2 ^ 63)%N ->
  rep (ExpandIfNeeded b needed) st /\ needed < bcap (ExpandIfNeeded b needed) /\ bused (ExpandIfNeeded b needed) = bused b.
Proof.
  intros [M [U [L [C [x [r [E T]]]]]]] B. unfold ExpandIfNeeded. destruct (Nat.leb_spec (bcap b) needed) as [H|H].
  2:{ split; [|split; [exact H|reflexivity]]. split; [exact M|]. split; [exact U|]. split; [exact L|]. split; [exact C|]. exists x, r. auto. }
  set (nc := N.to_nat (UpperPowerOfTwo (N.of_nat (needed + 1)))).
  assert (G : needed < nc).
  { unfold nc. pose proof (@upper_ge (N.of_nat (needed + 1))). assert (N.of_nat (needed + 1) <= UpperPowerOfTwo (N.of_nat (needed + 1)))%N by (apply H0; lia). lia. }
  split; [|split; [exact G|reflexivity]]. unfold rep. cbn [bmd bused bmem bcap].
  split; [exact M|]. split; [exact U|]. split.
  - unfold arealloc. rewrite app_length, firstn_length, repeat_length. lia.
  - split; [exact C|]. unfold arealloc. rewrite firstn_all2 by lia. rewrite E, <- app_assoc. cbn [app]. eexists x, _. split; [reflexivity|exact T].
Qed.

(** appending [n] bytes of initialised memory after making room *)
Lemma bput_spec b st src bs : rep b st -> length (abytes st) + length bs < bcap b -> (exists j, src = map Some bs ++ j) ->
  exists b', bput b src (length bs) = Ok b' /\ bmd b' = bmd b /\ bcap b' = bcap b /\ bused b' = bused b + length bs /\
    length (bmem b') = bcap b' /\ exists x r, bmem b' = map Some (abytes st ++ bs) ++ x :: r /\ (bs = [] -> aterm st = true -> x = Some NUL).
Proof.
  intros [M [U [L [C [x [r [E T]]]]]]] H [j Es]. unfold bput.
  assert (Lr : length r = bcap b - length (abytes st) - 1).
  { rewrite <- L, E, app_length, map_length. cbn [length]. lia. }
  rewrite acopy_Ok; [|rewrite L; lia|rewrite Es, app_length, map_length; lia]. cbn [bind].
  eexists. split; [reflexivity|]. cbn [bmd bcap bused bmem]. split; [reflexivity|]. split; [reflexivity|]. split; [reflexivity|]. split.
  - rewrite !app_length, !firstn_length, !skipn_length. rewrite Es, app_length, map_length, L. lia.
  - rewrite U, E, Es. cbn [skipn]. rewrite firstn_app_le, (firstn_all2 (map Some (abytes st))) by (rewrite map_length; lia).
    rewrite firstn_app_le, (firstn_all2 (map Some bs)) by (rewrite map_length; lia).
    rewrite skipn_app_ge by (rewrite map_length; lia). rewrite map_length. replace (length (abytes st) + length bs - length (abytes st)) with (length bs) by lia.
    destruct (skipn (length bs) (x :: r)) as [|y q] eqn:ES.
    { apply (f_equal (@length _)) in ES. rewrite skipn_length in ES. cbn [length] in ES. lia. }
    exists y, q. rewrite map_app, <- !app_assoc. split; [reflexivity|]. intros -> Ht. cbn in ES. injection ES as <- _. auto.
Qed.

Lemma bterm_spec b x r s : bmem b = map Some s ++ x :: r -> bused b = length s ->
  bterm b = Ok (mkB (map Some s ++ Some NUL :: r) (bmd b) (bcap b) (bused b)).
Proof.
  intros E U. unfold bterm. rewrite E, U.
  rewrite (@write_end s (x :: r) (length s) eq_refl) by (cbn; lia). reflexivity.
Qed.

Lemma mstrnlen_seen bs j : mstrnlen (map Some bs ++ j) (length bs) = Ok (length (upto_nul bs)).
Proof.
  induction bs as [|c bs IH]; [destruct j; reflexivity|]. cbn [length map app mstrnlen upto_nul]. destruct (beq c NUL); [reflexivity|].
  rewrite IH. reflexivity.
Qed.
Lemma upto_nul_prefix bs : exists j, bs = upto_nul bs ++ j.
Proof. induction bs as [|c bs [j IH]]; [exists []; reflexivity|]. cbn. destruct (beq c NUL); [exists (c :: bs); reflexivity|]. exists j. cbn. f_equal. exact IH. Qed.
Lemma upto_nul_le bs : length (upto_nul bs) <= length bs.
Proof. destruct (upto_nul_prefix bs) as [j E]. rewrite E at 2. rewrite app_length. lia. Qed.
Lemma upto_nul_cstr bs : is_cstr (upto_nul bs).
Proof. induction bs as [|c bs IH]; cbn; [intros []|]. destruct (beq_spec c NUL); [intros []|]. apply is_cstr_cons. auto. Qed.
Lemma upto_nul_id bs : is_cstr bs -> upto_nul bs = bs.
Proof. induction bs as [|c bs IH]; intros C; [reflexivity|]. apply is_cstr_cons in C as [N C]. cbn. apply beq_false in N. rewrite N. f_equal. auto. Qed.

Lemma LIM63 a : (N.of_nat a < LIM)%N -> (N.of_nat (a + 1) < 2 ^ 63)%N.
Proof. unfold LIM. change (2 ^ 62)%N with 4611686018427387904%N. change (2 ^ 63)%N with 9223372036854775808%N. lia. Qed.

(** append of a NUL-terminated piece *)
Lemma put_term b st src bs : rep b st -> (exists j, src = map Some bs ++ j) -> (amode st = CSTRING -> is_cstr bs) ->
  small (length (abytes st) + length bs) ->
  exists b', (let* b := bput (ExpandIfNeeded b (bused b + length bs + 1)) src (length bs) in bterm b) = Ok b' /\
    rep b' (mkA (amode st) (abytes st ++ bs) true).
Proof.
  intros R Es Cb B. pose proof R as [M [U [L [C _]]]].
  destruct (@expand_spec b st (bused b + length bs + 1) R) as [R1 [G U1]].
  { rewrite U. apply LIM63, B. }
  destruct (@bput_spec _ st src bs R1 ltac:(lia) Es) as [b' [E [M' [C' [U' [L' [x [r [Em _]]]]]]]]].
  rewrite E. cbn [bind]. rewrite (@bterm_spec b' x r (abytes st ++ bs) Em) by (rewrite U', U1, U, app_length; reflexivity).
  eexists. split; [reflexivity|]. unfold rep. cbn [bmd bused bmem bcap amode abytes aterm].
  split; [rewrite M'; apply R1|]. split; [rewrite U', U1, U, app_length; reflexivity|]. split.
  - rewrite <- L', Em, !app_length. cbn [length]. lia.
  - split; [intros X; apply is_cstr_app; auto|]. exists (Some NUL), r. auto.
Qed.

Lemma append_spec b st bs j : rep b st -> small (length (abytes st) + length bs) ->
  exists b', BufferAppend b (map Some bs ++ j) (length bs) = Ok b' /\ rep b' (step st (OAppend bs)).
Proof.
  intros R B. pose proof R as [M [U [L [C _]]]]. unfold BufferAppend. cbn [step]. destruct (Nat.eqb_spec (length bs) 0) as [Z0|NZ].
  - destruct bs; [|discriminate]. exists b. split; [reflexivity|]. destruct st as [m x t]. cbn [amode abytes aterm].
    replace (x ++ seen m []) with x by (destruct m; cbn; rewrite app_nil_r; reflexivity). exact R.
  - rewrite M. destruct (amode st) eqn:Em.
    + rewrite mstrnlen_seen. cbn [bind seen]. destruct (@put_term b st (map Some bs ++ j) (upto_nul bs) R) as [b' [E R']].
      * destruct (upto_nul_prefix bs) as [k Ek]. exists (map Some k ++ j). rewrite Ek at 1. rewrite map_app, <- app_assoc. reflexivity.
      * intros _. apply upto_nul_cstr.
      * unfold small in *. pose proof (upto_nul_le bs). lia.
      * exists b'. rewrite Em in R'. split; [exact E|exact R'].
    + destruct (@expand_spec b st (bused b + length bs) R) as [R1 [G U1]].
      { rewrite U. unfold small, LIM in B. change (2 ^ 62)%N with 4611686018427387904%N in B. change (2 ^ 63)%N with 9223372036854775808%N. lia. }
      destruct (@bput_spec _ st (map Some bs ++ j) bs R1 ltac:(lia) (ex_intro _ j eq_refl)) as [b' [E [M' [C' [U' [L' [x [r [Emm _]]]]]]]]].
      exists b'. split; [exact E|]. unfold rep. cbn [amode abytes aterm seen is_cstring]. split; [rewrite M'; rewrite (proj1 R1); exact Em|].
      split; [rewrite U', U1, U, app_length; reflexivity|]. split; [exact L'|]. split; [discriminate|]. exists x, r. split; [exact Emm|discriminate].
Qed.

Lemma clear_spec b st : rep b st -> exists b', BufferClear b = Ok b' /\ rep b' (step st OClear).
Proof.
  intros [M [U [L [C [x [r [E T]]]]]]]. unfold BufferClear. rewrite E.
  assert (W : exists q, aset (map Some (abytes st) ++ x :: r) 0 NUL = Ok (Some NUL :: q) /\ S (length q) = bcap b).
  { rewrite <- L, E. destruct (abytes st) as [|c s]; cbn; eexists; (split; [reflexivity|]); cbn; rewrite ?app_length, ?map_length; reflexivity. }
  destruct W as [q [-> Lq]]. cbn [bind]. eexists. split; [reflexivity|]. unfold rep. cbn. split; [exact M|]. split; [reflexivity|].
  split; [exact Lq|]. split; [intros _ []|]. exists (Some NUL), q. auto.
Qed.

Lemma set_spec b st bs j : rep b st -> small (length bs) -> exists b', BufferSet b (map Some bs ++ j) (length bs) = Ok b' /\ rep b' (step st (OSet bs)).
Proof.
  intros R B. unfold BufferSet. destruct (clear_spec R) as [b1 [-> R1]]. cbn [bind].
  destruct (@append_spec b1 _ bs j R1 B) as [b2 [E R2]]. exists b2. split; [exact E|]. revert R2. cbn [step amode abytes aterm app].
  destruct (length bs =? 0), (amode st); exact (fun h => h).
Qed.

Lemma seen_small st bs : is_cstr bs -> seen (amode st) bs = bs.
Proof. intros C. destruct (amode st); [apply upto_nul_id, C|reflexivity]. Qed.

Lemma vsn_spec m (s : list byte) x (r : cells byte) size text : m = map Some s ++ x :: r -> 0 < size <= S (length r) ->
  exists q, mvsnprintf m (length s) size text = Ok (map Some (s ++ firstn (size - 1) text) ++ Some NUL :: q, length text) /\
    length (map Some (s ++ firstn (size - 1) text) ++ Some NUL :: q) = length m.
Proof.
  intros E SZ. unfold mvsnprintf. destruct (Nat.eqb_spec size 0); [lia|]. rewrite E.
  rewrite (@copy_str_at s (firstn (size - 1) text) (x :: r) (length s) eq_refl) by (rewrite firstn_length; cbn [length]; lia).
  cbn [bind]. eexists. split; [reflexivity|]. rewrite !app_length, !map_length, app_length. cbn [length].
  change (skipn (S (length (firstn (size - 1) text))) (x :: r)) with (skipn (length (firstn (size - 1) text)) r).
  rewrite skipn_length, !firstn_length. lia.
Qed.

Lemma string_spec b st s : rep b st -> is_cstr s -> small (length (abytes st) + length s) ->
  exists b', BufferAppendString b s = Ok b' /\ rep b' (step st (OString s)).
Proof.
  intros R C B. unfold BufferAppendString. apply put_term; auto. exists [Some NUL]. apply block_eq.
Qed.

Lemma char_spec b st c : rep b st -> (amode st = CSTRING -> c <> NUL) -> small (length (abytes st) + 1) ->
  exists b', BufferAppendChar b c = Ok b' /\ rep b' (step st (OChar c)).
Proof.
  intros R N B. pose proof R as [M [U [L [C [x [r [E T]]]]]]]. unfold BufferAppendChar.
  assert (P : bcap b = length (abytes st) + S (length r)) by (rewrite <- L, E, app_length, map_length; reflexivity).
  assert (PW : predw (bcap b) = length (abytes st) + length r) by (rewrite P, Nat.add_succ_r; reflexivity).
  rewrite PW, U. destruct (Nat.ltb_spec (length (abytes st)) (length (abytes st) + length r)) as [F|F].
  - rewrite E, (@write_at (abytes st) (x :: r) _ c eq_refl) by (cbn; lia). cbn [bind skipn bmd].
    destruct r as [|y r]; [cbn in F; lia|]. rewrite M.
    assert (CC : amode st = CSTRING -> is_cstr (abytes st ++ [c])) by (intros X; apply is_cstr_app; split; [auto|]; apply is_cstr_cons; split; [auto|intros []]).
    destruct (amode st) eqn:Em.
    + rewrite (@bterm_spec _ y r (abytes st ++ [c])) by (cbn; rewrite ?app_length; cbn; auto; lia). eexists. split; [reflexivity|].
      unfold rep. cbn [bmd bused bmem bcap amode abytes aterm step is_cstring]. rewrite Em. split; [reflexivity|]. split; [rewrite app_length; cbn; lia|].
      split; [rewrite app_length, map_length, app_length; cbn [length] in *; lia|]. split; [auto|]. exists (Some NUL), r. auto.
    + eexists. split; [reflexivity|]. unfold rep. cbn [bmd bused bmem bcap amode abytes aterm step is_cstring]. rewrite Em. split; [reflexivity|].
      split; [rewrite app_length; cbn; lia|]. split; [rewrite app_length, map_length, app_length; cbn [length] in *; lia|]. split; [discriminate|].
      exists y, r. split; [reflexivity|discriminate].
  - destruct (@append_spec b st [c] [] R B) as [b' [E' R']]. exists b'. split; [exact E'|]. revert R'. cbn [step length Nat.eqb].
    destruct (amode st); cbn [seen upto_nul is_cstring]; [|exact (fun h => h)].
    specialize (N eq_refl). apply beq_false in N. rewrite N. exact (fun h => h).
Qed.

Lemma appendf_spec b st s : rep b st -> is_cstr s -> small (length (abytes st) + length s) ->
  exists b', BufferAppendF b s = Ok b' /\ rep b' (step st (OAppendF s)).
Proof.
  intros R Cs B. pose proof R as [M [U [L [C [x [r [E T]]]]]]]. unfold BufferAppendF.
  assert (P : bcap b = length (abytes st) + S (length r)) by (rewrite <- L, E, app_length, map_length; reflexivity).
  assert (CC : amode st = CSTRING -> is_cstr (abytes st ++ s)) by (intros X; apply is_cstr_app; auto).
  rewrite U, P. replace (length (abytes st) + S (length r) - length (abytes st)) with (S (length r)) by lia.
  destruct (@vsn_spec (bmem b) (abytes st) x r (S (length r)) s E ltac:(lia)) as [q [V Lq]].
  rewrite V. cbn [bind bcap bused]. replace (length (abytes st) + S (length r) - length (abytes st)) with (S (length r)) by lia.
  destruct (Nat.leb_spec (S (length r)) (length s)) as [F|F].
  - (* retry *)
    rewrite map_app, <- app_assoc.
    set (w := firstn (S (length r) - 1) s) in *.
    assert (R1 : rep (mkB (map Some (abytes st) ++ map Some w ++ Some NUL :: q) (bmd b) (length (abytes st) + S (length r)) (length (abytes st))) (mkA (amode st) (abytes st) false)).
    { unfold rep. cbn [bmd bused bmem bcap amode abytes aterm]. split; [exact M|]. split; [reflexivity|]. split.
      - rewrite <- P, <- L, <- Lq, map_app, <- app_assoc. reflexivity.
      - split; [exact C|]. destruct (map Some w ++ Some NUL :: q) as [|y z] eqn:EE; [destruct w; discriminate|]. exists y, z. split; [reflexivity|discriminate]. }
    match goal with |- context [ExpandIfNeeded ?b0 ?n] => destruct (@expand_spec b0 _ n R1) as [R2 [G U2]]; [|set (b2 := ExpandIfNeeded b0 n) in *] end.
    { unfold small, LIM in B. change (2 ^ 62)%N with 4611686018427387904%N in B. change (2 ^ 63)%N with 9223372036854775808%N. lia. }
    cbn [bused] in U2. destruct R2 as [M2 [_ [L2 [_ [x2 [r2 [E2 _]]]]]]]. cbn [amode abytes] in *.
    assert (P2 : bcap b2 = length (abytes st) + S (length r2)) by (rewrite <- L2, E2, app_length, map_length; reflexivity).
    rewrite U2, P2. replace (length (abytes st) + S (length r2) - length (abytes st)) with (S (length r2)) by lia.
    destruct (@vsn_spec (bmem b2) (abytes st) x2 r2 (S (length r2)) s E2 ltac:(lia)) as [q2 [V2 Lq2]]. rewrite V2. cbn [bind].
    eexists. split; [reflexivity|]. replace (S (length r2) - 1) with (length r2) in * by lia. rewrite firstn_all2 in * by lia.
    unfold rep. cbn [bmd bused bmem bcap amode abytes aterm step]. split; [exact M2|]. split; [rewrite app_length; lia|]. split; [rewrite Lq2; lia|].
    split; [exact CC|]. exists (Some NUL), q2. auto.
  - eexists. split; [reflexivity|]. rewrite firstn_all2 in * by lia.
    unfold rep. cbn [bmd bused bmem bcap amode abytes aterm step]. split; [exact M|]. split; [rewrite app_length; lia|].
    split; [rewrite Lq; lia|]. split; [exact CC|]. exists (Some NUL), q. auto.
Qed.

Lemma printf_spec b st s : rep b st -> is_cstr s -> small (length s) ->
  exists b', BufferPrintf b s = Ok (b', length s) /\ rep b' (step st (OPrintf s)).
Proof.
  intros R Cs B. pose proof R as [M [U [L [C [x [r [E T]]]]]]]. unfold BufferPrintf.
  assert (P : exists y z, bmem b = y :: z) by (rewrite E; destruct (abytes st); cbn; eauto).
  destruct P as [y [z Ez]]. assert (Lz : bcap b = S (length z)) by (rewrite <- L, Ez; reflexivity).
  destruct (@vsn_spec (bmem b) [] y z (bcap b) s Ez ltac:(lia)) as [q [V Lq]]. cbn [length app] in V, Lq. rewrite V. cbn [bind bcap].
  destruct (Nat.leb_spec (bcap b) (length s)) as [F|F].
  - assert (R1 : rep (mkB (map Some (firstn (bcap b - 1) s) ++ Some NUL :: q) (bmd b) (bcap b) (bused b)) (mkA (amode st) (firstn (bused b) (firstn (bcap b - 1) s)) false)).
    { assert (UL : bused b <= bcap b - 1) by (rewrite <- L, E, app_length, map_length, U; cbn [length]; lia).
      unfold rep. cbn [bmd bused bmem bcap amode abytes aterm]. split; [exact M|]. split; [rewrite !firstn_length; lia|].
      split; [rewrite Lq; exact L|]. split; [intros _; do 2 apply is_cstr_firstn; exact Cs|].
      assert (SP : map Some (firstn (bcap b - 1) s) ++ Some NUL :: q = map Some (firstn (bused b) (firstn (bcap b - 1) s)) ++ map Some (skipn (bused b) (firstn (bcap b - 1) s)) ++ Some NUL :: q)
        by (rewrite app_assoc, <- map_app, firstn_skipn; reflexivity).
      rewrite SP.
      destruct (map Some (skipn (bused b) (firstn (bcap b - 1) s)) ++ Some NUL :: q) as [|u v] eqn:EE; [destruct (map Some (skipn (bused b) (firstn (bcap b - 1) s))); discriminate|].
      exists u, v. split; [reflexivity|discriminate]. }
    match goal with |- context [ExpandIfNeeded ?b0 ?n] => destruct (@expand_spec b0 _ n R1) as [R2 [G U2]]; [|set (b2 := ExpandIfNeeded b0 n) in *] end.
    { unfold small, LIM in B. change (2 ^ 62)%N with 4611686018427387904%N in B. change (2 ^ 63)%N with 9223372036854775808%N. lia. }
    destruct R2 as [M2 [_ [L2 [_ [x2 [r2 [E2 _]]]]]]]. cbn [amode] in M2.
    assert (P : exists y z, bmem b2 = y :: z) by (rewrite E2; destruct (map Some (abytes (mkA (amode st) (firstn (bused b) (firstn (bcap b - 1) s)) false))); cbn; eauto).
    destruct P as [y2 [z2 Ez2]]. assert (Lz2 : bcap b2 = S (length z2)) by (rewrite <- L2, Ez2; reflexivity).
    destruct (@vsn_spec (bmem b2) [] y2 z2 (bcap b2) s Ez2 ltac:(lia)) as [q2 [V2 Lq2]]. cbn [length app] in V2, Lq2. rewrite V2. cbn [bind].
    eexists. split; [reflexivity|]. rewrite firstn_all2 in * by lia.
    unfold rep. cbn [bmd bused bmem bcap amode abytes aterm step]. split; [exact M2|]. split; [reflexivity|]. split; [rewrite Lq2; exact L2|].
    split; [auto|]. exists (Some NUL), q2. auto.
  - eexists. split; [reflexivity|]. rewrite firstn_all2 in * by lia.
    unfold rep. cbn [bmd bused bmem bcap amode abytes aterm step]. split; [exact M|]. split; [reflexivity|]. split; [rewrite Lq; exact L|].
    split; [auto|]. exists (Some NUL), q. auto.
Qed.

Lemma trim_spec b st n : rep b st -> exists b', BufferTrimToMaxLength b n = Ok b' /\ rep b' (step st (OTrim n)).
Proof.
  intros R. pose proof R as [M [U [L [C [x [r [E T]]]]]]]. unfold BufferTrimToMaxLength. rewrite U. cbn [step].
  destruct (Nat.ltb_spec n (length (abytes st))) as [F|F].
  - assert (S1 : exists y z, map Some (skipn n (abytes st)) ++ x :: r = y :: z).
    { destruct (map Some (skipn n (abytes st)) ++ x :: r) as [|u v] eqn:EE; [destruct (map Some (skipn n (abytes st))); discriminate|eauto]. }
    destruct S1 as [y [z Ez]].
    assert (E1 : bmem b = map Some (firstn n (abytes st)) ++ y :: z).
    { rewrite E. rewrite <- (firstn_skipn n (abytes st)) at 1. rewrite map_app, <- app_assoc, Ez. reflexivity. }
    rewrite (@bterm_spec _ y z (firstn n (abytes st))) by (cbn; rewrite ?firstn_length; auto; lia).
    eexists. split; [reflexivity|]. unfold rep. cbn [bmd bused bmem bcap amode abytes aterm]. split; [exact M|]. split; [rewrite firstn_length; lia|].
    split; [rewrite <- L, E1, !app_length; reflexivity|]. split; [intros X; apply is_cstr_firstn; auto|]. exists (Some NUL), z. auto.
  - exists b. split; [reflexivity|]. rewrite firstn_all2 by lia. destruct st; exact R.
Qed.

Lemma find_nul_spec fuel : forall a bs r, length bs < fuel ->
  find_nul fuel (length a) (map Some (a ++ bs) ++ r) (length (a ++ bs)) = Ok (length a + length (upto_nul bs)).
Proof.
  induction fuel as [|g IH]; intros a bs r F; [lia|]. cbn [find_nul]. rewrite app_length. destruct bs as [|c bs].
  - cbn [length]. destruct (Nat.ltb_spec (length a) (length a + 0)); [lia|]. cbn. reflexivity.
  - cbn [length upto_nul]. destruct (Nat.ltb_spec (length a) (length a + S (length bs))); [|lia].
    rewrite map_app, <- app_assoc. cbn [map app]. rewrite aget_mid by reflexivity. cbn [bind]. destruct (beq c NUL); [f_equal; cbn; lia|].
    specialize (IH (a ++ [c]) bs r). rewrite !app_length, <- !app_assoc, !map_app, <- !app_assoc in IH. cbn [length app map] in IH, F.
    replace (length a + S (length bs)) with (length a + 1 + length bs) by lia. replace (S (length a)) with (length a + 1) by lia. rewrite IH by lia. f_equal. cbn. lia.
Qed.

Lemma upto_nul_has bs : existsb (beq NUL) bs = true -> exists j, bs = upto_nul bs ++ NUL :: j.
Proof.
  induction bs as [|c bs IH]; cbn [existsb upto_nul]; [discriminate|]. intros H. destruct (beq_spec c NUL) as [->|N].
  - exists bs. reflexivity.
  - assert (X : beq NUL c = false) by (apply beq_false; congruence). rewrite X in H. destruct (IH H) as [j E]. exists j. cbn [app]. f_equal. exact E.
Qed.
Lemma upto_nul_none bs : existsb (beq NUL) bs = false -> upto_nul bs = bs.
Proof.
  intros H. apply upto_nul_id. intros I. assert (existsb (beq NUL) bs = true) by (apply existsb_exists; exists NUL; split; [exact I|apply beq_refl]). congruence.
Qed.

Lemma mode_spec b st m : rep b st -> exists b', BufferSetMode b m = Ok b' /\ rep b' (step st (OMode m)).
Proof.
  intros R. pose proof R as [M [U [L [C [x [r [E T]]]]]]]. unfold BufferSetMode. destruct m.
  - rewrite U, E. pose proof (@find_nul_spec (S (length (abytes st))) [] (abytes st) (x :: r) ltac:(lia)) as X. cbn [length app] in X. rewrite X. cbn [bind].
    eexists. split; [reflexivity|]. unfold rep. cbn [step bmd bused bmem bcap amode abytes aterm]. split; [reflexivity|]. split; [cbn; lia|].
    split; [rewrite <- E; exact L|]. split; [intros _; apply upto_nul_cstr|].
    destruct (existsb (beq NUL) (abytes st)) eqn:H.
    + destruct (upto_nul_has _ H) as [j Ej]. exists (Some NUL), (map Some j ++ x :: r). split; [|auto].
      rewrite Ej at 1. rewrite map_app, <- app_assoc. reflexivity.
    + rewrite upto_nul_none by exact H. exists x, r. auto.
  - eexists. split; [reflexivity|]. unfold rep. cbn [step bmd bused bmem bcap amode abytes aterm]. split; [reflexivity|]. split; [exact U|].
    split; [exact L|]. split; [discriminate|]. exists x, r. auto.
Qed.

Lemma canon_eq c : (if negb (isalnum c) then "_"%char else c) = canon_byte c.
Proof. destruct c as [[] [] [] [] [] [] [] []]; reflexivity. Qed.
Lemma canon_nonnul c : c <> NUL -> canon_byte c <> NUL.
Proof. intros N. unfold canon_byte. destruct (_ || _); [exact N|discriminate]. Qed.

Lemma canonify_spec b st : rep b st -> aterm st = true -> is_cstr (abytes st) ->
  exists b', BufferCanonify b = Ok b' /\ rep b' (step st OCanonify).
Proof.
  intros [M [U [L [C [x [r [E T]]]]]]] Ht Cs. unfold BufferCanonify, CanonifyNameInPlace. rewrite (T Ht) in E.
  assert (H : holds (bmem b) (abytes st)) by (split; [exact Cs|exists r; exact E]).
  rewrite (map_loop_whole _ H). cbn [bind]. eexists. split; [reflexivity|].
  rewrite (map_ext _ _ canon_eq). unfold put. rewrite map_length.
  assert (K : skipn (S (length (abytes st))) (bmem b) = r).
  { rewrite E. rewrite skipn_app_ge by (rewrite map_length; lia). rewrite map_length. replace (S (length (abytes st)) - length (abytes st)) with 1 by lia. reflexivity. }
  rewrite K. unfold rep. cbn [step bmd bused bmem bcap amode abytes aterm]. split; [exact M|]. split; [rewrite map_length; exact U|].
  split; [rewrite <- L, E, !app_length, !map_length; reflexivity|]. split.
  - intros X I. apply in_map_iff in I as [c [Ec Ic]]. apply (@canon_nonnul c); [intros ->; exact (Cs Ic)|exact Ec].
  - exists (Some NUL), r. auto.
Qed.

Lemma new_spec cap : 0 < cap -> exists b, BufferNewWithCapacity cap = Ok b /\ rep b (mkA CSTRING [] true) /\ bcap b = cap.
Proof.
  intros P. unfold BufferNewWithCapacity. destruct cap as [|k]; [lia|]. cbn. eexists. split; [reflexivity|]. split; [|reflexivity].
  unfold rep. cbn. split; [reflexivity|]. split; [reflexivity|]. split; [rewrite repeat_length; reflexivity|]. split; [intros _ []|].
  exists (Some NUL), (repeat None k). auto.
Qed.

Lemma filter_loop_spec b st f inv fuel : rep b st -> is_cstr (abytes st) -> small (length (abytes st)) ->
  forall a c, abytes st = a ++ c -> length c < fuel ->
  forall fb y, rep fb (mkA CSTRING y true) -> length y + length c <= length (abytes st) ->
  exists fb', filter_loop fuel (length a) b fb f inv = Ok fb' /\
    rep fb' (mkA CSTRING (y ++ filter (fun x => if inv then negb (f x) else f x) c) true).
Proof.
  intros R Cs B. pose proof R as [M [U [L [C [x [r [E T]]]]]]].
  induction fuel as [|g IH]; intros a c Ea F fb y Rf Ly; [lia|]. cbn [filter_loop]. rewrite U, Ea, app_length. destruct c as [|d c].
  - cbn [length]. destruct (Nat.ltb_spec (length a) (length a + 0)); [lia|]. exists fb. cbn [filter]. rewrite app_nil_r. auto.
  - cbn [length]. destruct (Nat.ltb_spec (length a) (length a + S (length c))); [|lia].
    rewrite E, Ea, map_app, <- app_assoc. cbn [map app]. rewrite aget_mid by reflexivity. cbn [bind filter].
    assert (Nd : d <> NUL) by (intros ->; apply Cs; rewrite Ea; apply in_or_app; right; left; reflexivity).
    assert (Ea' : abytes st = (a ++ [d]) ++ c) by (rewrite <- app_assoc; exact Ea).
    assert (La : S (length a) = length (a ++ [d])) by (rewrite app_length; cbn; lia).
    destruct (if inv then negb (f d) else f d) eqn:G.
    + destruct (@char_spec fb _ d Rf) as [fb1 [E1 R1]]; [auto|cbn [abytes]; unfold small in *; cbn [length] in *; lia|]. rewrite E1. cbn [bind]. rewrite La.
      destruct (IH (a ++ [d]) c Ea' ltac:(cbn in F; lia) fb1 (y ++ [d]) R1) as [fb' [E' R']]; [rewrite app_length; cbn [length] in *; lia|].
      exists fb'. split; [exact E'|]. rewrite <- app_assoc in R'. exact R'.
    + cbn [bind]. rewrite La. destruct (IH (a ++ [d]) c Ea' ltac:(cbn in F; lia) fb y Rf) as [fb' [E' R']]; [cbn [length] in *; lia|]. exists fb'. auto.
Qed.

Lemma filter_spec b st f inv : rep b st -> is_cstr (abytes st) -> small (length (abytes st)) ->
  exists fb, BufferFilter b f inv = Ok fb /\ rep fb (mkA CSTRING (filter (fun x => if inv then negb (f x) else f x) (abytes st)) true).
Proof.
  intros R Cs B. unfold BufferFilter, BufferNew. destruct (@new_spec DEFAULT_BUFFER_CAPACITY) as [fb0 [E0 [R0 _]]]; [unfold DEFAULT_BUFFER_CAPACITY; lia|].
  rewrite E0. cbn [bind]. pose proof R as [_ [U _]]. rewrite U.
  destruct (@filter_loop_spec b st f inv (S (length (abytes st))) R Cs B [] (abytes st) eq_refl ltac:(lia) fb0 [] R0) as [fb [E1 R1]]; [cbn; lia|].
  exists fb. auto.
Qed.

Lemma filter_len (p : byte -> bool) l : length (filter p l) <= length l.
Proof. induction l as [|c l IH]; cbn; [lia|]. destruct (p c); cbn; lia. Qed.

Lemma rewrite_spec b st f inv : rep b st -> is_cstr (abytes st) -> small (length (abytes st)) ->
  exists b', BufferRewrite b f inv = Ok b' /\ rep b' (step st (ORewrite f inv)).
Proof.
  intros R Cs B. unfold BufferRewrite. destruct (filter_spec f inv R Cs B) as [fb [-> Rf]]. cbn [bind].
  destruct Rf as [_ [U [_ [_ [x [r [E _]]]]]]]. cbn [abytes] in *. rewrite U, E.
  set (y := filter (fun x0 => if inv then negb (f x0) else f x0) (abytes st)) in *.
  assert (Cy : is_cstr y) by (intros I; apply filter_In in I as [I _]; exact (Cs I)).
  destruct (@set_spec b st y (x :: r) R) as [b' [E' R']].
  - unfold small in *. pose proof (filter_len (fun x0 => if inv then negb (f x0) else f x0) (abytes st)). fold y in H. lia.
  - exists b'. split; [exact E'|]. revert R'. cbn [step]. rewrite (@seen_small st y Cy). exact (fun h => h).
Qed.

Lemma call_spec b st o : rep b st -> legal st o -> small (length (abytes st) + weight o) ->
  exists b', call b o = Ok b' /\ rep b' (step st o).
Proof.
  intros R Lg B. assert (B0 : small (length (abytes st))) by (unfold small in *; lia).
  assert (B1 : small (weight o)) by (unfold small in *; lia). destruct o; cbn [call weight legal] in *.
  - rewrite <- (app_nil_r (map Some bs)). apply set_spec; auto.
  - rewrite <- (app_nil_r (map Some bs)). apply append_spec; auto.
  - apply string_spec; auto.
  - apply char_spec; auto.
  - destruct (printf_spec R Lg B1) as [b' [E R']]. rewrite E. cbn [bind]. eauto.
  - apply appendf_spec; auto.
  - apply clear_spec; auto.
  - apply trim_spec; auto.
  - apply mode_spec; auto.
  - destruct Lg. apply canonify_spec; auto.
  - apply rewrite_spec; auto.
Qed.

Lemma step_len st o : length (abytes (step st o)) <= length (abytes st) + weight o.
Proof.
  destruct o; cbn [step weight abytes]; rewrite ?app_length, ?map_length, ?firstn_length; cbn [length]; try lia.
  - destruct (amode st); cbn [seen]; [pose proof (upto_nul_le bs)|]; lia.
  - destruct (amode st); cbn [seen]; [pose proof (upto_nul_le bs)|]; lia.
  - destruct m; cbn [abytes]; [pose proof (upto_nul_le (abytes st))|]; lia.
  - pose proof (filter_len (fun c => if invert then negb (p c) else p c) (abytes st)). lia.
Qed.

Lemma calls_spec os : forall b st, rep b st -> legal_history st os -> small (length (abytes st) + total os) ->
  exists b', calls (Ok b) os = Ok b' /\ rep b' (fold_left step os st).
Proof.
  induction os as [|o os IH]; intros b st R LH B.
  - exists b. auto.
  - destruct LH as [L1 L2]. cbn [total fold_right] in B. fold (total os) in B.
    destruct (@call_spec b st o R L1) as [b1 [E1 R1]]; [unfold small in *; lia|].
    unfold calls. cbn [fold_left bind]. rewrite E1. apply IH; auto. pose proof (step_len st o). unfold small in *. lia.
Qed.
