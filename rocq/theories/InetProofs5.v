(** inet_pton6 accepts every text of [lenient6]; the texts of [text6] are among them. *)
From Verif Require Import Prelude PreludeFacts Str StrFacts Libc LibcFacts IpModel IpSpec InetModel InetSpec InetProofs InetProofs2 InetProofs3 InetProofs4.
Set Implicit Arguments.
Local Open Scope N_scope.

Lemma run_groups gs vs : Forall2 long_group gs vs -> forall pre pvs s done post qvs rest, state6 pre pvs s done (coloned gs ++ rest) post qvs [] -> x_val s = 0 ->
  (x_tp s + 2 * length vs <= 16)%nat ->
  exists s', pton6_loop s (coloned gs ++ rest) = pton6_loop s' rest /\ x_colonp s' = x_colonp s /\ x_val s' = 0 /\
    match x_colonp s with
    | None => state6 (pre ++ gs) (pvs ++ vs) s' (done ++ coloned gs) rest [] [] []
    | Some _ => state6 pre pvs s' (done ++ coloned gs) rest (post ++ gs) (qvs ++ vs) []
    end.
Proof.
  induction 1 as [|g v gs vs G F IH]; intros pre pvs s done post qvs rest ST V0 L.
  - exists s. cbn [coloned flat_map app] in *. split; [reflexivity|]. split; [reflexivity|]. split; [exact V0|]. rewrite !app_nil_r.
    destruct (x_colonp s) eqn:C; [exact ST|]. pose proof ST as X. st6 X. rewrite C in CP. destruct CP as (-> & _). inversion FQ; subst. exact ST.
  - cbn [length] in L. assert (SRC : coloned (g :: gs) ++ rest = g ++ ":"%char :: coloned gs ++ rest) by (unfold coloned; cbn [flat_map]; rewrite <- !app_assoc; reflexivity).
    rewrite SRC in ST |- *. destruct (@read_long pre pvs s done g v post qvs (":"%char :: coloned gs ++ rest) ST V0 G) as (s1 & E1 & S1 & C1 & V1).
    assert (T1 : x_tp s1 = x_tp s) by (destruct S1 as (_ & _ & X & _), ST as (_ & _ & Y & _); congruence).
    destruct (state6_colon S1 (long_length G)) as (s2 & E2 & C2 & V2 & S2); [lia|]. rewrite V1 in S2.
    assert (T2 : x_tp s2 = (x_tp s + 2)%nat).
    { destruct ST as (_ & _ & X & _ & _ & _ & _ & _ & _ & CP). rewrite C1 in S2. destruct (x_colonp s).
      - destruct S2 as (_ & _ & Y & _). rewrite app_length in Y. cbn [length] in Y. lia.
      - destruct S2 as (_ & _ & Y & _). destruct CP as (-> & _). rewrite app_length in Y. cbn [length] in Y. assert (length qvs = 0)%nat; [|lia].
        destruct S1 as (_ & FQ & _). inversion FQ. reflexivity. }
    assert (D : done ++ coloned (g :: gs) = (((done ++ g) ++ lit ":") ++ coloned gs)) by (unfold coloned; cbn [flat_map]; rewrite <- !app_assoc; reflexivity).
    rewrite D. rewrite C1 in S2, C2. destruct (x_colonp s) as [k|] eqn:C.
    + destruct (IH _ _ _ _ _ _ _ S2 V2) as (s3 & E3 & C3 & V3 & S3); [lia|]. exists s3. split; [congruence|]. split; [congruence|]. split; [exact V3|].
      rewrite C2 in S3. rewrite <- !app_assoc in S3. cbn [app] in S3. rewrite <- !app_assoc. exact S3.
    + destruct (IH _ _ _ _ _ _ _ S2 V2) as (s3 & E3 & C3 & V3 & S3); [lia|]. exists s3. split; [congruence|]. split; [congruence|]. split; [exact V3|].
      rewrite C2 in S3. rewrite <- !app_assoc in S3. cbn [app] in S3. rewrite <- !app_assoc. exact S3.
Qed.

Lemma words_split G gs vs : words G gs vs -> Forall2 G gs vs \/
  exists hs ws q a b c d, gs = hs ++ [q] /\ Forall2 G hs ws /\ quad q [a; b; c; d] /\ vs = ws ++ [256 * a + b; 256 * c + d].
Proof.
  induction 1 as [|g v gs vs G0 W IH|q a b c d Q].
  - left; constructor.
  - destruct IH as [F|(hs & ws & q & a & b & c & d & -> & F & Q & ->)]; [left; constructor; auto|].
    right. exists (g :: hs), (v :: ws), q, a, b, c, d. split; [reflexivity|]. split; [constructor; auto|]. auto.
  - right. exists [], [], q, a, b, c, d. split; [reflexivity|]. split; [constructor|]. auto.
Qed.
Lemma quad_not_group q o v : quad q o -> long_group q v -> False.
Proof.
  intros (a & b & c & d & va & vb & vc & vd & _ & _ & _ & _ & -> & _) (w & _ & [_ (ds & F & _)] & _).
  apply Forall2_app_inv_l in F as (l1 & l2 & _ & F & _). apply Forall2_app_inv_l in F as (l3 & l4 & F & _). inversion F as [|? x ? ? H]; subst. apply (hexof_punct (d := x)) in H. now destruct H.
Qed.
Lemma state6_words pre pvs s done src post qvs cur : state6 pre pvs s done src post qvs cur -> x_tp s = (2 * length (pvs ++ qvs))%nat.
Proof. intros (_ & _ & X & _). rewrite app_length. exact X. Qed.

Lemma reads_words gs vs t : words long_group gs vs -> ending gs t -> forall pre pvs s done post qvs, state6 pre pvs s done (colons gs ++ t) post qvs [] -> x_val s = 0 ->
  (x_tp s + 2 * length vs <= 16)%nat -> reads s (colons gs ++ t) ((pvs ++ qvs) ++ vs).
Proof.
  intros W EN pre pvs s done post qvs ST V0 L.
  (* the words of a state after some groups *)
  assert (RUN : forall hs ws rest, Forall2 long_group hs ws -> colons gs ++ t = coloned hs ++ rest -> (x_tp s + 2 * length ws <= 16)%nat ->
            exists s' pre' pvs' done' post' qvs', pton6_loop s (colons gs ++ t) = pton6_loop s' rest /\ x_colonp s' = x_colonp s /\ x_val s' = 0 /\
              state6 pre' pvs' s' done' rest post' qvs' [] /\ pvs' ++ qvs' = (pvs ++ qvs) ++ ws).
  { intros hs ws rest F E LW. rewrite E in ST |- *. destruct (@run_groups hs ws F pre pvs s done post qvs rest ST V0 LW) as (s' & E' & C' & V' & S').
    destruct (x_colonp s) eqn:C.
    - exists s', pre, pvs, (done ++ coloned hs), (post ++ hs), (qvs ++ ws). split; [exact E'|]. split; [exact C'|]. split; [exact V'|]. split; [exact S'|]. now rewrite app_assoc.
    - exists s', (pre ++ hs), (pvs ++ ws), (done ++ coloned hs), [], []. split; [exact E'|]. split; [exact C'|]. split; [exact V'|]. split; [exact S'|]. rewrite app_nil_r.
      destruct ST as (_ & FQ & _ & _ & _ & _ & _ & _ & _ & CP). rewrite C in CP. destruct CP as (-> & _). inversion FQ. now rewrite app_nil_r. }
  destruct (words_split W) as [F|(hs & ws & q & a & b & c & d & -> & F & Q & ->)].
  - destruct EN as [->|[-> (g & v & <- & LG)]].
    + rewrite app_nil_r in *. destruct gs as [|g0 gs0].
      * inversion F; subst vs. rewrite app_nil_r. exact (reads_end ST).
      * assert (NE : g0 :: gs0 <> []) by discriminate. destruct (exists_last NE) as (hs & g & E). rewrite E in *. clear E NE g0 gs0.
        apply Forall2_app_inv_l in F as (ws & l2 & F & F2 & ->). inversion F2 as [|? v ? ? LG F3]; subst. inversion F3; subst. clear F2 F3.
        rewrite app_length in L. cbn [length] in L.
        destruct (RUN hs ws g F) as (s' & pre' & pvs' & done' & post' & qvs' & E' & C' & V' & S' & AP); [now rewrite coloned_colons|lia|].
        pose proof (state6_words S') as T'. rewrite AP in T'. pose proof (state6_words ST) as T. rewrite app_length in T'.
        rewrite <- (app_nil_r g) in S' at 1. destruct (@read_long pre' pvs' s' done' g v post' qvs' [] S' V' LG) as (s2 & E2 & S2 & C2 & V2). rewrite app_nil_r in E2.
        pose proof (state6_words S2) as T2. rewrite AP, app_length in T2. rewrite app_assoc, <- AP, <- V2.
        apply (@reads_step s _ s2 []); [congruence|congruence|]. apply (reads_last S2 (long_length LG)). lia.
    + destruct gs as [|g0 gs0]; [destruct (long_length LG); reflexivity|]. destruct (RUN (g0 :: gs0) vs []) as (s' & pre' & pvs' & done' & post' & qvs' & E' & C' & V' & S' & AP); [exact F|rewrite app_nil_r; symmetry; now apply coloned_ends|exact L|].
      rewrite <- AP. apply (@reads_step s _ s' []); [exact E'|exact C'|]. exact (reads_end S').
  - destruct EN as [->|[-> (g & v & <- & LG)]].
    2:{ rewrite last_last in LG. destruct (quad_not_group Q LG). }
    rewrite app_nil_r in *. rewrite app_length in L. cbn [length] in L.
    destruct (RUN hs ws q F) as (s' & pre' & pvs' & done' & post' & qvs' & E' & C' & V' & S' & AP); [now rewrite coloned_colons|lia|].
    pose proof (state6_words S') as T'. rewrite AP in T'. pose proof (state6_words ST) as T. rewrite app_length in T'.
    rewrite app_assoc, <- AP. apply (@reads_step s _ s' q); [exact E'|exact C'|]. apply (reads_quad S' V' Q). lia.
Qed.

(** ** the function *)
Lemma rest6_copy (m tmp : list N) : (16 <= length m)%nat -> length tmp = 16%nat -> (let* m := acopy m 0 tmp 0 16 in Ok (Some m)) = Ok (Some (tmp ++ skipn 16 m)).
Proof. intros L LT. rewrite acopy_Ok by lia. cbn [bind skipn firstn app Nat.add]. now rewrite firstn_all2 by lia. Qed.
Lemma rest6_full src m s vs : fst_loop (mkP6 (repeat 0 16) 0 None src false 0) src = fst_loop s src -> x_colonp s = None -> reads s src vs -> length vs = 8%nat -> (16 <= length m)%nat ->
  rest6 src m = Ok (Some (bytes_of vs ++ skipn 16 m)).
Proof.
  intros E C (tp & R & T) L LM. unfold rest6. rewrite E, R, C. cbn [bind]. rewrite T, L. change (2 * 8)%nat with 16%nat. cbn [Nat.eqb negb]. change (zs (16 - 16)) with (@nil N). rewrite app_nil_r.
  apply rest6_copy; [exact LM|]. rewrite bytes_of_length. lia.
Qed.
Definition lenient_words (pvs qvs : list N) : list N := if (length pvs + length qvs =? 8)%nat then pvs ++ repeat 0 (length qvs) else expanded pvs qvs.
Lemma rest6_compressed src m s rest pvs qvs : fst_loop (mkP6 (repeat 0 16) 0 None src false 0) src = fst_loop s rest -> x_colonp s = Some (2 * length pvs)%nat -> reads s rest (pvs ++ qvs) ->
  (length pvs + length qvs <= 8)%nat -> (16 <= length m)%nat ->
  rest6 src m = Ok (Some (bytes_of (lenient_words pvs qvs) ++ skipn 16 m)).
Proof.
  intros E C (tp & R & T) L LM. unfold rest6. rewrite E, R, C. cbn [bind]. cbv zeta. rewrite app_length in *. rewrite T.
  replace (2 * (length pvs + length qvs) - 2 * length pvs)%nat with (2 * length qvs)%nat by lia.
  rewrite bytes_of_app, <- app_assoc. rewrite <- (bytes_of_length pvs), <- (bytes_of_length qvs). unfold lenient_words.
  destruct (Nat.eqb_spec (length pvs + length qvs) 8) as [EQ|NE].
  - rewrite EQ. replace (16 - 2 * 8)%nat with 0%nat by lia. rewrite (@shift_full (length (bytes_of qvs)) (bytes_of pvs) (length (bytes_of qvs)) (bytes_of qvs) 0 eq_refl) by (rewrite !bytes_of_length; lia).
    cbn [bind Nat.eqb negb]. rewrite Nat.add_0_r. rewrite bytes_of_app, bytes_of_zeros, bytes_of_length. apply rest6_copy; [exact LM|]. rewrite app_length, zs_length, bytes_of_length. lia.
  - replace (16 - 2 * (length pvs + length qvs))%nat with (S (2 * (8 - length pvs - length qvs) - 1)) by lia.
    rewrite <- (app_nil_r (zs (S _))), (@shift_spec (length (bytes_of qvs)) (bytes_of pvs) (length (bytes_of qvs)) (bytes_of qvs) [] _ eq_refl) by (rewrite ?bytes_of_length; cbn [length]; lia).
    cbn [bind Nat.eqb negb]. rewrite app_nil_r. replace (S (2 * (8 - length pvs - length qvs) - 1)) with (2 * (8 - length pvs - length qvs))%nat by lia.
    unfold expanded. rewrite !bytes_of_app, bytes_of_zeros. apply rest6_copy; [exact LM|]. rewrite !app_length, zs_length, !bytes_of_length. lia.
Qed.

Lemma long_head g v : long_group g v -> hd NUL g <> ":"%char /\ hd NUL g <> NUL.
Proof.
  intros (w & L & [LG (ds & F & _)] & _). destruct F as [|c d g ds H F]; [cbn in LG; lia|]. cbn [hd]. split; [apply (hexof_punct H)|apply (hexof_nul H)].
Qed.
Lemma hd_app A (d : A) a b : a <> [] -> hd d (a ++ b) = hd d a. Proof. destruct a; [congruence|reflexivity]. Qed.
Lemma quad_head q o : quad q o -> q <> [] /\ hd NUL q <> ":"%char.
Proof.
  intros (a & b & c & d & va & vb & vc & vd & (NE & D & _) & _ & _ & _ & -> & _). destruct a as [|c0 a]; [congruence|]. split; [discriminate|]. cbn. intros ->. assert (isdigit ":" = true) by (apply D; now left). discriminate.
Qed.
Lemma words_head gs vs t : words long_group gs vs -> gs <> [] -> hd NUL (colons gs ++ t) <> ":"%char.
Proof.
  intros W NE. destruct W as [|g v gs vs G W|q a b c d Q]; [congruence| |].
  - assert (X : exists r, colons (g :: gs) = g ++ r) by (unfold colons; cbn; destruct gs; [exists []; now rewrite app_nil_r|eexists; reflexivity]). destruct X as [r ->].
    rewrite <- app_assoc, hd_app by (eapply long_length; exact G). apply (long_head G).
  - destruct (quad_head Q) as [N H]. unfold colons. cbn [join]. rewrite hd_app; assumption.
Qed.
Lemma pton6_plain src m : hd NUL src <> ":"%char -> inet_pton6 src m = rest6 src m.
Proof. intros H. rewrite pton6_eq. destruct src as [|c src]; [reflexivity|]. cbn [hd] in H. replace (beq c ":") with false; [reflexivity|]. destruct (beq c ":") eqn:B; [|reflexivity]. apply beq_true in B. contradiction. Qed.

Lemma pton6_complete src vs m : lenient6 src vs -> (16 <= length m)%nat -> inet_pton6 src m = Ok (Some (bytes_of vs ++ skipn 16 m)).
Proof.
  intros [(gs & t & W & L8 & EN & ->)|(pre & pvs & post & qvs & t & FP & W & L8 & EN & -> & ->)] LM.
  - assert (NE : gs <> []) by (intros ->; inversion W; subst; discriminate L8). pose proof (@words_head _ _ t W NE) as H. rewrite pton6_plain by exact H.
    apply (@rest6_full _ m (mkP6 (repeat 0 16) 0 None (colons gs ++ t) false 0) vs eq_refl eq_refl); [|exact L8|exact LM].
    apply (reads_words W EN (start6 _ H) eq_refl). cbn [x_tp]. lia.
  - fold (lenient_words pvs qvs). rewrite <- opened_compressed, <- app_assoc. set (tail := colons post ++ t). destruct pre as [|g pre].
    + inversion FP; subst pvs. cbn [opened length] in *. rewrite pton6_eq. change (lit "::" ++ tail) with (":"%char :: ":"%char :: tail). change (beq ":" ":") with true. cbn iota.
      apply (@rest6_compressed _ m (began tail) tail [] qvs (began_loop tail) eq_refl); [|exact L8|exact LM].
      apply (reads_words W EN (began6 tail) eq_refl). cbn [x_tp began]. lia.
    + assert (SRC : opened (g :: pre) ++ tail = coloned (g :: pre) ++ ":"%char :: tail) by (unfold opened; rewrite <- app_assoc; reflexivity). rewrite SRC.
      assert (H : hd NUL (coloned (g :: pre) ++ ":"%char :: tail) <> ":"%char).
      { rewrite coloned_ends, <- app_assoc by discriminate. apply (@words_head _ _ _ (words_forall2 FP)). discriminate. }
      rewrite pton6_plain by exact H.
      destruct (@run_groups _ _ FP [] [] _ [] [] [] (":"%char :: tail) (start6 _ H) eq_refl) as (s1 & E1 & C1 & V1 & S1); [cbn [x_tp]; lia|]. cbn [x_colonp app] in S1, C1.
      destruct (state6_double S1 C1) as (s2 & E2 & C2 & V2 & S2).
      apply (@rest6_compressed _ m s2 tail pvs qvs); [unfold fst_loop; rewrite E1, E2; reflexivity|exact C2| |exact L8|exact LM].
      pose proof (state6_words S2) as T2. rewrite app_nil_r in T2. rewrite <- (app_nil_r pvs). apply (reads_words W EN S2 V2). lia.
Qed.
Lemma pton6_exact src m : is_cstr src -> (16 <= length m)%nat ->
  (exists vs, lenient6 src vs /\ inet_pton6 src m = Ok (Some (bytes_of vs ++ skipn 16 m))) \/ (forall vs, ~ lenient6 src vs) /\ inet_pton6 src m = Ok None.
Proof.
  intros CS L. destruct (pton6_sound m CS L) as [N|X]; [|left; exact X]. right. split; [|exact N]. intros vs V. rewrite (pton6_complete m V L) in N. discriminate N.
Qed.
Lemma words_long gs vs : words hex_group gs vs -> words long_group gs vs.
Proof. induction 1; [constructor|apply words_group; [now apply hex_long|assumption]|now apply words_quad]. Qed.
Lemma text6_lenient s vs : text6 s vs -> lenient6 s vs.
Proof.
  intros [(gs & W & L & ->)|(pre & pvs & post & qvs & F & W & L & -> & ->)].
  - left. exists gs, []. split; [now apply words_long|]. split; [exact L|]. split; [left; reflexivity|]. now rewrite app_nil_r.
  - right. exists pre, pvs, post, qvs, []. split; [|split; [now apply words_long|split; [lia|split; [left; reflexivity|split; [now rewrite app_nil_r|]]]]].
    + clear - F. induction F; constructor; auto. now apply hex_long.
    + destruct (Nat.eqb_spec (length pvs + length qvs) 8); [lia|reflexivity].
Qed.
