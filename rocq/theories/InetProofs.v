(** inet_pton4: exactly the dotted quads. *)
From Verif Require Import Prelude PreludeFacts Str StrFacts Libc LibcFacts IpModel IpSpec InetModel InetSpec.
Set Implicit Arguments.
Local Open Scope N_scope.

Lemma digits_chr c : c <> NUL -> match strchr digits c with Some p => isdigit c = true /\ N.of_nat p = digit_val c | None => isdigit c = false end.
Proof. intros N. destruct c as [[] [] [] [] [] [] [] []]; cbn; auto; now contradiction N. Qed.
Lemma digit_nul c : isdigit c = true -> c <> NUL.
Proof. intros D ->. discriminate D. Qed.
Lemma cstr_cons c s : is_cstr (c :: s) -> c <> NUL /\ is_cstr s.
Proof. unfold is_cstr. cbn. intuition. Qed.
Lemma nget_at (a : list N) v b i : i = length a -> nget (a ++ v :: b) i = Ok v.
Proof. intros ->. unfold nget. rewrite nth_error_app2, Nat.sub_diag by lia. reflexivity. Qed.
Lemma nset_at (a : list N) v b i x : i = length a -> nset (a ++ v :: b) i x = Ok (a ++ x :: b).
Proof.
  intros ->. unfold nset. rewrite app_length. cbn [length]. destruct (Nat.ltb_spec (length a) (length a + S (length b))); [|lia].
  rewrite upd_app_r, Nat.sub_diag by lia. reflexivity.
Qed.

Definition dotted (l : list (list byte * N)) : list byte := flat_map (fun p => fst p ++ lit ".") l.
Definition zs (n : nat) : list N := repeat 0 n.

(** what the state means: complete numbers, and the digits of the current one *)
Definition state4 (s : p4) (l : list (list byte * N)) (cur : list byte) (v : N) : Prop :=
  Forall (fun p => numeral 255 (fst p) (snd p)) l /\ (length l <= 3)%nat /\ q_tp s = length l /\
  q_tmp s = map snd l ++ v :: zs (3 - length l) /\ v = undec cur /\ v <= 255 /\ (forall c, In c cur -> isdigit c = true) /\
  match cur with [] => q_saw s = false /\ q_octets s = length l | _ => q_saw s = true /\ q_octets s = S (length l) end.

Lemma state4_get s l cur v : state4 s l cur v -> nget (q_tmp s) (q_tp s) = Ok v.
Proof. intros (_ & _ & TP & TM & _). rewrite TM. apply nget_at. now rewrite map_length. Qed.
Lemma snoc_not_nil A (l : list A) x : match l ++ [x] with [] => False | _ => True end.
Proof. destruct l; exact Logic.I. Qed.
Lemma digit_of_val c p : N.of_nat p = digit_val c -> isdigit c = true -> digit_val c < 10.
Proof. intros _. unfold isdigit, in_range, digit_val. rewrite andb_true_iff, !N.leb_le. lia. Qed.

Lemma state4_digit s l cur v c p : state4 s l cur v -> isdigit c = true -> N.of_nat p = digit_val c -> v * 10 + N.of_nat p <= 255 ->
  forall rest, exists s', pton4_loop s (c :: rest) = pton4_loop s' rest /\ state4 s' l (cur ++ [c]) (v * 10 + N.of_nat p).
Proof.
  intros ST D P LE rest. cbn [pton4_loop]. pose proof (digits_chr (digit_nul D)) as CH. destruct (strchr digits c) as [p'|].
  2:{ congruence. }
  assert (p' = p) as -> by lia. clear CH. rewrite (state4_get ST). cbn [bind].
  destruct ST as (F & L & TP & TM & V & _ & DG & CUR).
  replace (255 <? v * 10 + N.of_nat p) with false by (symmetry; apply N.ltb_ge; exact LE).
  rewrite TM, nset_at by (rewrite map_length; exact TP). cbn [bind].
  assert (DG' : forall x, In x (cur ++ [c]) -> isdigit x = true) by (intros x I; apply in_app_iff in I as [I|[<-|[]]]; auto).
  assert (U : v * 10 + N.of_nat p = undec (cur ++ [c])) by (rewrite undec_snoc, <- V, P; lia).
  assert (SN : match cur ++ [c] with [] => False | _ => True end) by apply snoc_not_nil.
  destruct cur as [|c0 cur].
  - destruct CUR as [-> OC]. cbn [negb]. rewrite OC. destruct (Nat.ltb_spec 4 (S (length l))); [lia|].
    eexists; split; [reflexivity|]. unfold state4. cbn [q_tp q_tmp q_saw q_octets app]. auto 10.
  - destruct CUR as [-> OC]. cbn [negb]. eexists; split; [reflexivity|]. unfold state4. cbn [q_tp q_tmp q_saw q_octets app]. auto 10.
Qed.
Lemma state4_dot s l cur v : state4 s l cur v -> cur <> [] -> (length l <= 2)%nat ->
  forall rest, exists s', pton4_loop s ("."%char :: rest) = pton4_loop s' rest /\ state4 s' (l ++ [(cur, v)]) [] 0.
Proof.
  intros (F & L & TP & TM & V & LE & DG & CUR) NE L2 rest. cbn [pton4_loop].
  change (strchr digits "."%char) with (@None nat). cbn iota. change (beq "." ".") with true. destruct cur as [|c0 cur]; [congruence|].
  destruct CUR as [-> OC]. cbn [andb]. rewrite OC. destruct (Nat.eqb_spec (S (length l)) 4); [lia|].
  rewrite TM, TP. replace (3 - length l)%nat with (S (2 - length l)) by lia. unfold zs. cbn [repeat].
  replace (map snd l ++ v :: 0 :: repeat 0 (2 - length l)) with ((map snd l ++ [v]) ++ 0 :: repeat 0 (2 - length l)) by now rewrite <- app_assoc.
  rewrite nset_at by (rewrite app_length, map_length; cbn; lia). cbn [bind]. eexists; split; [reflexivity|]. unfold state4. cbn [q_tp q_tmp q_saw q_octets].
  rewrite app_length, map_app. cbn [length map snd]. rewrite Nat.add_1_r. split; [apply Forall_app; split; [exact F|constructor; [|constructor]]|].
  - cbn [fst snd]. unfold numeral. split; [discriminate|]. auto.
  - split; [lia|]. split; [reflexivity|]. split; [unfold zs; f_equal; f_equal; f_equal; lia|]. split; [reflexivity|]. split; [lia|]. split; [intros c []|auto].
Qed.
(** reading on *)
Lemma state4_sound src : is_cstr src -> forall s l cur v r, state4 s l cur v -> pton4_loop s src = Ok (Some r) ->
  exists l' cur' v', state4 r l' cur' v' /\ dotted l ++ cur ++ src = dotted l' ++ cur'.
Proof.
  induction src as [|c src IH]; intros CS s l cur v r ST R.
  - cbn [pton4_loop] in R. injection R as <-. exists l, cur, v. rewrite app_nil_r. auto.
  - destruct (cstr_cons CS) as [NC CS']. pose proof (digits_chr NC) as CH. destruct (strchr digits c) as [p|] eqn:SC.
    + destruct CH as [D P]. destruct (N.le_gt_cases (v * 10 + N.of_nat p) 255) as [LE|GT].
      * destruct (state4_digit c p ST D P LE src) as (s' & E & ST'). rewrite E in R. destruct (IH CS' _ _ _ _ _ ST' R) as (l' & cur' & v' & A & B).
        exists l', cur', v'. split; [exact A|]. rewrite <- B, <- app_assoc. reflexivity.
      * cbn [pton4_loop] in R. rewrite SC, (state4_get ST) in R. cbn [bind] in R. apply N.ltb_lt in GT. rewrite GT in R. discriminate R.
    + destruct (beq c "." && q_saw s) eqn:K.
      2:{ cbn [pton4_loop] in R. rewrite SC, K in R. discriminate R. }
      apply andb_true_iff in K as [DOT SAW]. apply beq_true in DOT as ->.
      assert (NE : cur <> []) by (intros ->; destruct ST as (_ & _ & _ & _ & _ & _ & _ & X & _); congruence).
      destruct (Nat.le_gt_cases (length l) 2) as [L2|G].
      * destruct (state4_dot ST NE L2 src) as (s' & E & ST'). rewrite E in R. destruct (IH CS' _ _ _ _ _ ST' R) as (l' & cur' & v' & A & B).
        exists l', cur', v'. split; [exact A|]. rewrite <- B. unfold dotted. rewrite flat_map_app. cbn [flat_map fst]. rewrite app_nil_r, <- !app_assoc. reflexivity.
      * cbn [pton4_loop] in R. rewrite SC, SAW in R. change (beq "." ".") with true in R. cbn [andb] in R.
        destruct ST as (_ & L3 & _ & _ & _ & _ & _ & CUR). destruct cur as [|c0 cur]; [congruence|]. destruct CUR as [_ OC]. rewrite OC in R.
        assert (LL : length l = 3%nat) by lia. rewrite LL in R. discriminate R.
Qed.
(** the loop never does anything undefined *)
Lemma state4_defined src : is_cstr src -> forall s l cur v, state4 s l cur v -> exists r, pton4_loop s src = Ok r.
Proof.
  induction src as [|c src IH]; intros CS s l cur v ST; [eexists; reflexivity|].
  destruct (cstr_cons CS) as [NC CS']. pose proof (digits_chr NC) as CH. destruct (strchr digits c) as [p|] eqn:SC.
  - destruct CH as [D P]. destruct (N.le_gt_cases (v * 10 + N.of_nat p) 255) as [LE|GT].
    + destruct (state4_digit c p ST D P LE src) as (s' & E & ST'). rewrite E. exact (IH CS' _ _ _ _ ST').
    + cbn [pton4_loop]. rewrite SC, (state4_get ST). cbn [bind]. apply N.ltb_lt in GT. rewrite GT. eexists; reflexivity.
  - destruct (beq c "." && q_saw s) eqn:K.
    2:{ cbn [pton4_loop]. rewrite SC, K. eexists; reflexivity. }
    pose proof K as K0. apply andb_true_iff in K as [DOT SAW]. apply beq_true in DOT as ->.
    assert (NE : cur <> []) by (intros ->; destruct ST as (_ & _ & _ & _ & _ & _ & _ & X & _); congruence).
    destruct (Nat.le_gt_cases (length l) 2) as [L2|G].
    + destruct (state4_dot ST NE L2 src) as (s' & E & ST'). rewrite E. exact (IH CS' _ _ _ _ ST').
    + cbn [pton4_loop]. rewrite SC, K0. destruct ST as (_ & L3 & _ & _ & _ & _ & _ & CUR). destruct cur as [|c0 cur]; [congruence|]. destruct CUR as [_ OC].
      assert (LL : length l = 3%nat) by lia. rewrite OC, LL. eexists; reflexivity.
Qed.
(** reading a whole number *)
Lemma state4_number ds : forall s l cur v rest, state4 s l cur v -> (forall c, In c ds -> isdigit c = true) -> undec (cur ++ ds) <= 255 ->
  exists s', pton4_loop s (ds ++ rest) = pton4_loop s' rest /\ state4 s' l (cur ++ ds) (undec (cur ++ ds)).
Proof.
  induction ds as [|c ds IH]; intros s l cur v rest ST D LE.
  - rewrite app_nil_r in *. exists s. split; [reflexivity|]. replace (undec cur) with v; [exact ST|]. apply ST.
  - assert (DC : isdigit c = true) by (apply D; now left). pose proof (digits_chr (digit_nul DC)) as CH. destruct (strchr digits c) as [p|]; [|congruence].
    destruct CH as [_ P]. assert (V : v = undec cur) by apply ST.
    assert (M : undec (cur ++ [c]) <= undec (cur ++ c :: ds)).
    { replace (cur ++ c :: ds) with ((cur ++ [c]) ++ ds) by now rewrite <- app_assoc. rewrite (undec_app (cur ++ [c])). assert (1 <= 10 ^ N.of_nat (length ds)) by (assert (10 ^ N.of_nat (length ds) <> 0) by (apply N.pow_nonzero; lia); lia). nia. }
    rewrite undec_snoc, <- P, <- V in M.
    destruct (@state4_digit s l cur v c p ST DC P ltac:(lia) (ds ++ rest)) as (s' & E & ST').
    destruct (IH s' l (cur ++ [c]) _ rest ST') as (s2 & E2 & ST2); [intros x I; apply D; now right|rewrite <- app_assoc; exact LE|].
    exists s2. rewrite <- app_assoc in ST2. cbn [app] in ST2 |- *. split; [congruence|exact ST2].
Qed.
Lemma state4_init : state4 (mkP4 [0; 0; 0; 0] 0 false 0) [] [] 0.
Proof. unfold state4. cbn. repeat split; auto; try lia; try contradiction. Qed.
Lemma numeral_digits m ds v : numeral m ds v -> ds <> [] /\ (forall c, In c ds -> isdigit c = true) /\ v = undec ds /\ undec ds <= m.
Proof. intros (A & B & -> & D). auto. Qed.
Lemma state4_full s l cur v : state4 s l cur v -> (q_octets s <? 4)%nat = false -> length l = 3%nat /\ cur <> [] /\ numeral 255 cur v /\ q_tmp s = map snd l ++ [v].
Proof.
  intros (F & L & TP & TM & V & LE & DG & CUR) OC. apply Nat.ltb_ge in OC. destruct cur as [|c cur]; [destruct CUR as [_ X]; lia|]. destruct CUR as [_ X].
  assert (LL : length l = 3%nat) by lia. split; [exact LL|]. split; [discriminate|]. split; [unfold numeral; split; [discriminate|auto]|]. rewrite TM, LL. reflexivity.
Qed.

Lemma pton4_complete src o m off : quad src o -> (off + 4 <= length m)%nat ->
  inet_pton4 src m off = Ok (Some (firstn off m ++ o ++ skipn (off + 4) m)).
Proof.
  intros (a & b & c & d & va & vb & vc & vd & A & B & C & D & -> & ->) L. unfold inet_pton4.
  destruct (numeral_digits A) as (A1 & A2 & A3 & A4), (numeral_digits B) as (B1 & B2 & B3 & B4), (numeral_digits C) as (C1 & C2 & C3 & C4), (numeral_digits D) as (D1 & D2 & D3 & D4).
  destruct (@state4_number a _ [] [] 0 (lit "." ++ b ++ lit "." ++ c ++ lit "." ++ d) state4_init A2 A4) as (s1 & E1 & S1). cbn [app] in S1. rewrite <- A3 in S1.
  destruct (@state4_dot s1 [] a va S1 A1 ltac:(cbn; lia) (b ++ lit "." ++ c ++ lit "." ++ d)) as (s2 & E2 & S2).
  destruct (@state4_number b _ _ [] 0 (lit "." ++ c ++ lit "." ++ d) S2 B2 B4) as (s3 & E3 & S3). cbn [app] in S3. rewrite <- B3 in S3.
  destruct (@state4_dot s3 _ b vb S3 B1 ltac:(cbn; lia) (c ++ lit "." ++ d)) as (s4 & E4 & S4).
  destruct (@state4_number c _ _ [] 0 (lit "." ++ d) S4 C2 C4) as (s5 & E5 & S5). cbn [app] in S5. rewrite <- C3 in S5.
  destruct (@state4_dot s5 _ c vc S5 C1 ltac:(cbn; lia) d) as (s6 & E6 & S6).
  destruct (@state4_number d _ _ [] 0 [] S6 D2 D4) as (s7 & E7 & S7). cbn [app] in S7. rewrite <- D3 in S7. rewrite app_nil_r in E7.
  rewrite E1. change (lit "." ++ b ++ lit "." ++ c ++ lit "." ++ d) with ("."%char :: b ++ lit "." ++ c ++ lit "." ++ d). rewrite E2, E3.
  change (lit "." ++ c ++ lit "." ++ d) with ("."%char :: c ++ lit "." ++ d). rewrite E4, E5. change (lit "." ++ d) with ("."%char :: d). rewrite E6, E7. cbn [pton4_loop bind].
  destruct S7 as (_ & _ & _ & TM & _ & _ & _ & CUR). destruct d as [|d0 d]; [congruence|]. destruct CUR as [_ ->]. cbn [length map snd] in TM |- *. cbn in TM.
  change (4 <? 4)%nat with false. cbn iota. unfold acopy. rewrite TM. cbn [length]. destruct (Nat.leb_spec (off + 4) (length m)); [|lia]. reflexivity.
Qed.
Lemma pton4_sound src m off r : is_cstr src -> (off + 4 <= length m)%nat -> inet_pton4 src m off = Ok (Some r) -> exists o, quad src o.
Proof.
  intros CS L R. unfold inet_pton4 in R. destruct (pton4_loop _ src) as [[s|]| | |] eqn:E; try discriminate R. cbn [bind] in R.
  destruct (state4_sound CS state4_init E) as (l & cur & v & ST & T). cbn [dotted flat_map app] in T.
  destruct (q_octets s <? 4)%nat eqn:OC; [discriminate R|]. destruct (state4_full ST OC) as (LL & _ & NU & TM).
  destruct l as [|[a va] [|[b vb] [|[c vc] [|]]]]; try discriminate LL. destruct ST as (F & _). inversion F as [|? ? FA F2]; subst. inversion F2 as [|? ? FB F3]; subst. inversion F3 as [|? ? FC _]; subst.
  cbn [fst snd] in *. exists [va; vb; vc; v]. exists a, b, c, cur, va, vb, vc, v. do 4 (split; [assumption|]). split; [|reflexivity].
  unfold dotted. cbn [flat_map fst]. rewrite app_nil_r, <- !app_assoc. reflexivity.
Qed.
Lemma pton4_defined src m off : is_cstr src -> (off + 4 <= length m)%nat -> exists r, inet_pton4 src m off = Ok r.
Proof.
  intros CS L. unfold inet_pton4. destruct (state4_defined CS state4_init) as [r E]. rewrite E. cbn [bind]. destruct r as [s|]; [|eauto].
  destruct (state4_sound CS state4_init E) as (l & cur & v & ST & _).
  destruct (q_octets s <? 4)%nat eqn:OC; [eauto|]. destruct (state4_full ST OC) as (LL & _ & _ & TM). unfold acopy. rewrite TM, app_length, map_length, LL. cbn [length].
  destruct (Nat.leb_spec (off + 4) (length m)); [|lia]. cbn. eauto.
Qed.
(** the quads and their values *)
Lemma pton4_exact src m off : is_cstr src -> (off + 4 <= length m)%nat ->
  (exists o, quad src o /\ inet_pton4 src m off = Ok (Some (firstn off m ++ o ++ skipn (off + 4) m))) \/
  (forall o, ~ quad src o) /\ inet_pton4 src m off = Ok None.
Proof.
  intros CS L. destruct (pton4_defined m off CS L) as [[r|] E].
  - left. destruct (pton4_sound m off CS L E) as [o Q]. exists o. split; [exact Q|]. apply pton4_complete; auto.
  - right. split; [|exact E]. intros o Q. rewrite (@pton4_complete src o m off Q L) in E. discriminate E.
Qed.
Lemma quad_unique s o o' : quad s o -> quad s o' -> o = o'.
Proof.
  intros Q Q'. pose proof (@pton4_complete s o [0;0;0;0] 0 Q (le_n _)) as A. pose proof (@pton4_complete s o' [0;0;0;0] 0 Q' (le_n _)) as B. rewrite A in B. cbn in B. rewrite !app_nil_r in B. congruence.
Qed.
Lemma quad_small s o : quad s o -> length o = 4%nat /\ Forall (fun v => v <= 255) o.
Proof.
  intros (a & b & c & d & va & vb & vc & vd & A & B & C & D & _ & ->). split; [reflexivity|]. unfold numeral in *. repeat constructor; tauto.
Qed.
