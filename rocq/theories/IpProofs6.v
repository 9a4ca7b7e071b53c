(** Proofs about the IPv6 parser. *)
From Verif Require Import Prelude PreludeFacts Str StrFacts Libc LibcFacts IpModel IpSpec IpProofs.
Set Implicit Arguments.
Local Open Scope N_scope.

(** ** no undefined behaviour *)
Definition inv6 (s : st6) : Prop :=
  length (unsorted s) = 6%nat /\ length (sixteen (dst6 s)) = 8%nat /\ (up s <= 5)%nat /\ ((state6 s <= 7)%nat -> (up s <= state6 s - 2)%nat).
Definition good {A} (P : A -> Prop) (r : res (option A)) : Prop := exists o, r = Ok o /\ match o with Some x => P x | None => True end.

Lemma store6_inv s i : inv6 s -> (i < 8)%nat -> exists s', store6 s i = Ok s' /\ inv6 s' /\ state6 s' = state6 s /\ up s' = up s.
Proof.
  intros [A [B [C D]]] L. unfold store6. rewrite nset_ok by (rewrite B; exact L). cbn [bind]. eexists. split; [reflexivity|].
  unfold inv6. cbn. rewrite length_upd. auto.
Qed.
Lemma push6_ok s : length (unsorted s) = 6%nat -> (up s < 6)%nat ->
  push6 s = Ok (mk6 (six s) (upd (unsorted s) (up s) (six s)) (S (up s)) (bracket s) (prt6 s) (chars6 s) (upper s) (compress s) (already s) (state6 s) (dst6 s)).
Proof. intros A B. unfold push6. rewrite nset_ok by (rewrite A; exact B). reflexivity. Qed.

Lemma error6_inv s : inv6 s -> good (fun p => inv6 (fst p)) (error6 s).
Proof. intros [A [B [C D]]]. eexists. split; [reflexivity|]. unfold inv6, to6. cbn. repeat split; auto; try lia. Qed.
Lemma to6_inv s n : inv6 s -> (up s <= n - 2)%nat -> inv6 (to6 s n).
Proof. intros [A [B [C D]]] L. unfold inv6, to6. cbn. auto. Qed.
Lemma to6_inv8 s n : inv6 s -> (8 <= n)%nat -> inv6 (to6 s n).
Proof. intros [A [B [C D]]] L. unfold inv6, to6. cbn. repeat split; auto; try lia. Qed.
Lemma hex6_inv s c : inv6 s -> good (fun p => inv6 (fst p)) (hex6 s c).
Proof. intros H. unfold hex6. destruct (upper s); [apply error6_inv, H|]. eexists. split; [reflexivity|]. exact H. Qed.
Lemma push6_inv s : inv6 s -> (2 <= state6 s <= 6)%nat -> exists s', push6 s = Ok s' /\
  length (unsorted s') = 6%nat /\ length (sixteen (dst6 s')) = 8%nat /\ state6 s' = state6 s /\ up s' = S (up s) /\ (up s' <= state6 s - 1)%nat /\ bracket s' = bracket s /\ compress s' = compress s.
Proof.
  intros [A [B [C D]]] L. rewrite push6_ok by (auto; lia). eexists. split; [reflexivity|]. cbn. rewrite length_upd. repeat split; auto; try lia.
Qed.
Lemma good_some A (P : A -> Prop) (x : A) : P x -> good P (Ok (Some x)).
Proof. intros H. exists (Some x). auto. Qed.
Lemma switch6_inv s c : inv6 s -> good (fun p => inv6 (fst p)) (switch6 s c).
Proof.
  intros H. unfold switch6. pose proof H as [A [B [C D]]].
  assert (Mid : forall st, (2 <= st <= 6)%nat -> state6 s = st -> good (fun p => inv6 (fst p))
     (if isxdigit c then hex6 s c
      else if beq c ":" then
        if (chars6 s =? 0)%nat then if already s then error6 s else Ok (Some (set_compressed s, false))
        else let* s0 := if compress s then push6 s else store6 s (state6 s) in Ok (Some (to6 s0 (S (state6 s0)), true))
      else if beq c "]" then
        if bracket s && compress s then let* s0 := push6 (set_bracket s false) in Ok (Some (to6 s0 8%nat, true)) else error6 s
      else error6 s)).
  { intros st L Est. destruct (isxdigit c); [apply hex6_inv, H|]. destruct (beq c ":").
    - destruct (chars6 s =? 0)%nat.
      + destruct (already s); [apply error6_inv, H|]. apply good_some. exact H.
      + destruct (compress s).
        * destruct (push6_inv H) as [s' [-> [P1 [P2 [P3 [P4 [P5 _]]]]]]]; [lia|]. cbn [bind]. apply good_some. unfold inv6, to6. cbn. repeat split; auto; try lia.
        * destruct (@store6_inv s (state6 s) H) as [s' [-> [I' [P1 P2]]]]; [lia|]. cbn [bind]. apply good_some, to6_inv; [exact I'|]. rewrite P1, P2. specialize (D ltac:(lia)). lia.
    - destruct (beq c "]"); [|apply error6_inv, H]. destruct (bracket s && compress s); [|apply error6_inv, H].
      destruct (@push6_inv (set_bracket s false)) as [s' [-> [P1 [P2 [P3 [P4 [P5 _]]]]]]]; [exact H|cbn; lia|]. cbn [bind]. apply good_some. cbn in P5. unfold inv6, to6. cbn. repeat split; auto; try lia. }
  destruct (state6 s) as [|[|[|[|[|[|[|[|[|[|[|k]]]]]]]]]]] eqn:Est.
  - destruct (beq c "["). { destruct (chars6 s =? 0)%nat; [apply good_some; unfold inv6, set_bracket; cbn; rewrite Est; auto|apply error6_inv, H]. }
    destruct (isxdigit c); [apply hex6_inv, H|]. destruct (beq c ":"); [|apply error6_inv, H].
    destruct (@store6_inv s 0 H) as [s' [-> [I' [P1 P2]]]]; [lia|]. cbn [bind]. apply good_some, to6_inv; [exact I'|]. rewrite P2. specialize (D ltac:(lia)). lia.
  - destruct (isxdigit c); [apply hex6_inv, H|]. destruct (beq c ":"); [|apply error6_inv, H].
    destruct (chars6 s =? 0)%nat; cbn [bind].
    + apply good_some, to6_inv; [unfold inv6, set_compressed; cbn; rewrite Est; auto|]. cbn. specialize (D ltac:(lia)). lia.
    + destruct (@store6_inv s 1 H) as [s' [-> [I' [P1 P2]]]]; [lia|]. cbn [bind]. apply good_some, to6_inv; [exact I'|]. rewrite P2, P1. specialize (D ltac:(lia)). lia.
  - apply (Mid 2%nat); lia.
  - apply (Mid 3%nat); lia.
  - apply (Mid 4%nat); lia.
  - apply (Mid 5%nat); lia.
  - apply (Mid 6%nat); lia.
  - destruct (isxdigit c); [apply hex6_inv, H|]. destruct (beq c "]"); [|apply error6_inv, H]. destruct (bracket s); [|apply error6_inv, H].
    destruct (@store6_inv (set_bracket s false) 7) as [s' [-> [I' [P1 P2]]]]; [unfold inv6, set_bracket; cbn; rewrite Est; auto|lia|]. cbn [bind]. apply good_some, to6_inv8; [exact I'|]. cbn in P1. rewrite P1. lia.
  - destruct (beq c ":"); [|apply error6_inv, H]. apply good_some, to6_inv8; [exact H|lia].
  - destruct (isdigit c); [|apply error6_inv, H]. apply good_some. unfold inv6. cbn. repeat split; auto; try lia.
  - apply good_some. exact H.
  - exists None. auto.
Qed.
Lemma step6_inv s c : inv6 s -> good inv6 (step6 s c).
Proof.
  intros H. unfold step6. set (s0 := mk6 _ _ _ _ _ _ _ _ _ _ _). assert (H0 : inv6 s0) by exact H.
  destruct (switch6_inv c H0) as [[[s1 sc]|] [-> H1]]; cbn [bind]; [|exists None; auto].
  cbn [six prt6]. destruct (65535 <? six s1); [exists None; auto|]. destruct (65535 <? prt6 s1); [exists None; auto|].
  destruct sc; apply good_some; exact H1.
Qed.
Lemma loop6_inv l : forall s, inv6 s -> good inv6 (loop6 s l).
Proof.
  induction l as [|c l IH]; intros s H; [apply good_some, H|]. cbn [loop6]. destruct (step6_inv c H) as [[s1|] [-> H1]]; cbn [bind]; [apply IH, H1|exists None; auto].
Qed.

(** what the final loops do *)
Lemma place_back m u : forall k i a, length a = 8%nat -> (i + k = m)%nat -> (m <= length u)%nat -> (m <= 8)%nat ->
  place k i (fun i => (m - i - 1)%nat) u a = Ok (firstn (8 - m) a ++ map u16 (firstn k u) ++ skipn (8 - i) a).
Proof.
  induction k as [|k IH]; intros i a La E Lu L8.
  - cbn [place firstn map app]. replace m with i by lia. rewrite firstn_skipn. reflexivity.
  - cbn [place]. unfold nget. rewrite (nth_error_nth' u 0) by lia. cbn [bind]. rewrite nset_ok by lia. cbn [bind].
    rewrite IH by (rewrite ?length_upd; lia). f_equal.
    replace (m - i - 1)%nat with k by lia. rewrite (@firstn_S_nth N u k 0) by lia. rewrite map_app. cbn [map]. rewrite <- !app_assoc. cbn [app].
    assert (La' : (7 - i < length a)%nat) by lia. rewrite (@upd_spec N a (7 - i) (u16 (nth k u 0)) La').
    rewrite firstn_app_le by (rewrite firstn_length; lia). rewrite firstn_firstn. replace (Nat.min (8 - m) (7 - i)) with (8 - m)%nat by lia. f_equal. f_equal.
    rewrite skipn_app_ge by (rewrite firstn_length; lia). rewrite firstn_length. replace (8 - S i - Nat.min (7 - i) (length a))%nat with 0%nat by lia. cbn [skipn].
    replace (S (7 - i)) with (8 - i)%nat by lia. reflexivity.
Qed.
Lemma place_front u : forall k i a, length a = 8%nat -> (i + k <= length u)%nat -> (i + k <= 8)%nat ->
  place k i (fun i => i) u a = Ok (firstn (8 - i - k) a ++ map u16 (rev (firstn k (skipn i u))) ++ skipn (8 - i) a).
Proof.
  induction k as [|k IH]; intros i a La Lu L8.
  - cbn [place firstn rev map app]. rewrite Nat.sub_0_r, firstn_skipn. reflexivity.
  - cbn [place]. unfold nget. rewrite (nth_error_nth' u 0) by lia. cbn [bind]. rewrite nset_ok by lia. cbn [bind].
    rewrite IH by (rewrite ?length_upd; lia). f_equal.
    rewrite (@skipn_cons_nth N u i 0) by lia. cbn [firstn rev]. rewrite map_app. cbn [map]. rewrite <- !app_assoc. cbn [app].
    assert (La' : (7 - i < length a)%nat) by lia. rewrite (@upd_spec N a (7 - i) (u16 (nth i u 0)) La').
    rewrite firstn_app_le by (rewrite firstn_length; lia). rewrite firstn_firstn. replace (Nat.min (8 - S i - k) (7 - i)) with (8 - i - S k)%nat by lia. f_equal. f_equal.
    rewrite skipn_app_ge by (rewrite firstn_length; lia). rewrite firstn_length. replace (8 - S i - Nat.min (7 - i) (length a))%nat with 0%nat by lia. cbn [skipn].
    replace (S (7 - i)) with (8 - i)%nat by lia. reflexivity.
Qed.

Lemma parser6_safe s : exists r, IPV6_parser s = Ok r /\ forall a, r = Some a -> length (sixteen a) = 8%nat.
Proof.
  unfold IPV6_parser. destruct (@loop6_inv s init6) as [[t|] [-> H]]; [unfold inv6, init6; cbn; repeat split; lia| |exists None; split; [reflexivity|discriminate]].
  cbn [bind]. pose proof H as [A [B [C D]]].
  destruct ((state6 t =? 0)%nat || (state6 t =? 1)%nat) eqn:E01; [exists None; split; [reflexivity|discriminate]|].
  destruct ((state6 t =? 2)%nat || (state6 t =? 3)%nat || (state6 t =? 4)%nat || (state6 t =? 5)%nat || (state6 t =? 6)%nat) eqn:E26.
  - assert (R : (2 <= state6 t <= 6)%nat) by (rewrite !orb_true_iff, !Nat.eqb_eq in E26; lia).
    destruct (bracket t); [exists None; split; [reflexivity|discriminate]|].
    destruct (push6_inv H R) as [t' [-> [P1 [P2 [P3 [P4 [P5 [P6 P7]]]]]]]]. cbn [bind]. destruct (compress t'); [|exists None; split; [reflexivity|discriminate]].
    rewrite place_back by (auto; lia). cbn [bind]. eexists. split; [reflexivity|]. intros a Ea. apply (f_equal (fun o => match o with Some a => length (sixteen a) | None => 8%nat end)) in Ea. cbn [sixteen] in Ea. rewrite <- Ea. rewrite app_length, app_length, map_length, !firstn_length, skipn_length. rewrite P1. lia.
  - destruct (state6 t =? 7)%nat eqn:E7.
    + apply Nat.eqb_eq in E7. destruct (chars6 t =? 0)%nat; [exists None; split; [reflexivity|discriminate]|]. destruct (bracket t); [exists None; split; [reflexivity|discriminate]|].
      destruct (@store6_inv t 7 H) as [t' [-> [[_ [B' _]] _]]]; [lia|]. cbn [bind]. eexists. split; [reflexivity|]. intros a [= <-]. exact B'.
    + destruct (state6 t =? 8)%nat.
      * destruct (compress t); [|eexists; split; [reflexivity|]; intros a [= <-]; exact B].
        rewrite place_front by (auto; lia). cbn [bind]. eexists. split; [reflexivity|]. intros a Ea. apply (f_equal (fun o => match o with Some a => length (sixteen a) | None => 8%nat end)) in Ea. cbn [sixteen] in Ea. rewrite <- Ea. rewrite app_length, app_length, map_length, rev_length, !firstn_length, !skipn_length. lia.
      * destruct (state6 t =? 9)%nat.
        -- destruct (chars6 t =? 0)%nat; [exists None; split; [reflexivity|discriminate]|]. eexists. split; [reflexivity|]. intros a [= <-]. exact B.
        -- destruct (state6 t =? 11)%nat; [exists None; split; [reflexivity|discriminate]|]. eexists; split; [reflexivity|]; intros a [= <-]; exact B.
Qed.

(** ** reading groups *)
Definition rd (k : nat) (v : N) (n : nat) (br : bool) (u : list N) (p : nat) (cp : bool) (d : IPV6Address) : st6 := mk6 v u p br 0 n false cp cp k d.
Lemma Char2Hex_0 v c : Char2Hex v c = 16 * v + Char2Hex 0 c.
Proof. unfold Char2Hex. destruct (_ && _); [lia|]. destruct (_ && _); lia. Qed.
Lemma hexdigit_facts d : (d < 16)%nat -> let c := nth d hexdigits NUL in
  isxdigit c = true /\ (if isalpha c then isupper c else false) = false /\ beq c "["%char = false /\ (forall v, Char2Hex v c = 16 * v + N.of_nat d) /\
  c <> "."%char /\ c <> ":"%char /\ isspace c = false.
Proof.
  intros L. do 16 (destruct d as [|d]; [cbn [hexdigits nth lit]; repeat split; try reflexivity; try discriminate; intros v; rewrite Char2Hex_0; f_equal; reflexivity|]). lia.
Qed.
Lemma step6_hex k v n br u p cp d x : (k <= 7)%nat -> (x < 16)%nat ->
  step6 (rd k v n br u p cp d) (nth x hexdigits NUL) =
  if 65535 <? 16 * v + N.of_nat x then Ok None else Ok (Some (rd k (16 * v + N.of_nat x) (S n) br u p cp d)).
Proof.
  intros K X. destruct (hexdigit_facts X) as [H1 [H2 [H3 [H4 [_ [H5 _]]]]]]. set (c := nth x hexdigits NUL) in *.
  unfold step6, rd. cbn [six unsorted up bracket prt6 chars6 upper compress already state6 dst6]. rewrite H1, H2.
  unfold switch6. cbn [six unsorted up bracket prt6 chars6 upper compress already state6 dst6]. rewrite H1, H3.
  unfold hex6. cbn [six unsorted up bracket prt6 chars6 upper compress already state6 dst6]. rewrite H4.
  do 8 (destruct k as [|k]; [cbn [bind six unsorted up bracket prt6 chars6 upper compress already state6 dst6]; destruct (65535 <? _); reflexivity|]). lia.
Qed.
Definition unh (v : N) (ds : list nat) : N := fold_left (fun a d => 16 * a + N.of_nat d) ds v.
Lemma unh_ge ds : forall v, v <= unh v ds.
Proof. induction ds as [|c ds IH]; intros v; [cbn; lia|]. change (unh v (c :: ds)) with (unh (16 * v + N.of_nat c) ds). specialize (IH (16 * v + N.of_nat c)). lia. Qed.
Lemma loop6_digits k br u p cp d rest ds : (k <= 7)%nat -> forall v n, Forall (fun d => (d < 16)%nat) ds -> unh v ds <= 65535 ->
  loop6 (rd k v n br u p cp d) (map (fun d => nth d hexdigits NUL) ds ++ rest) = loop6 (rd k (unh v ds) (n + length ds) br u p cp d) rest.
Proof.
  intros K. induction ds as [|x ds IH]; intros v n F L.
  - cbn [map app length unh fold_left]. rewrite Nat.add_0_r. reflexivity.
  - inversion F as [|? ? X F']; subst. change (unh v (x :: ds)) with (unh (16 * v + N.of_nat x) ds) in *. cbn [map app loop6]. rewrite step6_hex by assumption.
    pose proof (unh_ge ds (16 * v + N.of_nat x)). replace (65535 <? _) with false by (symmetry; apply N.ltb_ge; lia). cbn [bind].
    rewrite IH by assumption. cbn [length]. replace (S n + length ds)%nat with (n + S (length ds))%nat by lia. reflexivity.
Qed.
Lemma loop6_group k n br u p cp d g v rest : (k <= 7)%nat -> group g v ->
  exists m, loop6 (rd k 0 n br u p cp d) (g ++ rest) = loop6 (rd k v (S m) br u p cp d) rest /\ v <= 65535.
Proof.
  intros K [ds [Ne [F [-> [-> L]]]]]. exists (n + length ds - 1)%nat. rewrite loop6_digits by assumption. split; [|exact L].
  replace (S (n + length ds - 1)) with (n + length ds)%nat; [reflexivity|]. destruct ds; [congruence|]. cbn [length]. lia.
Qed.
Lemma u16_small v : v <= 65535 -> u16 v = v.
Proof. intros L. unfold u16. apply N.mod_small. change (2 ^ 16) with 65536. lia. Qed.

(** a colon after a group, before any compression *)
Lemma step6_colon k v n br u p d : (k <= 6)%nat -> v <= 65535 -> length (sixteen d) = 8%nat ->
  step6 (rd k v (S n) br u p false d) ":"%char = Ok (Some (rd (S k) 0 0 br u p false (mkIP6 (upd (sixteen d) k v) (port6 d)))).
Proof.
  intros K V L. unfold step6, rd. cbn [six unsorted up bracket prt6 chars6 upper compress already state6 dst6].
  unfold switch6, store6. cbn [six unsorted up bracket prt6 chars6 upper compress already state6 dst6 Nat.eqb].
  change (isxdigit ":"%char) with false. change (beq ":" ":") with true. change (beq ":" "[") with false.
  do 7 (destruct k as [|k]; [cbn [bind]; rewrite nset_ok by lia; unfold to6; cbn [bind six unsorted up bracket prt6 chars6 upper compress already state6 dst6];
    rewrite u16_small by exact V; replace (65535 <? v) with false by (symmetry; apply N.ltb_ge; exact V); reflexivity|]). lia.
Qed.
(** a colon where a group could be, in state 0 *)
Lemma step6_colon0 n br u p d : length (sixteen d) = 8%nat ->
  step6 (rd 0 0 n br u p false d) ":"%char = Ok (Some (rd 1 0 0 br u p false (mkIP6 (upd (sixteen d) 0 0) (port6 d)))).
Proof.
  intros L. unfold step6, rd. cbn [six unsorted up bracket prt6 chars6 upper compress already state6 dst6].
  unfold switch6, store6. cbn [six unsorted up bracket prt6 chars6 upper compress already state6 dst6 Nat.eqb].
  change (isxdigit ":"%char) with false. change (beq ":" ":") with true. change (beq ":" "[") with false. rewrite nset_ok by lia. reflexivity.
Qed.
(** the second colon of :: *)
Lemma step6_double k br u p d : (1 <= k <= 6)%nat ->
  step6 (rd k 0 0 br u p false d) ":"%char = Ok (Some (rd (Nat.max 2 k) 0 (if (k =? 1)%nat then 0 else 1) br u p true d)).
Proof. intros K. destruct k as [|k]; [lia|]. do 6 (destruct k as [|k]; [reflexivity|]). lia. Qed.
(** a colon after a group, after the compression *)
Lemma step6_push k v n br u p d : (2 <= k <= 6)%nat -> v <= 65535 -> length u = 6%nat -> (p < 6)%nat ->
  step6 (rd k v (S n) br u p true d) ":"%char = Ok (Some (rd (S k) 0 0 br (upd u p v) (S p) true d)).
Proof.
  intros K V L P. unfold step6, rd. cbn [six unsorted up bracket prt6 chars6 upper compress already state6 dst6].
  unfold switch6, push6. cbn [six unsorted up bracket prt6 chars6 upper compress already state6 dst6 Nat.eqb].
  change (isxdigit ":"%char) with false. change (beq ":" ":") with true. change (beq ":" "[") with false.
  destruct k as [|[|k]]; try lia.
  do 5 (destruct k as [|k]; [cbn [bind]; rewrite nset_ok by lia; unfold to6; cbn [bind six unsorted up bracket prt6 chars6 upper compress already state6 dst6];
    replace (65535 <? v) with false by (symmetry; apply N.ltb_ge; exact V); reflexivity|]). lia.
Qed.
(** a closing bracket after the compression, and after eight groups *)
Lemma step6_close k v n u p d : (2 <= k <= 6)%nat -> v <= 65535 -> length u = 6%nat -> (p < 6)%nat ->
  step6 (rd k v n true u p true d) "]"%char = Ok (Some (rd 8 0 0 false (upd u p v) (S p) true d)).
Proof.
  intros K V L P. unfold step6, rd. cbn [six unsorted up bracket prt6 chars6 upper compress already state6 dst6].
  unfold switch6, push6. cbn [six unsorted up bracket prt6 chars6 upper compress already state6 dst6 Nat.eqb].
  change (isxdigit "]"%char) with false. change (beq "]" ":") with false. change (beq "]" "]") with true.
  destruct k as [|[|k]]; try lia.
  do 5 (destruct k as [|k]; [cbn [bind andb]; unfold set_bracket; cbn [unsorted six up]; rewrite nset_ok by lia; unfold to6; cbn [bind six unsorted up bracket prt6 chars6 upper compress already state6 dst6];
    replace (65535 <? v) with false by (symmetry; apply N.ltb_ge; exact V); reflexivity|]). lia.
Qed.
Lemma step6_close8 v n u p d : v <= 65535 -> length (sixteen d) = 8%nat ->
  step6 (rd 7 v n true u p false d) "]"%char = Ok (Some (rd 8 0 0 false u p false (mkIP6 (upd (sixteen d) 7 v) (port6 d)))).
Proof.
  intros V L. unfold step6, rd. cbn [six unsorted up bracket prt6 chars6 upper compress already state6 dst6].
  unfold switch6, store6, set_bracket. cbn [six unsorted up bracket prt6 chars6 upper compress already state6 dst6 Nat.eqb].
  change (isxdigit "]"%char) with false. change (beq "]" "]") with true. rewrite nset_ok by lia. cbn [bind]. rewrite u16_small by exact V.
  unfold to6; cbn [bind six unsorted up bracket prt6 chars6 upper compress already state6 dst6]. replace (65535 <? v) with false by (symmetry; apply N.ltb_ge; exact V). reflexivity.
Qed.

(** groups each followed by a colon *)
Definition coloned (gs : list (list byte)) : list byte := flat_map (fun g => g ++ [":"%char]) gs.
Definition zeros (n : nat) : list N := repeat 0 n.
Lemma upd_zeros vs k v : length vs = k -> (k < 8)%nat -> upd (vs ++ zeros (8 - k)) k v = (vs ++ [v]) ++ zeros (8 - S k).
Proof.
  intros L K. rewrite upd_app_r by lia. rewrite L, Nat.sub_diag. replace (8 - k)%nat with (S (8 - S k)) by lia. cbn [zeros repeat upd]. rewrite <- app_assoc. reflexivity.
Qed.
Lemma loop6_before gs vs0 rest pt : forall vs k n br u p, groups gs vs0 -> length vs = k -> (k + length gs <= 7)%nat ->
  exists n', loop6 (rd k 0 n br u p false (mkIP6 (vs ++ zeros (8 - k)) pt)) (coloned gs ++ rest) =
    loop6 (rd (k + length gs) 0 n' br u p false (mkIP6 ((vs ++ vs0) ++ zeros (8 - (k + length gs))) pt)) rest /\ (gs <> [] -> n' = 0%nat) /\ (gs = [] -> n' = n).
Proof.
  intros vs k n br u p G. revert vs k n. induction G as [|g v gs vs0 Gg G IH]; intros vs k n L K.
  - exists n. cbn [coloned flat_map app length]. rewrite Nat.add_0_r, app_nil_r. split; [reflexivity|]. split; [congruence|reflexivity].
  - cbn [length] in K. cbn [coloned flat_map]. rewrite <- !app_assoc. destruct (@loop6_group k n br u p false (mkIP6 (vs ++ zeros (8 - k)) pt) g v ([":"%char] ++ coloned gs ++ rest)) as [m [E V]]; [lia|exact Gg|].
    change (flat_map (fun g => g ++ [":"%char]) gs) with (coloned gs). rewrite E. clear E. cbn [app loop6].
    rewrite step6_colon by (cbn [sixteen]; try lia; unfold zeros; rewrite app_length, repeat_length; lia). cbn [bind sixteen port6].
    rewrite upd_zeros by lia. destruct (IH (vs ++ [v]) (S k) 0%nat) as [n' [E [N1 N2]]]; [rewrite app_length; cbn; lia|lia|].
    rewrite E. exists n'. cbn [length]. replace (k + S (length gs))%nat with (S k + length gs)%nat by lia. replace ((vs ++ [v]) ++ vs0) with (vs ++ v :: vs0) by (rewrite <- app_assoc; reflexivity). split; [rewrite <- !app_assoc; reflexivity|]. split; [|discriminate].
    intros _. destruct gs; [apply N2; reflexivity|apply N1; discriminate].
Qed.
Lemma upd_zeros6 vs p v : length vs = p -> (p < 6)%nat -> upd (vs ++ zeros (6 - p)) p v = (vs ++ [v]) ++ zeros (6 - S p).
Proof.
  intros L K. rewrite upd_app_r by lia. rewrite L, Nat.sub_diag. replace (6 - p)%nat with (S (6 - S p)) by lia. cbn [zeros repeat upd]. rewrite <- app_assoc. reflexivity.
Qed.
Lemma loop6_after gs vs0 rest : forall us k n br d, groups gs vs0 -> (2 <= k)%nat -> (k + length gs <= 7)%nat -> (length us + length gs <= 5)%nat ->
  exists n', loop6 (rd k 0 n br (us ++ zeros (6 - length us)) (length us) true d) (coloned gs ++ rest) =
    loop6 (rd (k + length gs) 0 n' br ((us ++ vs0) ++ zeros (6 - length (us ++ vs0))) (length (us ++ vs0)) true d) rest.
Proof.
  intros us k n br d G. revert us k n. induction G as [|g v gs vs0 Gg G IH]; intros us k n L K P.
  - exists n. cbn [coloned flat_map app length]. rewrite Nat.add_0_r, app_nil_r. reflexivity.
  - cbn [length] in *. cbn [coloned flat_map]. rewrite <- !app_assoc.
    destruct (@loop6_group k n br (us ++ zeros (6 - length us)) (length us) true d g v ([":"%char] ++ coloned gs ++ rest)) as [m [E V]]; [lia|exact Gg|].
    change (flat_map (fun g => g ++ [":"%char]) gs) with (coloned gs). rewrite E. clear E. cbn [app loop6].
    rewrite step6_push by (try lia; unfold zeros; rewrite ?app_length, ?repeat_length; lia). cbn [bind]. rewrite upd_zeros6 by lia.
    destruct (IH (us ++ [v]) (S k) 0%nat) as [n' E]; [lia|lia|rewrite app_length; cbn; lia|].
    rewrite app_length in E at 1 2. cbn [length] in E. replace (length us + 1)%nat with (S (length us)) in E by lia. rewrite E. exists n'. replace (k + S (length gs))%nat with (S k + length gs)%nat by lia. replace ((us ++ [v]) ++ vs0) with (us ++ v :: vs0) by (rewrite <- app_assoc; reflexivity). rewrite <- ?app_assoc. reflexivity.
Qed.

(** the port *)
Definition prd (v : N) (n : nat) (br : bool) (u : list N) (p : nat) (cp : bool) (d : IPV6Address) : st6 := mk6 0 u p br v n false cp cp 9 d.
Lemma digit_x c : isdigit c = true -> isxdigit c = true /\ isalpha c = false.
Proof. destruct c as [[] [] [] [] [] [] [] []]; vm_compute; intros H; first [discriminate H | auto]. Qed.
Lemma loop6_port br u p cp d s : forall v n, (forall c, In c s -> isdigit c = true) -> und v s <= 65535 ->
  loop6 (prd v n br u p cp d) s = Ok (Some (prd (und v s) (n + length s) br u p cp d)).
Proof.
  induction s as [|c s IH]; intros v n D L.
  - cbn. rewrite Nat.add_0_r. reflexivity.
  - change (und v (c :: s)) with (und (10 * v + digit_val c) s) in *. cbn [loop6]. unfold prd at 1, step6. pose proof (D c (or_introl eq_refl)) as Dc. destruct (digit_x c Dc) as [X1 X2].
    cbn [six unsorted up bracket prt6 chars6 upper compress already state6 dst6]. rewrite X1, X2. unfold switch6. cbn [six unsorted up bracket prt6 chars6 upper compress already state6 dst6]. rewrite Dc.
    cbn [bind six unsorted up bracket prt6 chars6 upper compress already state6 dst6]. rewrite Char2Dec_digit by exact Dc. change (65535 <? 0) with false. cbn iota.
    pose proof (und_ge s (10 * v + digit_val c)). replace (65535 <? _) with false by (symmetry; apply N.ltb_ge; lia). cbn [bind].
    change (mk6 0 u p br (10 * v + digit_val c) (S n) false cp cp 9 d) with (prd (10 * v + digit_val c) (S n) br u p cp d).
    rewrite IH; [|intros x Hx; apply D; right; exact Hx|exact L]. cbn [length]. replace (S n + length s)%nat with (n + S (length s))%nat by lia. reflexivity.
Qed.
Lemma loop6_end u p cp d port pt : numeral 65535 pt port ->
  exists n, loop6 (rd 8 0 0 false u p cp d) (":"%char :: pt) = Ok (Some (prd port (S n) false u p cp d)).
Proof.
  intros [Ne [D [-> L]]].
  assert (E : loop6 (rd 8 0 0 false u p cp d) (":"%char :: pt) = loop6 (prd 0 0 false u p cp d) pt) by reflexivity.
  rewrite E. rewrite loop6_port by (auto; exact L). rewrite und0.
  exists (length pt - 1)%nat. destruct pt as [|c pt]; [congruence|]. cbn [length]. replace (S (S (length pt) - 1)) with (S (length pt)) by lia. reflexivity.
Qed.
