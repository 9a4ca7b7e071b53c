(** C66: the hexadecimal notation of procfs. *)
From Verif Require Import Prelude PreludeFacts Str StrFacts Libc LibcFacts IpModel IpSpec IpProofs IpProofs6.
Set Implicit Arguments.
Local Open Scope N_scope.

Lemma hexchar_facts c d : (d < 16)%nat -> c = nth d hexdigits NUL \/ c = nth d upper_hexdigits NUL ->
  isxdigit c = true /\ isspace c = false /\ beq c "-"%char = false /\ beq c "+"%char = false /\ beq c "x"%char = false /\ beq c "X"%char = false /\ forall v, Char2Hex v c = 16 * v + N.of_nat d.
Proof.
  intros L [-> | ->]; do 16 (destruct d as [|d]; [cbn [hexdigits upper_hexdigits nth lit]; repeat split; try reflexivity; try discriminate; intros v; rewrite Char2Hex_0; f_equal; reflexivity|]); lia.
Qed.
Lemma unhex_acc g ds : Forall2 (fun c d => (d < 16)%nat /\ (c = nth d hexdigits NUL \/ c = nth d upper_hexdigits NUL)) g ds ->
  forall a, fold_left Char2Hex g a = fold_left (fun a d => 16 * a + N.of_nat d) ds a.
Proof. induction 1 as [|c d g ds [D C] F IH]; intros a; [reflexivity|]. cbn [fold_left]. rewrite (proj2 (proj2 (proj2 (proj2 (proj2 (proj2 (hexchar_facts D C))))))). apply IH. Qed.
Lemma span_all (p : byte -> bool) l : (forall c, In c l -> p c = true) -> span p l = (l, []).
Proof. induction l as [|c l IH]; intros H; [reflexivity|]. cbn [span]. rewrite (H c (or_introl eq_refl)). rewrite IH by (intros x Hx; apply H; right; exact Hx). reflexivity. Qed.
Lemma scan_x_num w g v rest : (0 < w)%nat -> hexnum w g v -> scan_x w (g ++ rest) = Some (v, rest).
Proof.
  intros W [Lg [ds [F ->]]]. assert (X : forall c, In c g -> isxdigit c = true /\ isspace c = false /\ beq c "-"%char = false /\ beq c "+"%char = false /\ beq c "x"%char = false /\ beq c "X"%char = false).
  { intros c Hc. clear - F Hc. induction F as [|c0 d g ds [D C] F IH]; [destruct Hc|]. destruct Hc as [<-|Hc]; [destruct (hexchar_facts D C) as [? [? [? [? [? [? _]]]]]]; auto 10|apply IH, Hc]. }
  unfold scan_x. destruct g as [|c g]; [cbn in Lg; lia|]. destruct (X c (or_introl eq_refl)) as [X1 [X2 [X3 [X4 _]]]].
  assert (Sp : span isspace ((c :: g) ++ rest) = ([], (c :: g) ++ rest)) by (cbn [app span]; rewrite X2; reflexivity). rewrite Sp.
  assert (Fi : firstn w ((c :: g) ++ rest) = c :: g) by (rewrite firstn_app_le by lia; rewrite <- Lg; apply firstn_all). rewrite Fi. rewrite X3, X4.
  assert (Px : match g with [] => (0%nat, c :: g) | d :: t' => if beq c "0"%char && (beq d "x"%char || beq d "X"%char) then (2%nat, t') else (0%nat, c :: g) end = (0%nat, c :: g)).
  { destruct g as [|d g]; [reflexivity|]. destruct (X d (or_intror (or_introl eq_refl))) as [_ [_ [_ [_ [Y1 Y2]]]]]. rewrite Y1, Y2. rewrite andb_false_r. reflexivity. }
  replace (match c :: g with [] => (0%nat, c :: g) | c0 :: l => match l with [] => (0%nat, c :: g) | d :: t' => if beq c0 "0"%char && (beq d "x"%char || beq d "X"%char) then (2%nat, t') else (0%nat, c :: g) end end)
    with (0%nat, c :: g) by (symmetry; exact Px).
  rewrite span_all by (intros x Hx; apply X, Hx). f_equal. f_equal.
  - unfold unhex. apply (unhex_acc F).
  - cbn [Nat.add]. rewrite skipn_app_ge by lia. rewrite Nat.sub_diag. reflexivity.
Qed.
Lemma scan_xs_num w gs vs rest : (0 < w)%nat -> Forall2 (hexnum w) gs vs -> scan_xs (repeat w (length gs)) (concat gs ++ rest) = Some (vs, rest).
Proof.
  intros W F. induction F as [|g v gs vs G F IH]; [reflexivity|]. cbn [length repeat scan_xs concat]. rewrite <- app_assoc, (@scan_x_num w g v _ W G), IH. reflexivity.
Qed.
Lemma hexnum_small w g v : hexnum w g v -> v < 16 ^ N.of_nat w.
Proof.
  intros [L [ds [F ->]]]. assert (X : forall a, fold_left (fun a d => 16 * a + N.of_nat d) ds a < (a + 1) * 16 ^ N.of_nat (length g)).
  { clear L. induction F as [|c d g ds [D C] F IH]; intros a; [cbn; lia|]. cbn [fold_left length]. rewrite Nat2N.inj_succ, N.pow_succ_r'. eapply N.lt_le_trans; [apply IH|].
    rewrite (N.mul_assoc (a + 1) 16). apply N.mul_le_mono_r. lia. }
  rewrite <- L. specialize (X 0). lia.
Qed.
Lemma concat_len w gs vs : Forall2 (hexnum w) gs vs -> length (concat gs) = (w * length gs)%nat.
Proof. induction 1 as [|g v gs vs [G _] F IH]; cbn [concat length]; [lia|]. rewrite app_length. lia. Qed.
Lemma map_small (f : N -> N) w gs vs : Forall2 (hexnum w) gs vs -> (forall v, v < 16 ^ N.of_nat w -> f v = v) -> map f vs = vs.
Proof. intros F H. induction F as [|g v gs vs G F IH]; [reflexivity|]. cbn [map]. rewrite IH, H by (eapply hexnum_small; exact G). reflexivity. Qed.

(** Four pairs of digits are an IPv4 address, last pair first; four more digits after a colon
    are the port. *)
Theorem C66_ipv4 gs vs : Forall2 (hexnum 2) gs vs -> length gs = 4%nat ->
  IPAddressNewHex (concat gs) = Some (IP4 (mkIP4 (rev vs) 0)) /\
  forall pt port, hexnum 4 pt port -> IPAddressNewHex (concat gs ++ ":"%char :: pt) = Some (IP4 (mkIP4 (rev vs) port)).
Proof.
  intros F L. pose proof (concat_len F) as Lc. rewrite L in Lc.
  assert (Sc : forall rest, scan_xs [2; 2; 2; 2]%nat (concat gs ++ rest) = Some (vs, rest)) by (intros rest; pose proof (@scan_xs_num 2 gs vs rest) as X; rewrite L in X; apply X; [lia|exact F]).
  assert (M : map u8 (rev vs) = rev vs) by (rewrite map_rev, (@map_small u8 2 gs vs F); [reflexivity|intros v V; unfold u8; apply N.mod_small; exact V]).
  split.
  - unfold IPAddressNewHex, IPV4_hex_parser. rewrite Lc. change (2 * 4 =? 8)%nat with true. cbn iota.
    specialize (Sc []). rewrite app_nil_r in Sc. rewrite Sc, M. reflexivity.
  - intros pt port Hp. pose proof Hp as [Lp _]. unfold IPAddressNewHex, IPV4_hex_parser. rewrite app_length, Lc. cbn [length]. rewrite Lp. change (2 * 4 + 5 =? 8)%nat with false. change (2 * 4 + 5 =? 13)%nat with true. cbn iota.
    rewrite Sc. cbn [scan_colon beq]. change (beq ":" ":") with true. cbn iota. rewrite <- (app_nil_r pt), (@scan_x_num 4 pt port [] ltac:(lia) Hp), M.
    unfold u16. rewrite N.mod_small; [reflexivity|]. exact (hexnum_small Hp).
Qed.
(** Eight groups of four digits are an IPv6 address in the order written; with a colon and
    four more digits that is the port. *)
Theorem C66_ipv6_partial gs vs : Forall2 (hexnum 4) gs vs -> length gs = 8%nat ->
  (exists p, IPAddressNewHex (concat gs) = Some (IP6 (mkIP6 vs p))) /\
  forall pt port, hexnum 4 pt port -> IPAddressNewHex (concat gs ++ ":"%char :: pt) = Some (IP6 (mkIP6 vs (Some port))).
Proof.
  intros F L. pose proof (concat_len F) as Lc. rewrite L in Lc.
  assert (Sc : forall rest, scan_xs (repeat 4%nat 8) (concat gs ++ rest) = Some (vs, rest)) by (intros rest; pose proof (@scan_xs_num 4 gs vs rest) as X; rewrite L in X; apply X; [lia|exact F]).
  assert (M : map u16 vs = vs) by (apply (@map_small u16 4 gs vs F); intros v V; unfold u16; apply N.mod_small; exact V).
  split.
  - unfold IPAddressNewHex, IPV4_hex_parser. rewrite Lc. change (4 * 8 =? 8)%nat with false. change (4 * 8 =? 13)%nat with false. cbn iota.
    unfold IPV6_hex_parser. rewrite Lc. change (4 * 8 =? 32)%nat with true. cbn iota zeta. specialize (Sc []). rewrite app_nil_r in Sc. rewrite Sc, M. eexists. reflexivity.
  - intros pt port Hp. pose proof Hp as [Lp _]. unfold IPAddressNewHex, IPV4_hex_parser. rewrite app_length, Lc. cbn [length]. rewrite Lp. change (4 * 8 + 5 =? 8)%nat with false. change (4 * 8 + 5 =? 13)%nat with false. cbn iota.
    unfold IPV6_hex_parser. rewrite app_length, Lc. cbn [length]. rewrite Lp. change (4 * 8 + 5 =? 32)%nat with false. change (4 * 8 + 5 =? 37)%nat with true. cbn iota zeta.
    rewrite Sc. cbn [scan_colon]. change (beq ":" ":") with true. cbn iota. rewrite <- (app_nil_r pt), (@scan_x_num 4 pt port [] ltac:(lia) Hp), M.
    unfold u16. rewrite N.mod_small; [reflexivity|]. exact (hexnum_small Hp).
Qed.
(** Without a port the port of an IPv6 address is never written, and asking for it reads
    uninitialised memory. *)
Theorem C66_port_refuted gs vs : Forall2 (hexnum 4) gs vs -> length gs = 8%nat ->
  exists a, IPAddressNewHex (concat gs) = Some a /\ IPAddressGetPort a = UB.
Proof.
  intros F L. pose proof (concat_len F) as Lc. rewrite L in Lc.
  assert (Sc : scan_xs (repeat 4%nat 8) (concat gs) = Some (vs, [])) by (pose proof (@scan_xs_num 4 gs vs []) as X; rewrite L, app_nil_r in X; apply X; [lia|exact F]).
  unfold IPAddressNewHex, IPV4_hex_parser. rewrite Lc. change (4 * 8 =? 8)%nat with false. change (4 * 8 =? 13)%nat with false. cbn iota.
  unfold IPV6_hex_parser. rewrite Lc. change (4 * 8 =? 32)%nat with true. cbn iota zeta. rewrite Sc. eexists. split; reflexivity.
Qed.
(** texts of the right length that are not digits are accepted *)
Theorem C66_refuted : IPAddressNewHex (lit "-1-1-1-1") = Some (IP4 (mkIP4 [255; 255; 255; 255] 0)) /\ IPAddressNewHex (lit "    1234") = None.
Proof. split; reflexivity. Qed.
Theorem C66_example : Forall2 (hexnum 2) [lit "01"; lit "00"; lit "A8"; lit "c0"] [1; 0; 168; 192] /\
  IPAddressNewHex (lit "0100A8c0:0050") = Some (IP4 (mkIP4 [192; 168; 0; 1] 80)).
Proof.
  split; [|reflexivity].
  constructor; [split; [reflexivity|]; exists [0; 1]%nat; split; [repeat constructor; cbn; auto; lia|reflexivity]|].
  constructor; [split; [reflexivity|]; exists [0; 0]%nat; split; [repeat constructor; cbn; auto; lia|reflexivity]|].
  constructor; [split; [reflexivity|]; exists [10; 8]%nat; split; [repeat (apply Forall2_cons; [split; [lia|first [left; reflexivity|right; reflexivity]]|]); constructor|reflexivity]|].
  constructor; [split; [reflexivity|]; exists [12; 0]%nat; split; [repeat (apply Forall2_cons; [split; [lia|first [left; reflexivity|right; reflexivity]]|]); constructor|reflexivity]|].
  constructor.
Qed.
