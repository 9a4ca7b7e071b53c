(** C41, C42: IPv4 addresses. *)
From Verif Require Import Prelude PreludeFacts Str StrFacts Libc LibcFacts MemSpec BufModel BufSpec BufProofs IpModel IpSpec IpProofs.
Set Implicit Arguments.
Local Open Scope N_scope.

Lemma run4_parser s : IPV4_parser s = run4 0 (mkIP4 [0; 0; 0; 0] 0) s.
Proof. reflexivity. Qed.

Lemma parsed_text s a : parsed 0 (mkIP4 [0; 0; 0; 0] 0) s a <->
  dotted_quad s (octets a) (port4 a) \/ cut_short s (octets a) /\ port4 a = 0.
Proof.
  split.
  - intros P. inversion P as [k0 d0 da va ta a0 _ Na Pa|d0 ds v Nu|d0 ds v p pv Nu Np|k0 d0 ds v x _ Nu Dx Mx]; subst.
    2: { right. split; [|reflexivity]. exists [], ds, v, x. split; [cbn; lia|]. split; [constructor|]. split; [exact Nu|]. split; [reflexivity|]. split; [exact Dx|]. split; [exact Mx|reflexivity]. }
    inversion Pa as [k0 d0 db vb tb a0 _ Nb Pb|d0 ds v Nu|d0 ds v p pv Nu Np|k0 d0 ds v x _ Nu Dx Mx]; subst.
    2: { right. split; [|reflexivity]. exists [(da, va)], ds, v, x. split; [cbn; lia|]. split; [repeat (apply Forall_cons; [assumption|]); apply Forall_nil|]. split; [exact Nu|].
         split; [cbn; rewrite <- ?app_assoc; reflexivity|]. split; [exact Dx|]. split; [exact Mx|reflexivity]. }
    inversion Pb as [k0 d0 dc vc tc a0 _ Nc Pc|d0 ds v Nu|d0 ds v p pv Nu Np|k0 d0 ds v x _ Nu Dx Mx]; subst.
    2: { right. split; [|reflexivity]. exists [(da, va); (db, vb)], ds, v, x. split; [cbn; lia|]. split; [repeat (apply Forall_cons; [assumption|]); apply Forall_nil|]. split; [exact Nu|].
         split; [cbn; rewrite <- ?app_assoc; reflexivity|]. split; [exact Dx|]. split; [exact Mx|reflexivity]. }
    inversion Pc as [k0 d0 dd vd td a0 L4 Nd Pd|d0 ds v Nu|d0 ds v p pv Nu Np|k0 d0 ds v x _ Nu Dx Mx]; subst; [lia| | |].
    + left. match goal with H : numeral 255 ?x v |- _ => exists da, db, dc, x, va, vb, vc, v, [] end. rewrite app_nil_r. repeat (split; [first [assumption|reflexivity]|]). left. auto.
    + left. exists da, db, dc, ds, va, vb, vc, v, (":"%char :: p). repeat (split; [first [assumption|reflexivity]|]). right. exists p. auto.
    + right. split; [|reflexivity]. exists [(da, va); (db, vb); (dc, vc)], ds, v, x. split; [cbn; lia|]. split; [repeat (apply Forall_cons; [assumption|]); apply Forall_nil|]. split; [exact Nu|].
      split; [cbn; rewrite <- ?app_assoc; cbn; rewrite <- ?app_assoc; reflexivity|]. split; [exact Dx|]. split; [exact Mx|reflexivity].
  - intros [Q|[C Z]].
    + destruct Q as [ta [tb [tc [td [va [vb [vc [vd [tail [Na [Nb [Nc [Nd [-> [Eo T]]]]]]]]]]]]]]]. destruct a as [o p]. cbn [octets port4] in *. subst o.
      apply P_dot with va; [lia|exact Na|]. apply P_dot with vb; [lia|exact Nb|]. apply P_dot with vc; [lia|exact Nc|].
      destruct T as [[-> ->]|[p' [-> Np]]].
      * rewrite app_nil_r. exact (@P_last (mkIP4 [va; vb; vc; 0] 0) td vd Nd).
      * exact (@P_port (mkIP4 [va; vb; vc; 0] 0) td vd p' p Nd Np).
    + destruct C as [l [ds [v [x [Ll [F [Nu [-> [Dx [Mx Eo]]]]]]]]]]. destruct a as [o p]. cbn [octets port4] in *. subst o p.
      destruct l as [|[da va] l]; [apply (@P_stray 0 _ ds v x); [lia|exact Nu|exact Dx|exact Mx]|].
      inversion F as [|? ? Na F1]; subst. cbn [flat_map fst app]. rewrite <- !app_assoc. apply P_dot with va; [lia|exact Na|].
      destruct l as [|[db vb] l]; [apply (@P_stray 1 _ ds v x); [lia|exact Nu|exact Dx|exact Mx]|].
      inversion F1 as [|? ? Nb F2]; subst. cbn [flat_map fst app]. rewrite <- !app_assoc. apply P_dot with vb; [lia|exact Nb|].
      destruct l as [|[dc vc] l]; [apply (@P_stray 2 _ ds v x); [lia|exact Nu|exact Dx|exact Mx]|].
      inversion F2 as [|? ? Nc F3]; subst. cbn [flat_map fst app]. rewrite <- !app_assoc. apply P_dot with vc; [lia|exact Nc|].
      destruct l as [|[dd vd] l]; [apply (@P_stray 3 _ ds v x); [lia|exact Nu|exact Dx|exact Mx]|]. cbn [length] in Ll. lia.
Qed.

(** What the IPv4 parser accepts, and what it stores, for every string: dotted quads with an
    optional port, and also texts that break off with one character that cannot follow. *)
Theorem C42_accepted_partial s : exists r, IPV4_parser s = Ok r /\
  forall a, r = Some a <-> dotted_quad s (octets a) (port4 a) \/ cut_short s (octets a) /\ port4 a = 0.
Proof.
  rewrite run4_parser. destruct (@run4_spec 0 (mkIP4 [0; 0; 0; 0] 0) s) as [r [E H]]; [lia|reflexivity|].
  exists r. split; [exact E|]. intros a. rewrite H. apply parsed_text.
Qed.
(** in particular a text of digits, periods and colons that ends in a digit is accepted
    as IPv4 only when it is a dotted quad *)
Theorem C42_ends_in_digit s c a : isdigit c = true -> IPV4_parser (s ++ [c]) = Ok (Some a) -> dotted_quad (s ++ [c]) (octets a) (port4 a).
Proof.
  intros D E. destruct (C42_accepted_partial (s ++ [c])) as [r [E' H]]. rewrite E in E'. injection E' as <-.
  destruct (proj1 (H a) eq_refl) as [Q|[C _]]; [exact Q|]. destruct C as [l [ds [v [x [_ [_ [_ [E1 [Dx _]]]]]]]]].
  rewrite app_assoc in E1. apply app_inj_tail in E1 as [_ ->]. congruence.
Qed.
(** The property fails: one letter after a number, and even a single number with a letter, is an address. *)
Theorem C42_refuted : IPV4_parser (lit "1.2.3.4x") = Ok (Some (mkIP4 [1; 2; 3; 0] 0)) /\ IPV4_parser (lit "7a") = Ok (Some (mkIP4 [0; 0; 0; 0] 0)) /\
  (forall o p, ~ dotted_quad (lit "1.2.3.4x") o p) /\ (forall o p, ~ dotted_quad (lit "7a") o p).
Proof.
  split; [reflexivity|]. split; [reflexivity|].
  assert (X : forall s a, IPV4_parser s = Ok (Some a) -> forall o p, dotted_quad s o p -> o = octets a).
  { intros s a E o p Q. destruct (C42_accepted_partial s) as [r [E' H]]. rewrite E in E'. injection E' as <-.
    assert (Y : Some a = Some (mkIP4 o p)) by (apply H; left; exact Q). injection Y as ->. reflexivity. }
  assert (P : forall x y s c, isdigit c = false -> beq c ":" = false -> forall o p, s = x ++ y ++ [c] -> dotted_quad s o p -> False).
  { intros x y s c D B o p E Q. destruct Q as [ta [tb [tc [td [va [vb [vc [vd [tail [Na [Nb [Nc [Nd [-> [Eo T]]]]]]]]]]]]]]].
    assert (L : forall m ds v r r', numeral m ds v -> r ++ ds = r' ++ [c] -> False).
    { intros m ds v r r' [Ne [Dg _]] Eq. destruct (exists_last Ne) as [ds' [c' ->]]. rewrite app_assoc in Eq. apply app_inj_tail in Eq as [_ ->].
      specialize (Dg c (in_or_app _ [c] _ (or_intror (or_introl eq_refl)))). congruence. }
    destruct T as [[-> _]|[p' [-> Np]]].
    - rewrite app_nil_r in E. apply (L 255 td vd (ta ++ "."%char :: tb ++ "."%char :: tc ++ ["."%char]) (x ++ y) Nd).
      rewrite <- !app_assoc in *. cbn [app] in *. rewrite <- ?app_assoc in *. cbn [app] in *. rewrite <- ?app_assoc in *. exact E.
    - apply (L 65535 p' p (ta ++ "."%char :: tb ++ "."%char :: tc ++ "."%char :: td ++ [":"%char]) (x ++ y) Np).
      rewrite <- !app_assoc in *. cbn [app] in *. rewrite <- ?app_assoc in *. cbn [app] in *. rewrite <- ?app_assoc in *. cbn [app] in *. rewrite <- ?app_assoc. exact E. }
  split; intros o p Q.
  - apply (@P [] (lit "1.2.3.4") (lit "1.2.3.4x") "x"%char eq_refl eq_refl o p eq_refl Q).
  - apply (@P [] (lit "7") (lit "7a") "a"%char eq_refl eq_refl o p eq_refl Q).
Qed.

(** Every dotted quad in range is an IPv4 address with exactly those octets and that port. *)
Theorem C41_accepted s o p : dotted_quad s o p -> IPAddressNew s = Ok (Some (IP4 (mkIP4 o p))).
Proof.
  intros Q. unfold IPAddressNew. destruct (C42_accepted_partial s) as [r [-> H]]. cbn [bind].
  assert (E : r = Some (mkIP4 o p)) by (apply H; left; exact Q). rewrite E. reflexivity.
Qed.
Theorem C41_example : dotted_quad (lit "192.168.010.7:8080") [192; 168; 10; 7] 8080 /\
  IPAddressNew (lit "192.168.010.7:8080") = Ok (Some (IP4 (mkIP4 [192; 168; 10; 7] 8080))).
Proof.
  assert (Q : dotted_quad (lit "192.168.010.7:8080") [192; 168; 10; 7] 8080).
  { exists (lit "192"), (lit "168"), (lit "010"), (lit "7"), 192, 168, 10, 7, (lit ":8080").
    assert (X : forall m ds, ds <> [] -> forallb isdigit ds = true -> undec ds <= m -> numeral m ds (undec ds)).
    { intros m ds Ne F L. split; [exact Ne|]. split; [rewrite forallb_forall in F; exact F|]. auto. }
    split; [apply (X 255 (lit "192")); [discriminate|reflexivity|cbn; lia]|]. split; [apply (X 255 (lit "168")); [discriminate|reflexivity|cbn; lia]|].
    split; [apply (X 255 (lit "010")); [discriminate|reflexivity|cbn; lia]|]. split; [apply (X 255 (lit "7")); [discriminate|reflexivity|cbn; lia]|].
    split; [reflexivity|]. split; [reflexivity|]. right. exists (lit "8080"). split; [reflexivity|]. apply (X 65535 (lit "8080")); [discriminate|reflexivity|cbn; lia]. }
  split; [exact Q|apply C41_accepted, Q].
Qed.

(** [ds] is the shortest decimal numeral of [v] *)
Definition shortest (ds : list byte) (v : N) : Prop :=
  (forall c, In c ds -> isdigit c = true) /\ ds <> [] /\ undec ds = v /\ (hd NUL ds = "0"%char -> ds = ["0"%char]).
(** Printing gives the four octets as shortest numerals between periods, in a C string
    buffer, and reading that text back gives the same octets. *)
Theorem C41_printed a b c d p : a <= 255 -> b <= 255 -> c <= 255 -> d <= 255 ->
  exists ta tb tc td buf, let text := ta ++ "."%char :: tb ++ "."%char :: tc ++ "."%char :: td in
    shortest ta a /\ shortest tb b /\ shortest tc c /\ shortest td d /\
    IPAddressGetAddress (IP4 (mkIP4 [a; b; c; d] p)) = Ok buf /\ BufferSize buf = length text /\ holds (bmem buf) text /\
    IPAddressNew text = Ok (Some (IP4 (mkIP4 [a; b; c; d] 0))) /\
    forall port ptext, numeral 65535 ptext port -> IPAddressNew (text ++ ":"%char :: ptext) = Ok (Some (IP4 (mkIP4 [a; b; c; d] port))).
Proof.
  intros A B C D. exists (udec a), (udec b), (udec c), (udec d).
  assert (Sh : forall n, shortest (udec n) n).
  { intros n. destruct (udec_spec n) as [U [F [Ne Z]]]. rewrite forallb_forall in F. repeat split; auto. }
  assert (Nu : forall n, n <= 255 -> numeral 255 (udec n) n).
  { intros n Ln. destruct (Sh n) as [S1 [S2 [S3 _]]]. split; [exact S2|]. split; [exact S1|]. split; [symmetry; exact S3|exact Ln]. }
  set (text := udec a ++ "."%char :: udec b ++ "."%char :: udec c ++ "."%char :: udec d).
  assert (Cs : is_cstr text).
  { unfold text. repeat (apply is_cstr_app; split; [apply udec_cstr|]; apply is_cstr_cons; split; [discriminate|]). apply udec_cstr. }
  assert (Ln : forall n, n <= 255 -> (length (udec n) <= 3)%nat).
  { intros n L. apply udec_length; [change (10 ^ N.of_nat 3) with 1000; lia|lia]. }
  destruct (@new_spec DEFAULT_BUFFER_CAPACITY) as [b0 [E0 [R0 _]]]; [unfold DEFAULT_BUFFER_CAPACITY; lia|].
  destruct (@printf_spec b0 _ text R0 Cs) as [b1 [E1 R1]].
  { assert (X : (length text <= 20)%nat).
    { unfold text. rewrite ?app_length. cbn [length]. rewrite ?app_length. cbn [length]. rewrite ?app_length. cbn [length].
      pose proof (Ln a A); pose proof (Ln b B); pose proof (Ln c C); pose proof (Ln d D). lia. }
    unfold small. apply N.le_lt_trans with (N.of_nat 20); [lia|reflexivity]. }
  exists b1. cbn zeta. repeat (split; [apply Sh|]). split.
  { unfold IPAddressGetAddress. cbn [octets nth]. unfold BufferNew. rewrite E0. cbn [bind].
    change (udec a ++ lit "." ++ udec b ++ lit "." ++ udec c ++ lit "." ++ udec d) with text. rewrite E1. reflexivity. }
  destruct R1 as [_ [U [_ [_ [x [r [Em Tx]]]]]]]. cbn [step abytes aterm amode] in *. split; [exact U|].
  split; [split; [exact Cs|]; exists r; rewrite Em, (Tx eq_refl); reflexivity|]. split.
  - apply C41_accepted. exists (udec a), (udec b), (udec c), (udec d), a, b, c, d, []. rewrite app_nil_r.
    split; [apply Nu; assumption|]. split; [apply Nu; assumption|]. split; [apply Nu; assumption|]. split; [apply Nu; assumption|]. split; [reflexivity|]. split; [reflexivity|]. left. auto.
  - intros port pt Np. apply C41_accepted. exists (udec a), (udec b), (udec c), (udec d), a, b, c, d, (":"%char :: pt).
    split; [apply Nu; assumption|]. split; [apply Nu; assumption|]. split; [apply Nu; assumption|]. split; [apply Nu; assumption|].
    split; [unfold text; rewrite <- !app_assoc; cbn [app]; rewrite <- ?app_assoc; cbn [app]; rewrite <- ?app_assoc; reflexivity|]. split; [reflexivity|]. right. exists pt. auto.
Qed.
