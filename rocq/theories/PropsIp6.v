(** C44: IPv6 addresses. *)
From Verif Require Import Prelude PreludeFacts Str StrFacts Libc LibcFacts MemSpec BufModel BufSpec BufProofs IpModel IpSpec IpProofs IpProofs6 PropsIp4.
Set Implicit Arguments.
Local Open Scope N_scope.

(** Parsing is defined on every string, and an accepted address has eight groups. *)
Theorem C44_defined s : exists r, IPV6_parser s = Ok r /\ forall a, r = Some a -> length (sixteen a) = 8%nat.
Proof. apply parser6_safe. Qed.
Theorem C44_new_defined s : exists r, IPAddressNew s = Ok r.
Proof.
  unfold IPAddressNew. destruct (C42_accepted_partial s) as [r [-> _]]. cbn [bind]. destruct r; [eexists; reflexivity|].
  destruct (C44_defined s) as [q [-> _]]. cbn [bind]. destruct q; eexists; reflexivity.
Qed.

Lemma Forall2_length A B (P : A -> B -> Prop) l m : Forall2 P l m -> length l = length m.
Proof. induction 1; cbn [length]; congruence. Qed.
Lemma colons_coloned pre : pre <> [] -> forall rest, colons pre ++ ":"%char :: rest = coloned pre ++ rest.
Proof.
  intros Ne rest. destruct pre as [|g pre]; [congruence|]. clear Ne. unfold colons. revert g. induction pre as [|g' pre IH]; intros g.
  - cbn. rewrite <- !app_assoc. reflexivity.
  - change (join [":"%char] (g :: g' :: pre)) with (g ++ [":"%char] ++ join [":"%char] (g' :: pre)). change (coloned (g :: g' :: pre)) with ((g ++ [":"%char]) ++ coloned (g' :: pre)).
    rewrite <- !app_assoc. rewrite IH. reflexivity.
Qed.
Lemma colons_last gs g : colons (gs ++ [g]) = coloned gs ++ g.
Proof.
  unfold colons. induction gs as [|h gs IH]; [reflexivity|]. destruct gs as [|h' gs].
  - cbn. rewrite app_nil_r, <- app_assoc. reflexivity.
  - change (join [":"%char] ((h :: h' :: gs) ++ [g])) with (h ++ [":"%char] ++ join [":"%char] ((h' :: gs) ++ [g])). rewrite IH.
    change (coloned (h :: h' :: gs)) with ((h ++ [":"%char]) ++ coloned (h' :: gs)). rewrite <- !app_assoc. reflexivity.
Qed.
Definition start (n : nat) (br : bool) : st6 := rd 0 0 n br (zeros 6) 0 false (mkIP6 (zeros 8) (Some 0)).
Lemma start_plain : init6 = start 0 false. Proof. reflexivity. Qed.
Lemma start_bracket t : loop6 init6 ("["%char :: t) = loop6 (start 1 true) t. Proof. reflexivity. Qed.

(** eight groups *)
Lemma full_run n br gs vs tail : groups gs vs -> length gs = 8%nat ->
  exists v vs' m, vs = vs' ++ [v] /\ v <= 65535 /\ length vs' = 7%nat /\
    loop6 (start n br) (colons gs ++ tail) = loop6 (rd 7 v (S m) br (zeros 6) 0 false (mkIP6 (vs' ++ zeros 1) (Some 0))) tail.
Proof.
  intros G L. assert (Ne : gs <> []) by (intros ->; discriminate). destruct (exists_last Ne) as [gs' [g ->]].
  apply Forall2_app_inv_l in G as [vs' [v1 [G1 [G2 ->]]]]. inversion G2 as [|? v ? l Gg Gn]; subst. inversion Gn; subst. clear G2 Gn.
  rewrite app_length in L. cbn [length] in L. rewrite colons_last, <- app_assoc.
  destruct (@loop6_before gs' vs' (g ++ tail) (Some 0) [] 0%nat n br (zeros 6) 0%nat G1) as [n' [E _]]; [reflexivity|cbn; lia|].
  assert (L7 : length gs' = 7%nat) by lia. rewrite L7 in E. change ([] ++ zeros (8 - 0)) with (zeros 8) in E.
  unfold start. rewrite E. cbn [plus app]. change (8 - 7)%nat with 1%nat.
  destruct (@loop6_group 7 n' br (zeros 6) 0%nat false (mkIP6 (vs' ++ zeros 1) (Some 0)) g v tail) as [m [E2 V]]; [lia|exact Gg|].
  exists v, vs', m. split; [reflexivity|]. split; [exact V|]. split; [rewrite <- L7; symmetry; eapply Forall2_length; exact G1|exact E2].
Qed.

(** text of groups is not taken for IPv4 *)
Lemma not_ip4 a b s : s = a ++ ":"%char :: b -> b <> [] -> ~ In "."%char s -> IPV4_parser s = Ok None.
Proof.
  intros E Nb Nd. destruct (C42_accepted_partial s) as [r [-> H]]. destruct r as [x|]; [exfalso|reflexivity].
  destruct (proj1 (H x) eq_refl) as [Q|[C _]].
  - destruct Q as [ta [tb [tc [td [va [vb [vc [vd [tail [_ [_ [_ [_ [-> _]]]]]]]]]]]]]]. apply Nd, in_or_app. right; left; reflexivity.
  - destruct C as [l [ds [v [y [_ [_ [[_ [Dg _]] [E1 _]]]]]]]]. destruct l as [|[g w] l].
    + cbn [flat_map app] in E1. destruct (exists_last Nb) as [b' [z ->]]. rewrite E in E1.
      change (a ++ ":"%char :: b' ++ [z]) with (a ++ (":"%char :: b') ++ [z]) in E1. rewrite app_assoc in E1. apply app_inj_tail in E1 as [E1 _].
      assert (X : isdigit ":"%char = true) by (apply Dg; rewrite <- E1; apply in_or_app; right; left; reflexivity). discriminate X.
    + apply Nd. rewrite E1. cbn [flat_map fst]. apply in_or_app. left. apply in_or_app. left. apply in_or_app. right. left. reflexivity.
Qed.
Lemma group_chars g v : group g v -> ~ In "."%char g.
Proof.
  intros [ds [_ [F [-> _]]]] K. apply in_map_iff in K as [d [E D]]. rewrite Forall_forall in F. destruct (hexdigit_facts (F d D)) as [_ [_ [_ [_ [K _]]]]]. congruence.
Qed.
Lemma coloned_chars gs vs : groups gs vs -> ~ In "."%char (coloned gs).
Proof.
  intros G. induction G as [|g v gs vs Gg G IH]; [intros []|]. cbn [coloned flat_map]. intros K. apply in_app_or in K as [K|K]; [|apply IH, K].
  apply in_app_or in K as [K|[K|[]]]; [eapply group_chars; eassumption|discriminate].
Qed.
Lemma colons_chars gs vs : groups gs vs -> ~ In "."%char (colons gs).
Proof.
  intros G. destruct gs as [|g gs _] using rev_ind; [intros K; exact K|]. rewrite colons_last.
  apply Forall2_app_inv_l in G as [vs' [v1 [G1 [G2 _]]]]. inversion G2 as [|? v ? l Gg Gn]; subst.
  intros K. apply in_app_or in K as [K|K]; [exact (coloned_chars G1 K)|exact (group_chars Gg K)].
Qed.
Lemma numeral_chars m pt p : numeral m pt p -> ~ In "."%char pt.
Proof. intros [_ [D _]] K. specialize (D _ K). discriminate. Qed.
Lemma new6 s r : IPV4_parser s = Ok None -> IPV6_parser s = Ok (Some r) -> IPAddressNew s = Ok (Some (IP6 r)).
Proof. intros A B. unfold IPAddressNew. rewrite A. cbn [bind]. rewrite B. reflexivity. Qed.
Lemma full_colon gs vs : groups gs vs -> length gs = 8%nat -> exists a b, colons gs = a ++ ":"%char :: b /\ b <> [].
Proof.
  intros G L. destruct gs as [|g gs]; [discriminate|]. destruct gs as [|g' gs]; [discriminate|]. exists g, (colons (g' :: gs)). split; [reflexivity|].
  destruct gs as [|g2 gs]; [discriminate|]. intros K. cbn in K. destruct g'; discriminate.
Qed.

(** Eight groups of hexadecimal digits, plain, in brackets, or in brackets with a port. *)
Theorem C44_full gs vs : groups gs vs -> length gs = 8%nat ->
  IPAddressNew (colons gs) = Ok (Some (IP6 (mkIP6 vs (Some 0)))) /\
  IPAddressNew ("["%char :: colons gs ++ lit "]") = Ok (Some (IP6 (mkIP6 vs (Some 0)))) /\
  forall pt port, numeral 65535 pt port -> IPAddressNew ("["%char :: colons gs ++ lit "]:" ++ pt) = Ok (Some (IP6 (mkIP6 vs (Some port)))).
Proof.
  intros G L. destruct (full_colon G L) as [fa [fb [Ef Nf]]]. pose proof (colons_chars G) as Nd.
  assert (Last : forall v vs', length vs' = 7%nat -> upd (vs' ++ zeros 1) 7 v = vs' ++ [v]).
  { intros v vs' Lv. rewrite upd_app_r by lia. rewrite Lv. reflexivity. }
  split; [|split].
  - apply new6; [eapply not_ip4; eassumption|]. unfold IPV6_parser. rewrite start_plain.
    destruct (@full_run 0 false gs vs [] G L) as [v [vs' [m [-> [V [Lv E]]]]]]. rewrite app_nil_r in E. rewrite E. cbn [loop6 bind].
    unfold rd. cbn [state6 chars6 bracket Nat.eqb orb]. unfold store6. cbn [sixteen dst6 six]. rewrite nset_ok by (rewrite app_length; cbn; lia). cbn [bind].
    rewrite u16_small by exact V. cbn [dst6 port6]. rewrite Last by exact Lv. reflexivity.
  - apply new6.
    { apply (@not_ip4 ("["%char :: fa) (fb ++ lit "]")); [rewrite Ef; cbn [app]; rewrite <- !app_assoc; reflexivity|destruct fb; discriminate|].
      intros [K|K]; [discriminate|]. apply in_app_or in K as [K|[K|[]]]; [auto|discriminate]. }
    unfold IPV6_parser. rewrite start_bracket.
    destruct (@full_run 1 true gs vs (lit "]") G L) as [v [vs' [m [-> [V [Lv E]]]]]]. rewrite E. change (lit "]") with ["]"%char]. cbn [loop6].
    rewrite step6_close8 by (try exact V; cbn [sixteen]; rewrite app_length; cbn; lia). cbn [bind sixteen port6]. rewrite Last by exact Lv. reflexivity.
  - intros pt port Np. apply new6.
    { apply (@not_ip4 ("["%char :: fa) (fb ++ lit "]:" ++ pt)); [rewrite Ef; cbn [app]; rewrite <- !app_assoc; reflexivity|destruct fb; discriminate|].
      intros [K|K]; [discriminate|]. apply in_app_or in K as [K|[K|[K|K]]]; [auto|discriminate|discriminate|eapply numeral_chars; eassumption]. }
    unfold IPV6_parser. rewrite start_bracket.
    destruct (@full_run 1 true gs vs (lit "]:" ++ pt) G L) as [v [vs' [m [-> [V [Lv E]]]]]]. rewrite E. change (lit "]:" ++ pt) with ("]"%char :: ":"%char :: pt). cbn [loop6].
    rewrite step6_close8 by (try exact V; cbn [sixteen]; rewrite app_length; cbn; lia). cbn [bind sixteen port6]. rewrite Last by exact Lv.
    destruct (@loop6_end (zeros 6) 0%nat false (mkIP6 (vs' ++ [v]) (Some 0)) port pt Np) as [n' E2]. change (let* r := step6 (rd 8 0 0 false (zeros 6) 0 false (mkIP6 (vs' ++ [v]) (Some 0))) ":" in match r with Some s => loop6 s pt | None => Ok None end)
      with (loop6 (rd 8 0 0 false (zeros 6) 0 false (mkIP6 (vs' ++ [v]) (Some 0))) (":"%char :: pt)).
    rewrite E2. unfold prd. cbn [bind state6 chars6 prt6 sixteen dst6 Nat.eqb orb]. rewrite u16_small by apply Np. reflexivity.
Qed.

(** compressed text *)
Lemma zeros_app a b : zeros a ++ zeros b = zeros (a + b).
Proof. unfold zeros. rewrite repeat_app. reflexivity. Qed.
Lemma compressed_run n br pre pvs post qvs tail : groups pre pvs -> groups post qvs -> manageable (length pre) (length post) ->
  exists st v m us, loop6 (start n br) (compressed pre post ++ tail) =
      loop6 (rd st v m br (us ++ zeros (6 - length us)) (length us) true (mkIP6 (pvs ++ zeros (8 - length pvs)) (Some 0))) tail /\
    (2 <= st <= 6)%nat /\ v <= 65535 /\ (length us <= 4)%nat /\ us ++ [v] = match post with [] => [0] | _ => qvs end.
Proof.
  intros Gp Gq M. pose proof (Forall2_length Gp) as Lp. pose proof (Forall2_length Gq) as Lq.
  (* up to the double colon *)
  assert (A : exists m1, loop6 (start n br) (compressed pre post ++ tail) =
     loop6 (rd (Nat.max 2 (length pre)) 0 m1 br (zeros 6) 0 true (mkIP6 (pvs ++ zeros (8 - length pvs)) (Some 0))) (colons post ++ tail)).
  { unfold compressed. rewrite <- !app_assoc. change (lit "::" ++ colons post ++ tail) with (":"%char :: ":"%char :: colons post ++ tail).
    destruct pre as [|g pre].
    - inversion Gp; subst. cbn [colons join app]. unfold start. cbn [loop6]. rewrite step6_colon0 by reflexivity. cbn [bind].
      change (upd (sixteen (mkIP6 (zeros 8) (Some 0))) 0 0) with (zeros 8). cbn [port6]. rewrite step6_double by lia. cbn [bind]. eexists. reflexivity.
    - rewrite colons_coloned by discriminate. destruct (@loop6_before (g :: pre) pvs (":"%char :: colons post ++ tail) (Some 0) [] 0%nat n br (zeros 6) 0%nat Gp) as [n' [E [N1 _]]]; [reflexivity|unfold manageable in M; lia|].
      change ([] ++ zeros (8 - 0)) with (zeros 8) in E. unfold start. rewrite E. cbn [plus]. rewrite N1 by discriminate. cbn [loop6]. cbn [app] in *. rewrite step6_double by (unfold manageable in M; cbn [length] in *; lia).
      cbn [bind]. rewrite Lp. eexists. reflexivity. }
  destruct A as [m1 ->]. destruct post as [|g post] using rev_ind.
  - inversion Gq; subst. cbn [colons join app]. exists (Nat.max 2 (length pre)), 0, m1, []. cbn [app length]. split; [reflexivity|]. split; [unfold manageable in M; lia|]. split; [lia|]. split; [cbn; lia|reflexivity].
  - clear IHpost. apply Forall2_app_inv_l in Gq as [us [v1 [G1 [G2 ->]]]]. inversion G2 as [|? v ? l Gg Gn]; subst. inversion Gn; subst. clear G2 Gn.
    rewrite colons_last, <- app_assoc. rewrite app_length in *. cbn [length] in *. pose proof (Forall2_length G1) as Lu.
    destruct (@loop6_after post us (g ++ tail) [] (Nat.max 2 (length pre)) m1 br (mkIP6 (pvs ++ zeros (8 - length pvs)) (Some 0)) G1) as [n' E]; [lia|unfold manageable in M; lia|unfold manageable in M; cbn [length]; lia|].
    cbn [app length] in E. change (zeros (6 - 0)) with (zeros 6) in E. rewrite E. clear E.
    destruct (@loop6_group (Nat.max 2 (length pre) + length post) n' br (us ++ zeros (6 - length us)) (length us) true (mkIP6 (pvs ++ zeros (8 - length pvs)) (Some 0)) g v tail) as [m [E V]]; [unfold manageable in M; lia|exact Gg|].
    rewrite E. exists (Nat.max 2 (length pre) + length post)%nat, v, (S m), us. split; [reflexivity|]. split; [unfold manageable in M; lia|]. split; [exact V|]. split; [unfold manageable in M; lia|].
    destruct post; reflexivity.
Qed.
Lemma groups_small gs vs : groups gs vs -> map u16 vs = vs.
Proof. intros G. induction G as [|g v gs vs Gg G IH]; [reflexivity|]. cbn [map]. rewrite IH. destruct Gg as [ds [_ [_ [_ [_ L]]]]]. rewrite u16_small by exact L. reflexivity. Qed.
Lemma compressed_colon pre pvs post qvs : groups pre pvs -> groups post qvs ->
  (exists a, compressed pre post = a ++ ":"%char :: ":"%char :: colons post) /\ ~ In "."%char (compressed pre post).
Proof.
  intros Gp Gq. split; [exists (colons pre); reflexivity|]. unfold compressed. intros K. apply in_app_or in K as [K|[K|[K|K]]]; [exact (colons_chars Gp K)|discriminate|discriminate|exact (colons_chars Gq K)].
Qed.
(** the tail of the address after the groups after the compression are put in place *)
Lemma place_tail (pvs us : list N) v post qvs : groups post qvs -> us ++ [v] = match post with [] => [0] | _ => qvs end -> (length us <= 4)%nat ->
  (length pvs <= 6)%nat -> (length pvs + length qvs <= 7)%nat ->
  firstn (8 - S (length us)) (pvs ++ zeros (8 - length pvs)) ++ map u16 (us ++ [v]) = expanded pvs qvs.
Proof.
  intros G E Lu Lp Lpq. assert (Lus : S (length us) = Nat.max 1 (length qvs)).
  { apply (f_equal (@length N)) in E. rewrite app_length in E. cbn [length] in E. destruct post; inversion G; subst; cbn [length] in *; lia. }
  rewrite firstn_app_ge by lia. assert (Hz : firstn (8 - S (length us) - length pvs) (zeros (8 - length pvs)) = zeros (8 - S (length us) - length pvs)).
  { unfold zeros. rewrite <- (firstn_all (repeat 0 (8 - S (length us) - length pvs))) at 1. rewrite repeat_length.
    assert (X : (8 - length pvs)%nat = ((8 - S (length us) - length pvs) + S (length us))%nat) by lia. rewrite X. rewrite repeat_app. rewrite firstn_app_le by (rewrite repeat_length; lia). reflexivity. }
  rewrite Hz, E. unfold expanded. rewrite <- app_assoc. f_equal. destruct post as [|g post].
  - inversion G; subst. cbn [map length] in *. rewrite app_nil_r. change [u16 0] with (zeros 1). rewrite zeros_app. unfold zeros. f_equal. lia.
  - rewrite (groups_small G). unfold zeros. f_equal. f_equal. pose proof (Forall2_length G) as Lg. cbn [length] in Lg. lia.
Qed.
(** Compressed text without brackets. *)
Theorem C44_compressed_partial pre pvs post qvs : groups pre pvs -> groups post qvs -> manageable (length pre) (length post) ->
  IPAddressNew (compressed pre post) = Ok (Some (IP6 (mkIP6 (expanded pvs qvs) (Some 0)))).
Proof.
  intros Gp Gq M. pose proof (Forall2_length Gp) as Lp. pose proof (Forall2_length Gq) as Lq.
  destruct (compressed_colon Gp Gq) as [[a Ea] Nd]. apply new6; [eapply not_ip4; [exact Ea|discriminate|exact Nd]|].
  destruct (@compressed_run 0 false pre pvs post qvs [] Gp Gq M) as [st [v [m [us [E [St [V [Lu Eu]]]]]]]]. rewrite app_nil_r in E.
  unfold IPV6_parser. rewrite start_plain, E. clear E. cbn [loop6 bind]. unfold rd. cbn [state6 bracket].
  replace ((st =? 0)%nat || (st =? 1)%nat) with false by (symmetry; rewrite orb_false_iff, !Nat.eqb_neq; lia).
  replace ((st =? 2)%nat || (st =? 3)%nat || (st =? 4)%nat || (st =? 5)%nat || (st =? 6)%nat) with true by (symmetry; rewrite !orb_true_iff, !Nat.eqb_eq; lia).
  rewrite push6_ok; [|cbn [unsorted]; unfold zeros; rewrite app_length, repeat_length; lia|cbn [up]; lia]. cbn [bind compress up unsorted dst6 sixteen port6 six].
  rewrite upd_zeros6 by lia. rewrite place_back; [|unfold zeros; rewrite app_length, repeat_length; unfold manageable in M; lia|lia|rewrite !app_length; cbn [length]; lia|lia].
  cbn [bind]. replace (firstn (S (length us)) ((us ++ [v]) ++ zeros (6 - S (length us)))) with (us ++ [v]).
  2: { replace (S (length us)) with (length (us ++ [v])) by (rewrite app_length; cbn [length]; lia). rewrite firstn_app_le by lia. rewrite firstn_all. reflexivity. }
  rewrite (skipn_all2 (n := 8 - 0)) by (unfold zeros; rewrite app_length, repeat_length; unfold manageable in M; lia). rewrite app_nil_r.
  pose proof (@place_tail pvs us v post qvs Gq Eu Lu) as PT. rewrite PT by (unfold manageable in M; lia). reflexivity.
Qed.

(** ** brackets and compression together *)
Lemma bracketed_run pre pvs post qvs tail : groups pre pvs -> groups post qvs -> manageable (length pre) (length post) ->
  exists us v, loop6 init6 ("["%char :: compressed pre post ++ "]"%char :: tail) =
    loop6 (rd 8 0 0 false ((us ++ [v]) ++ zeros (6 - S (length us))) (S (length us)) true (mkIP6 (pvs ++ zeros (8 - length pvs)) (Some 0))) tail /\
    (length us <= 4)%nat /\ us ++ [v] = match post with [] => [0] | _ => qvs end.
Proof.
  intros Gp Gq M. rewrite start_bracket. destruct (@compressed_run 1 true pre pvs post qvs ("]"%char :: tail) Gp Gq M) as [st [v [m [us [E [St [V [Lu Eu]]]]]]]].
  rewrite E. cbn [loop6]. rewrite step6_close; [|lia|exact V|unfold zeros; rewrite app_length, repeat_length; lia|lia]. cbn [bind]. rewrite upd_zeros6 by lia.
  exists us, v. auto.
Qed.
Lemma bracket_not_ip4 pre pvs post qvs tail : groups pre pvs -> groups post qvs -> ~ In "."%char tail -> IPV4_parser ("["%char :: compressed pre post ++ "]"%char :: tail) = Ok None.
Proof.
  intros Gp Gq Nt. destruct (compressed_colon Gp Gq) as [[a Ea] Nd]. apply (@not_ip4 ("["%char :: a) (":"%char :: colons post ++ "]"%char :: tail)).
  - rewrite Ea. cbn [app]. rewrite <- app_assoc. reflexivity.
  - discriminate.
  - intros [K|K]; [discriminate|]. apply in_app_or in K as [K|[K|K]]; [exact (Nd K)|discriminate|exact (Nt K)].
Qed.
(** the address stored for compressed text in brackets: the groups after the compression
    come out in reverse order *)
Lemma bracketed_stored pre pvs post qvs : groups pre pvs -> groups post qvs -> manageable (length pre) (length post) ->
  IPAddressNew ("["%char :: compressed pre post ++ lit "]") = Ok (Some (IP6 (mkIP6 (expanded pvs (rev qvs)) (Some 0)))).
Proof.
  intros Gp Gq M. pose proof (Forall2_length Gp) as Lp. pose proof (Forall2_length Gq) as Lq. apply new6; [apply (@bracket_not_ip4 _ _ _ _ [] Gp Gq); intros []|].
  change (lit "]") with ["]"%char]. destruct (@bracketed_run pre pvs post qvs [] Gp Gq M) as [us [v [E [Lu Eu]]]]. unfold IPV6_parser. rewrite E. clear E. cbn [loop6 bind].
  unfold rd. cbn [state6 Nat.eqb orb compress up unsorted dst6 sixteen port6].
  rewrite place_front; [|unfold zeros; rewrite app_length, repeat_length; unfold manageable in M; lia|rewrite !app_length; cbn [length]; lia|lia].
  cbn [bind]. cbn [skipn]. replace (firstn (S (length us)) ((us ++ [v]) ++ zeros (6 - S (length us)))) with (us ++ [v]).
  2: { replace (S (length us)) with (length (us ++ [v])) by (rewrite app_length; cbn [length]; lia). rewrite firstn_app_le by lia. rewrite firstn_all. reflexivity. }
  rewrite (skipn_all2 (n := 8 - 0)) by (unfold zeros; rewrite app_length, repeat_length; unfold manageable in M; lia). rewrite app_nil_r.
  assert (G' : groups (rev post) (rev qvs)).
  { clear - Gq. induction Gq as [|g v gs vs Gg G IH]; [constructor|]. cbn [rev]. apply Forall2_app; [exact IH|]. constructor; [exact Gg|constructor]. }
  assert (Er : exists us' v', rev (us ++ [v]) = us' ++ [v'] /\ length us' = length us).
  { destruct us as [|u0 us]; [exists [], v; auto|]. exists (rev (us ++ [v])), u0. split; [reflexivity|]. rewrite rev_length, app_length. cbn [length]. lia. }
  destruct Er as [us' [v' [Er Lus]]]. rewrite Er.
  pose proof (@place_tail pvs us' v' (rev post) (rev qvs) G') as PT. rewrite Lus in PT. replace (8 - 0 - S (length us))%nat with (8 - S (length us))%nat by lia. rewrite PT; [reflexivity| |exact Lu|unfold manageable in M; lia|rewrite rev_length; unfold manageable in M; lia].
  rewrite <- Er, Eu. destruct post as [|g post]; [reflexivity|]. cbn [rev]. destruct (rev post); reflexivity.
Qed.
(** with a port the groups after the compression are lost *)
Lemma ported_stored pre pvs post qvs pt port : groups pre pvs -> groups post qvs -> manageable (length pre) (length post) -> numeral 65535 pt port ->
  IPAddressNew ("["%char :: compressed pre post ++ lit "]:" ++ pt) = Ok (Some (IP6 (mkIP6 (expanded pvs []) (Some port)))).
Proof.
  intros Gp Gq M Np. pose proof (Forall2_length Gp) as Lp. apply new6; [apply (@bracket_not_ip4 _ _ _ _ (":"%char :: pt) Gp Gq); intros [K|K]; [discriminate|exact (numeral_chars Np K)]|].
  change (lit "]:" ++ pt) with ("]"%char :: ":"%char :: pt). destruct (@bracketed_run pre pvs post qvs (":"%char :: pt) Gp Gq M) as [us [v [E [Lu Eu]]]]. unfold IPV6_parser. rewrite E. clear E.
  match goal with |- context [loop6 (rd 8 0 0 false ?u ?p ?cp ?d) _] => destruct (@loop6_end u p cp d port pt Np) as [n' ->] end.
  unfold prd. cbn [bind state6 chars6 prt6 sixteen dst6 Nat.eqb orb]. rewrite u16_small by apply Np. unfold expanded. rewrite app_nil_r. cbn [length]. rewrite Nat.sub_0_r. reflexivity.
Qed.
(** Compressed text in brackets is right when at most one group follows the compression,
    with a port when none does. *)
Theorem C44_bracketed_partial pre pvs post qvs : groups pre pvs -> groups post qvs -> manageable (length pre) (length post) ->
  ((length post <= 1)%nat -> IPAddressNew ("["%char :: compressed pre post ++ lit "]") = Ok (Some (IP6 (mkIP6 (expanded pvs qvs) (Some 0))))) /\
  (post = [] -> forall pt port, numeral 65535 pt port ->
     IPAddressNew ("["%char :: compressed pre post ++ lit "]:" ++ pt) = Ok (Some (IP6 (mkIP6 (expanded pvs qvs) (Some port))))).
Proof.
  intros Gp Gq M. pose proof (Forall2_length Gq) as Lq. split.
  - intros L. rewrite (bracketed_stored Gp Gq M). destruct qvs as [|q [|q' qvs]]; [reflexivity|reflexivity|cbn [length] in *; lia].
  - intros -> pt port Np. rewrite (ported_stored Gp Gq M Np). inversion Gq; subst. reflexivity.
Qed.
(** Otherwise the stored address is another one: two or more groups after the compression
    come out reversed, and with a port they are all replaced by zeros. *)
Theorem C44_bracketed_refuted pre pvs post qvs : groups pre pvs -> groups post qvs -> manageable (length pre) (length post) ->
  IPAddressNew ("["%char :: compressed pre post ++ lit "]") = Ok (Some (IP6 (mkIP6 (expanded pvs (rev qvs)) (Some 0)))) /\
  forall pt port, numeral 65535 pt port ->
    IPAddressNew ("["%char :: compressed pre post ++ lit "]:" ++ pt) = Ok (Some (IP6 (mkIP6 (expanded pvs []) (Some port)))).
Proof. intros Gp Gq M. split; [exact (bracketed_stored Gp Gq M)|]. intros pt port Np. exact (ported_stored Gp Gq M Np). Qed.

Lemma group_of ds : ds <> [] -> forallb (fun d => d <? 16)%nat ds = true -> fold_left (fun a d => 16 * a + N.of_nat d) ds 0 <= 65535 ->
  group (map (fun d => nth d hexdigits NUL) ds) (fold_left (fun a d => 16 * a + N.of_nat d) ds 0).
Proof. intros Ne F L. exists ds. split; [exact Ne|]. split; [|auto]. apply Forall_forall. rewrite forallb_forall in F. intros x X. apply Nat.ltb_lt, F, X. Qed.
(** concrete cases: accepted and right; reversed; lost; a valid text whose middle groups are
    lost; texts that are no addresses but are accepted *)
Theorem C44_example : groups [lit "fe80"; lit "0"; lit "12"] [65152; 0; 18] /\ manageable 3 3 /\
  IPAddressNew (lit "fe80:0:12::fe80:0:12") = Ok (Some (IP6 (mkIP6 [65152; 0; 18; 0; 0; 65152; 0; 18] (Some 0)))).
Proof.
  assert (G : groups [lit "fe80"; lit "0"; lit "12"] [65152; 0; 18]).
  { constructor; [apply (@group_of [15; 14; 8; 0]%nat); [discriminate|reflexivity|cbn; lia]|]. constructor; [apply (@group_of [0]%nat); [discriminate|reflexivity|cbn; lia]|].
    constructor; [apply (@group_of [1; 2]%nat); [discriminate|reflexivity|cbn; lia]|constructor]. }
  split; [exact G|]. assert (M : manageable 3 3) by (unfold manageable; lia). split; [exact M|].
  apply (@C44_compressed_partial _ _ _ _ G G M).
Qed.
Theorem C44_refuted :
  IPAddressNew (lit "[1::2:3]") = Ok (Some (IP6 (mkIP6 [1; 0; 0; 0; 0; 0; 3; 2] (Some 0)))) /\
  IPAddressNew (lit "[1::2]:80") = Ok (Some (IP6 (mkIP6 [1; 0; 0; 0; 0; 0; 0; 0] (Some 80)))) /\
  IPAddressNew (lit "1::2:3:4:5:6:7") = Ok (Some (IP6 (mkIP6 [1; 0; 0; 0; 0; 0; 0; 7] (Some 0)))) /\
  IPAddressNew (lit "1:2:3:4:5:6:7::") = Ok None /\
  IPAddressNew (lit "1:2:::3") = Ok (Some (IP6 (mkIP6 [1; 2; 0; 0; 0; 0; 0; 3] (Some 0)))) /\
  IPAddressNew (lit ":2:3:4:5:6:7:8") = Ok (Some (IP6 (mkIP6 [0; 2; 3; 4; 5; 6; 7; 8] (Some 0)))).
Proof. repeat split; vm_compute; reflexivity. Qed.

(** ** printing *)
Lemma hex_char_nth d : d < 16 -> hex_char d = nth (N.to_nat d) hexdigits NUL.
Proof.
  intros L. assert (E : d = N.of_nat (N.to_nat d)) by lia. rewrite E. set (k := N.to_nat d) in *. assert (K : (k < 16)%nat) by lia. clearbody k. rewrite Nat2N.id. clear - K.
  do 16 (destruct k as [|k]; [reflexivity|]). lia.
Qed.
Lemma uhex_aux_spec fuel : forall n acc, n < 16 ^ N.of_nat fuel -> (0 < fuel)%nat ->
  exists ds, uhex_aux fuel n acc = map (fun d => nth d hexdigits NUL) ds ++ acc /\ fold_left (fun a d => 16 * a + N.of_nat d) ds 0 = n /\
    Forall (fun d => (d < 16)%nat) ds /\ ds <> [] /\ (hd 0%nat ds = 0%nat -> n = 0).
Proof.
  induction fuel as [|f IH]; intros n acc H P; [lia|]. cbn [uhex_aux]. assert (M : n mod 16 < 16) by (apply N.mod_lt; lia).
  destruct (N.ltb_spec n 16) as [L|G].
  - exists [N.to_nat (n mod 16)]. rewrite N.mod_small by lia. cbn [map app]. rewrite hex_char_nth by lia. split; [reflexivity|]. split; [cbn [fold_left]; lia|].
    split; [constructor; [lia|constructor]|]. split; [discriminate|]. cbn. lia.
  - assert (F0 : (0 < f)%nat) by (destruct f; [cbn in H; lia|lia]).
    assert (B : n / 16 < 16 ^ N.of_nat f) by (rewrite Nat2N.inj_succ, N.pow_succ_r' in H; apply N.div_lt_upper_bound; lia).
    destruct (IH (n / 16) (hex_char (n mod 16) :: acc) B F0) as [ds [E [U [F [NE Z]]]]].
    exists (ds ++ [N.to_nat (n mod 16)]). rewrite E, map_app, <- app_assoc. cbn [map app]. rewrite hex_char_nth by lia. split; [reflexivity|].
    split; [rewrite fold_left_app; cbn [fold_left]; rewrite U; rewrite (N.div_mod n 16) at 3 by lia; lia|].
    split; [apply Forall_app; split; [exact F|constructor; [lia|constructor]]|]. split; [destruct ds; discriminate|].
    destruct ds as [|d ds]; [congruence|]. cbn [app hd]. intros X. specialize (Z X). assert (1 <= n / 16) by (apply N.div_le_lower_bound; lia). lia.
Qed.
Lemma size_pow16 n : n < 16 ^ N.of_nat (S (N.size_nat n)).
Proof. eapply N.lt_le_trans; [apply size_pow10|]. apply N.pow_le_mono_l. lia. Qed.
Lemma uhex_group n : n <= 65535 -> group (uhex n) n /\ (hd NUL (uhex n) = "0"%char -> n = 0).
Proof.
  intros L. unfold uhex. destruct (@uhex_aux_spec (S (N.size_nat n)) n [] (size_pow16 n)) as [ds [-> [U [F [NE Z]]]]]; [lia|]. rewrite app_nil_r. split.
  - exists ds. rewrite U. auto.
  - intros K. apply Z. destruct ds as [|d ds]; [congruence|]. inversion F as [|? ? D _]; subst. cbn [map hd] in *. clear - K D.
    destruct d as [|d]; [reflexivity|]. do 15 (destruct d as [|d]; [discriminate K|]). lia.
Qed.
Lemma hex_cstr g v : group g v -> is_cstr g.
Proof.
  intros [ds [_ [F [-> _]]]]. unfold is_cstr. intros K. apply in_map_iff in K as [d [E D]]. rewrite Forall_forall in F. specialize (F d D). clear - E F.
  do 16 (destruct d as [|d]; [discriminate E|]). lia.
Qed.
Lemma group_len n : n <= 65535 -> (length (uhex n) <= 17)%nat.
Proof.
  intros L. unfold uhex. assert (X : forall f k acc, (length (uhex_aux f k acc) <= f + length acc)%nat).
  { induction f as [|f IH]; intros k acc; [cbn; lia|]. cbn [uhex_aux]. destruct (k <? 16); [cbn [length]; lia|]. specialize (IH (k / 16) (hex_char (k mod 16) :: acc)). cbn [length] in IH. lia. }
  specialize (X (S (N.size_nat n)) n []). cbn [length] in X. assert (N.size_nat n <= 16)%nat; [|lia].
  destruct n as [|p]; [cbn; lia|]. cbn [N.size_nat]. assert (Pl : N.pos p < 2 ^ 16) by (change (2 ^ 16) with 65536; lia). clear - Pl.
  assert (G : N.of_nat (Pos.size_nat p) = N.size (Npos p)) by (clear; induction p; cbn [Pos.size_nat]; rewrite ?Nat2N.inj_succ, ?IHp; cbn; lia).
  assert (Y : N.size (N.pos p) <= 16); [|lia]. destruct (N.le_gt_cases (N.size (N.pos p)) 16) as [?|C]; [assumption|].
  exfalso. pose proof (N.size_le (N.pos p)) as S1. assert (2 ^ 17 <= 2 ^ N.size (N.pos p)) by (apply N.pow_le_mono_r; lia).
  change (2 ^ 17) with 131072 in *. change (2 ^ 16) with 65536 in *. cbn [N.succ_double] in S1. lia.
Qed.
(** Printing an IPv6 address gives its eight groups as lower case hexadecimal numerals without
    leading zeros, and reading the text back gives the same groups. *)
Theorem C44_printed vs port : length vs = 8%nat -> Forall (fun v => v <= 65535) vs ->
  exists gs buf, groups gs vs /\ Forall2 (fun g v => hd NUL g = "0"%char -> v = 0) gs vs /\ length gs = 8%nat /\
    IPAddressGetAddress (IP6 (mkIP6 vs port)) = Ok buf /\ BufferSize buf = length (colons gs) /\ holds (bmem buf) (colons gs) /\
    IPAddressNew (colons gs) = Ok (Some (IP6 (mkIP6 vs (Some 0)))).
Proof.
  intros L F. set (gs := map uhex vs).
  assert (G : groups gs vs) by (unfold gs; clear L; induction F as [|v vs V F IH]; [constructor|constructor; [apply uhex_group, V|exact IH]]).
  assert (Lg : length gs = 8%nat) by (unfold gs; rewrite map_length; exact L).
  assert (Cs : is_cstr (colons gs) /\ (length (colons gs) <= 200)%nat).
  { destruct vs as [|v0 [|v1 [|v2 [|v3 [|v4 [|v5 [|v6 [|v7 [|]]]]]]]]]; try discriminate L. unfold gs, colons. cbn [map join].
    repeat match goal with H : Forall _ (_ :: _) |- _ => inversion H; clear H; subst end.
    split; [repeat (apply is_cstr_app; split; [eapply hex_cstr; apply uhex_group; assumption|]; apply is_cstr_app; split; [intros [K|[]]; discriminate K|]); eapply hex_cstr; apply uhex_group; assumption|].
    rewrite !app_length. cbn [length]. repeat match goal with H : ?v <= 65535 |- _ => pose proof (group_len H); clear H end. lia. }
  destruct Cs as [Cs Ls].
  destruct (@new_spec DEFAULT_BUFFER_CAPACITY) as [b0 [E0 [R0 _]]]; [unfold DEFAULT_BUFFER_CAPACITY; lia|].
  destruct (@printf_spec b0 _ (colons gs) R0 Cs) as [b1 [E1 R1]]; [unfold small; apply N.le_lt_trans with (N.of_nat 200); [lia|reflexivity]|].
  exists gs, b1. split; [exact G|]. split; [unfold gs; clear - F; induction F as [|v vs V F IH]; [constructor|constructor; [apply uhex_group, V|exact IH]]|]. split; [exact Lg|]. split.
  { unfold IPAddressGetAddress. unfold BufferNew. rewrite E0. cbn [bind sixteen].
    replace (uhex (nth 0 vs 0) ++ _) with (colons gs); [rewrite E1; reflexivity|].
    destruct vs as [|v0 [|v1 [|v2 [|v3 [|v4 [|v5 [|v6 [|v7 [|]]]]]]]]]; try discriminate L. reflexivity. }
  destruct R1 as [_ [U [_ [_ [x [r [Em Tx]]]]]]]. cbn [step abytes aterm amode] in *. split; [exact U|].
  split; [split; [exact Cs|]; exists r; rewrite Em, (Tx eq_refl); reflexivity|]. apply (C44_full G Lg).
Qed.
