(** inet_ntop: numbers, the run of zeros, and the text. *)
From Verif Require Import Prelude PreludeFacts Str StrFacts Libc LibcFacts IpModel IpSpec InetModel InetSpec InetProofs InetProofs2 EditProofs PropsIp6.
Set Implicit Arguments.
Local Open Scope N_scope.

(** ** numbers *)
Lemma udec_numeral v : v <= 255 -> numeral 255 (udec v) v /\ short (udec v) /\ (length (udec v) <= 3)%nat.
Proof.
  intros L. destruct (udec_spec v) as (U & D & NE & Z). split; [|split; [exact Z|]].
  - unfold numeral. split; [exact NE|]. split; [apply forallb_forall; exact D|]. auto.
  - apply udec_length; [change (10 ^ N.of_nat 3) with 1000|]; lia.
Qed.
Lemma fold_low ds : forall a, a * 16 ^ N.of_nat (length ds) <= fold_left (fun a d => 16 * a + N.of_nat d) ds a.
Proof.
  induction ds as [|d ds IH]; intros a; cbn [fold_left length]; [rewrite N.pow_0_r; lia|]. rewrite Nat2N.inj_succ, N.pow_succ_r'.
  specialize (IH (16 * a + N.of_nat d)). set (p := 16 ^ N.of_nat (length ds)) in *. assert (N.of_nat d * p >= 0) by lia. lia.
Qed.
Lemma uhex_short v : v <= 65535 -> short_group (uhex v) v /\ (1 <= length (uhex v) <= 4)%nat /\ is_cstr (uhex v).
Proof.
  intros L. destruct (uhex_group L) as [G Z]. split; [|split].
  - split; [exact G|]. intros H. rewrite (Z H). reflexivity.
  - destruct (@uhex_aux_spec (S (N.size_nat v)) v [] (size_pow16 v)) as [ds [E [U [F [NE Z0]]]]]; [lia|]. unfold uhex. rewrite E, app_nil_r, map_length.
    destruct ds as [|d ds]; [congruence|]. cbn [length hd fold_left] in *. split; [lia|].
    destruct (Nat.eq_dec d 0) as [D0|D0].
    + assert (LL : length (uhex_aux (S (N.size_nat v)) v []) = 1%nat) by (rewrite (Z0 D0); reflexivity). rewrite E, app_nil_r, map_length in LL. cbn [length] in LL. lia.
    + pose proof (fold_low ds (16 * 0 + N.of_nat d)) as FL. rewrite U in FL. assert (B : 16 ^ N.of_nat (length ds) < 16 ^ 4).
      { change (16 ^ 4) with 65536. assert (1 * 16 ^ N.of_nat (length ds) <= (16 * 0 + N.of_nat d) * 16 ^ N.of_nat (length ds)) by (apply N.mul_le_mono_r; lia). lia. }
      apply N.pow_lt_mono_r_iff in B; lia.
  - eapply hex_cstr; exact G.
Qed.
Lemma lor_byte a b : b < 256 -> N.lor (N.lor 0 (N.shiftl a 8)) (N.shiftl b 0) = 256 * a + b.
Proof.
  intros L. rewrite N.lor_0_l, N.shiftl_0_r. assert (Z : N.land (N.shiftl a 8) b = 0).
  { apply N.bits_inj. intros n. rewrite N.land_spec, N.bits_0. destruct (N.lt_ge_cases n 8) as [H|H].
    - now rewrite N.shiftl_spec_low.
    - rewrite <- (N.mod_small b (2 ^ 8)) by exact L. rewrite (N.mod_pow2_bits_high b 8 n H). apply andb_false_r. }
  rewrite <- N.lxor_lor, <- N.add_nocarry_lxor by exact Z. rewrite N.shiftl_mul_pow2. change (2 ^ 8) with 256. lia.
Qed.

(** ** snprintf *)
Lemma snprintf_at (a t : list byte) (r : cells byte) i n : i = length a -> (length t < n)%nat -> (length t < length r)%nat ->
  exists r', msnprintf (map Some a ++ r) i n t = Ok (map Some (a ++ t) ++ Some NUL :: r') /\ (length t + S (length r') = length r)%nat /\ r' = skipn (S (length t)) r.
Proof.
  intros -> L1 L2. unfold msnprintf. destruct n as [|k]; [lia|]. rewrite firstn_all2 by lia.
  rewrite acopy_Ok; [|rewrite app_length, map_length; lia|rewrite length_block; lia]. cbn [skipn].
  rewrite firstn_app_le by (rewrite map_length; lia). rewrite (firstn_all2 (map Some a)) by (rewrite map_length; lia). rewrite (firstn_all2 (block t)) by (rewrite length_block; lia).
  rewrite skipn_app_ge by (rewrite map_length; lia). rewrite map_length. replace (length a + S (length t) - length a)%nat with (S (length t)) by lia.
  exists (skipn (S (length t)) r). split; [|split; [rewrite skipn_length; lia|reflexivity]]. unfold block. rewrite !map_app, <- !app_assoc. reflexivity.
Qed.

(** ** inet_ntop4 *)
Definition dots (a b c d : N) : list byte := udec a ++ lit "." ++ udec b ++ lit "." ++ udec c ++ lit "." ++ udec d.
Lemma dots_quad a b c d : a <= 255 -> b <= 255 -> c <= 255 -> d <= 255 -> short_quad (dots a b c d) [a; b; c; d] /\ (length (dots a b c d) <= 15)%nat /\ is_cstr (dots a b c d).
Proof.
  intros A B C D. destruct (udec_numeral A) as (A1 & A2 & A3), (udec_numeral B) as (B1 & B2 & B3), (udec_numeral C) as (C1 & C2 & C3), (udec_numeral D) as (D1 & D2 & D3). split; [|split].
  - exists (udec a), (udec b), (udec c), (udec d), a, b, c, d. unfold dots. auto 20.
  - unfold dots. rewrite !app_length. change (length (lit ".")) with 1%nat. lia.
  - unfold dots. assert (X : is_cstr (lit ".")) by (unfold is_cstr, NUL; cbn; intuition discriminate). repeat (apply is_cstr_app; split; [first [apply udec_cstr|exact X]|]). apply udec_cstr.
Qed.
Lemma short_quad_quad s o : short_quad s o -> quad s o.
Proof. intros (a & b & c & d & va & vb & vc & vd & H1 & H2 & H3 & H4 & _ & _ & _ & _ & E & F). exists a, b, c, d, va, vb, vc, vd. auto 10. Qed.

Lemma ntop4_spec a b c d more (x : list byte) (r : cells byte) i size : a <= 255 -> b <= 255 -> c <= 255 -> d <= 255 -> i = length x -> (size <= length r)%nat ->
  inet_ntop4 (a :: b :: c :: d :: more) (map Some x ++ r) i size =
  Ok (if (size <=? length (dots a b c d))%nat then None else Some (map Some (x ++ dots a b c d) ++ Some NUL :: skipn (S (length (dots a b c d))) r)).
Proof.
  intros A B C D -> L. destruct (dots_quad A B C D) as (_ & LT & _). unfold inet_ntop4. cbn [nget nth_error bind]. change (udec a ++ lit "." ++ udec b ++ lit "." ++ udec c ++ lit "." ++ udec d) with (dots a b c d).
  set (t := dots a b c d) in *. destruct (@snprintf_at [] t (repeat None 16) 0 16 eq_refl) as (r' & E & LR & _); [lia|rewrite repeat_length; lia|]. cbn [map app] in E. rewrite E. cbn [bind].
  destruct (Nat.leb_spec size (length t)) as [G|G]; [reflexivity|].
  rewrite acopy_Ok; [|rewrite app_length, map_length; lia|rewrite app_length, map_length; cbn [length]; lia]. cbn [bind skipn].
  rewrite firstn_app_le by (rewrite map_length; lia). rewrite (firstn_all2 (map Some x)) by (rewrite map_length; lia).
  replace (map Some t ++ Some NUL :: r') with (block t ++ r') by (unfold block; rewrite map_app, <- app_assoc; reflexivity).
  rewrite firstn_app_le by (rewrite length_block; lia). rewrite firstn_all2 by (rewrite length_block; lia). rewrite skipn_app_ge by (rewrite map_length; lia). rewrite map_length.
  replace (length x + (length t + 1) - length x)%nat with (S (length t)) by lia. unfold block. rewrite !map_app, <- !app_assoc. reflexivity.
Qed.

(** ** the words *)
Lemma words_loop_run more rest : Forall (fun v => v <= 65535) rest -> forall done i, i = (2 * length done)%nat ->
  words_loop (2 * length rest) i (bytes_of (done ++ rest) ++ more) (done ++ repeat 0 (length rest)) = Ok (done ++ rest).
Proof.
  induction 1 as [|v rest V F IH]; intros done i ->; [reflexivity|]. cbn [length repeat]. replace (2 * S (length rest))%nat with (S (S (2 * length rest))) by lia. cbn [words_loop].
  assert (D0 : (2 * length done / 2 = length done)%nat) by (rewrite Nat.mul_comm; apply Nat.div_mul; lia).
  assert (D1 : (S (2 * length done) / 2 = length done)%nat) by (symmetry; apply (Nat.div_unique _ _ _ 1); lia).
  assert (M0 : (2 * length done mod 2 = 0)%nat) by (rewrite Nat.mul_comm; apply Nat.mod_mul; lia).
  assert (M1 : (S (2 * length done) mod 2 = 1)%nat) by (symmetry; apply (Nat.mod_unique _ _ (length done) 1); lia).
  rewrite D0, D1, M0, M1. change (N.shiftl (1 - N.of_nat 0) 3) with 8. change (N.shiftl (1 - N.of_nat 1) 3) with 0.
  rewrite nget_at by reflexivity. cbn [bind].
  rewrite bytes_of_app. change (bytes_of (v :: rest)) with (v / 256 :: v mod 256 :: bytes_of rest). rewrite <- app_assoc. cbn [app].
  rewrite nget_at by (symmetry; apply bytes_of_length). cbn [bind]. rewrite nset_at by reflexivity. cbn [bind]. rewrite nget_at by reflexivity. cbn [bind].
  replace (bytes_of done ++ v / 256 :: v mod 256 :: bytes_of rest ++ more) with ((bytes_of done ++ [v / 256]) ++ v mod 256 :: bytes_of rest ++ more) by now rewrite <- app_assoc.
  rewrite nget_at by (rewrite app_length, bytes_of_length; cbn [length]; lia). cbn [bind]. rewrite nset_at by reflexivity. cbn [bind].
  rewrite lor_byte by (apply N.mod_lt; lia). rewrite <- N.div_mod by lia.
  specialize (IH (done ++ [v]) (S (S (2 * length done)))). rewrite <- !app_assoc in IH. cbn [app] in IH. rewrite bytes_of_app in IH. change (bytes_of (v :: rest)) with (v / 256 :: v mod 256 :: bytes_of rest) in IH.
  rewrite <- !app_assoc. rewrite <- app_assoc in IH. cbn [app] in IH |- *. apply IH. rewrite app_length. cbn [length]. lia.
Qed.
Lemma words_loop_spec vs : length vs = 8%nat -> Forall (fun v => v <= 65535) vs -> forall more, words_loop 16 0 (bytes_of vs ++ more) (repeat 0 8) = Ok vs.
Proof. intros L F more. pose proof (words_loop_run more F [] eq_refl) as W. cbn [app] in W. rewrite L in W. exact W. Qed.

(** ** the run of zeros: it only depends on which words are zero *)
Fixpoint runs_b (i : nat) (zs : list bool) (best cur : run) : run * run :=
  match zs with
  | [] => (best, cur)
  | z :: zs =>
      if z : bool then runs_b (S i) zs best (match cur with None => Some (i, 1%nat) | Some (b, l) => Some (b, S l) end)
      else match cur with Some c => runs_b (S i) zs (better best c) None | None => runs_b (S i) zs best None end
  end.
Definition best_b (zs : list bool) : run :=
  let (best, cur) := runs_b 0 zs None None in
  let best := match cur with Some c => better best c | None => best end in
  match best with Some (b, l) => if (l <? 2)%nat then None else best | None => None end.
Lemma runs_b_eq ws : forall i best cur, runs_loop i ws best cur = runs_b i (map (N.eqb 0) ws) best cur.
Proof.
  induction ws as [|w ws IH]; intros i best cur; [reflexivity|]. cbn [runs_loop runs_b map]. rewrite (N.eqb_sym 0 w). destruct (w =? 0); [apply IH|]. destruct cur; apply IH.
Qed.
Lemma best_b_eq ws : best_run ws = best_b (map (N.eqb 0) ws).
Proof. unfold best_run, best_b. now rewrite runs_b_eq. Qed.
Definition zeros_b (zs : list bool) (b l : nat) : bool := (b + l <=? length zs)%nat && forallb (fun i => nth i zs false) (seq b l).
Lemma zeros_b_spec vs b l : zeros_b (map (N.eqb 0) vs) b l = true <-> zeros_at vs b l.
Proof.
  unfold zeros_b, zeros_at. rewrite map_length, andb_true_iff, Nat.leb_le, forallb_forall.
  assert (X : forall i, nth i (map (N.eqb 0) vs) false = true <-> nth i vs 1 = 0) by (intros i; change false with (N.eqb 0 1); rewrite map_nth, N.eqb_eq; split; congruence).
  split; intros [L H]; split; auto.
  - intros i I. apply X. apply H. apply in_seq. exact I.
  - intros i I. apply X. apply H. now apply in_seq in I.
Qed.
Definition longest_b (zs : list bool) (b l : nat) : bool :=
  (2 <=? l)%nat && zeros_b zs b l && forallb (fun b' => forallb (fun l' => negb (zeros_b zs b' l') || (l' <? l)%nat || (l' =? l)%nat && (b <=? b')%nat) (seq 0 9)) (seq 0 9).
Definition check (zs : list bool) : bool :=
  match best_b zs with Some (b, l) => longest_b zs b l | None => forallb (fun b => negb (zeros_b zs b 2)) (seq 0 9) end.
Fixpoint patterns (n : nat) : list (list bool) := match n with O => [[]] | S n => flat_map (fun p => [true :: p; false :: p]) (patterns n) end.
Lemma patterns_all n : forall zs, length zs = n -> In zs (patterns n).
Proof.
  induction n as [|n IH]; intros zs L; [destruct zs; [now left|discriminate L]|]. destruct zs as [|z zs]; [discriminate L|]. cbn [patterns]. apply in_flat_map. exists zs. split; [apply IH; now injection L|]. destruct z; cbn; auto.
Qed.
Lemma check_all : forallb check (patterns 8) = true.
Proof. vm_compute. reflexivity. Qed.
Lemma best_run_spec vs : length vs = 8%nat -> match best_run vs with Some (b, l) => first_longest vs b l | None => forall b, ~ zeros_at vs b 2 end.
Proof.
  intros L. rewrite best_b_eq. pose proof check_all as C. rewrite forallb_forall in C. specialize (C (map (N.eqb 0) vs)). assert (I : In (map (N.eqb 0) vs) (patterns 8)) by (apply patterns_all; now rewrite map_length).
  specialize (C I). unfold check in C. destruct (best_b _) as [[b l]|].
  - unfold longest_b in C. rewrite !andb_true_iff, Nat.leb_le, zeros_b_spec, forallb_forall in C. destruct C as [[L2 Z] M]. split; [exact L2|]. split; [exact Z|].
    intros b' l' Z'. assert (B : (b' < 9 /\ l' < 9)%nat) by (clear - Z' L; destruct Z' as [Z' _]; lia). assert (I1 : In b' (seq 0 9)) by (apply in_seq; lia). assert (I2 : In l' (seq 0 9)) by (apply in_seq; lia).
    specialize (M b' I1). rewrite forallb_forall in M. specialize (M l' I2). apply zeros_b_spec in Z'. rewrite Z' in M. cbn [negb orb] in M.
    apply orb_true_iff in M as [M|M]; [left; now apply Nat.ltb_lt|right]. apply andb_true_iff in M as [M1 M2]. split; [now apply Nat.eqb_eq|now apply Nat.leb_le].
  - rewrite forallb_forall in C. intros b Z. assert (B : (b < 9)%nat) by (destruct Z as [Z _]; lia). assert (I1 : In b (seq 0 9)) by (apply in_seq; lia). specialize (C b I1). apply zeros_b_spec in Z. rewrite Z in C. discriminate C.
Qed.
