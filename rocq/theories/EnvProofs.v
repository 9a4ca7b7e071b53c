(** Proofs about EnvModel.v: parsing one line of an env file. *)
From Verif Require Import Prelude PreludeFacts Str StrFacts Libc LibcFacts MemSpec EditSpec EditModel EditProofs EditProofs3.
From Verif Require Import CompatProofs EnvModel EnvSpec.
Set Implicit Arguments.

(** which characters end or break a text, given the opening quote (NUL: none) *)
Definition stop_of (oq : byte) : byte -> bool := if beq oq NUL then isquote else beq oq.

Lemma stop_of_quote q : isquote q = true -> stop_of q = beq q.
Proof. unfold stop_of. destruct (beq_spec q NUL) as [-> | ]; [discriminate|reflexivity]. Qed.

Lemma aget_at A (p : cells A) x t : aget (p ++ Some x :: t) (length p) = Ok x.
Proof. unfold aget. rewrite nth_error_app2, Nat.sub_diag by lia. reflexivity. Qed.
Lemma aset_at A (p : cells A) y t x : aset (p ++ y :: t) (length p) x = Ok (p ++ Some x :: t).
Proof. rewrite aset_Ok by (rewrite app_length; cbn; lia). rewrite upd_snoc. reflexivity. Qed.

(** reading [W] and writing one character moves the write position by one *)
Lemma shift A (p g : cells A) a w t x : exists g', aset (p ++ g ++ a :: w ++ t) (length p) x = Ok ((p ++ [Some x]) ++ g' ++ t) /\ length g' = length g + length w.
Proof.
  destruct g as [|y g].
  - exists w. cbn [app]. rewrite aset_at, <- app_assoc. split; reflexivity.
  - exists (g ++ a :: w). cbn [app]. rewrite aset_at, <- !app_assoc. cbn [app]. split; [reflexivity|]. rewrite app_length. cbn. lia.
Qed.

Lemma snoc_map A (p : cells A) c v : (p ++ [Some c]) ++ map Some v = p ++ map Some (c :: v).
Proof. rewrite <- app_assoc. reflexivity. Qed.

(** the second character behind [p ++ g] *)
Lemma aget_at2 A (p g : cells A) a x t : aget (p ++ g ++ a :: Some x :: t) (S (length p + length g)) = Ok x.
Proof.
  replace (p ++ g ++ a :: Some x :: t) with ((p ++ g ++ [a]) ++ Some x :: t) by (rewrite <- !app_assoc; reflexivity).
  replace (S (length p + length g)) with (length (p ++ g ++ [a])) by (rewrite !app_length; cbn; lia). apply aget_at.
Qed.
Lemma aget_at1 A (p g : cells A) x t : aget (p ++ g ++ Some x :: t) (length p + length g) = Ok x.
Proof. rewrite app_assoc, <- app_length. apply aget_at. Qed.

Lemma filt_run oq s v : (oq = NUL \/ isquote oq = true) -> unescapes (stop_of oq) s v -> is_cstr s -> forall p g t k,
  exists g' k', k <= k' /\ length v + length g' = length g + length s /\
    filtered_loop (length s + k) (p ++ g ++ map Some s ++ t) oq (length p + length g) (length p) =
    filtered_loop k' ((p ++ map Some v) ++ g' ++ t) oq (length (p ++ map Some v) + length g') (length (p ++ map Some v)).
Proof.
  intros OQ U C.
  assert (QB : beq BSL NUL = false /\ beq BSL oq = false /\ (beq oq NUL && isquote BSL) = false).
  { repeat split; [destruct OQ as [-> | O]; [reflexivity|]|change (isquote BSL) with false; apply andb_false_r].
    apply beq_false. intros <-. discriminate. }
  destruct QB as [QB1 [QB2 QB3]].
  induction U as [|c s v NB ST U IH|s v U IH|c s v NN U IH]; intros p g t k.
  - exists g, k. cbn [map app length]. rewrite app_nil_r. repeat split; lia.
  - apply is_cstr_cons in C. destruct C as [CN C]. cbn [length map app Nat.add filtered_loop].
    rewrite aget_at1. cbn [bind]. replace (beq c NUL) with false by (symmetry; apply beq_false; exact CN).
    assert (Q : beq c oq = false /\ (beq oq NUL && isquote c) = false).
    { unfold stop_of in ST. destruct (beq_spec oq NUL) as [-> | ].
      - split; [apply beq_false; exact CN|exact ST].
      - split; [apply beq_false; intros ->; rewrite beq_refl in ST; discriminate|reflexivity]. }
    destruct Q as [Q1 Q2]. rewrite Q1. cbn [negb andb]. fold (isquote c). rewrite Q2.
    replace (beq c "\") with false by (symmetry; apply beq_false; exact NB).
    destruct (shift p g (Some c) [] (map Some s ++ t) c) as [g1 [E L]]. cbn [app] in E. rewrite E. cbn [bind].
    destruct (IH C (p ++ [Some c]) g1 t k) as [g2 [k' [K [L2 R]]]]. rewrite snoc_map in R. cbn [length] in L.
    replace (S (length p + length g)) with (length (p ++ [Some c]) + length g1) by (rewrite app_length; cbn; lia).
    replace (S (length p)) with (length (p ++ [Some c])) by (rewrite app_length; cbn; lia).
    exists g2, k'. split; [exact K|]. split; [cbn [length]; lia|exact R].
  - apply is_cstr_cons in C. destruct C as [_ C]. apply is_cstr_cons in C. destruct C as [CN C].
    cbn [length map app]. replace (S (S (length s)) + k) with (S (length s + S k)) by lia. cbn [filtered_loop].
    rewrite aget_at1. cbn [bind]. rewrite QB1, QB2. cbn [negb andb]. fold (isquote BSL). rewrite QB3. change (beq BSL "\") with true. cbv iota.
    rewrite aget_at2. cbn [bind]. change (beq "n" "n") with true. cbv iota.
    destruct (shift p g (Some BSL) [Some "n"%char] (map Some s ++ t) (ascii_of_nat 10)) as [g1 [E L]]. cbn [app] in E. rewrite E. cbn [bind].
    destruct (IH C (p ++ [Some NEWLINE]) g1 t (S k)) as [g2 [k' [K [L2 R]]]]. rewrite snoc_map in R. cbn [length] in L.
    replace (S (S (length p + length g))) with (length (p ++ [Some NEWLINE]) + length g1) by (rewrite app_length; cbn; lia).
    replace (S (length p)) with (length (p ++ [Some NEWLINE])) by (rewrite app_length; cbn; lia).
    exists g2, k'. split; [lia|]. split; [cbn [length]; lia|exact R].
  - apply is_cstr_cons in C. destruct C as [_ C]. apply is_cstr_cons in C. destruct C as [CN C].
    cbn [length map app]. replace (S (S (length s)) + k) with (S (length s + S k)) by lia. cbn [filtered_loop].
    rewrite aget_at1. cbn [bind]. rewrite QB1, QB2. cbn [negb andb]. fold (isquote BSL). rewrite QB3. change (beq BSL "\") with true. cbv iota.
    rewrite aget_at2. cbn [bind]. replace (beq c "n") with false by (symmetry; apply beq_false; exact NN).
    destruct (shift p g (Some BSL) [Some c] (map Some s ++ t) c) as [g1 [E L]]. cbn [app] in E. rewrite E. cbn [bind].
    destruct (IH C (p ++ [Some c]) g1 t (S k)) as [g2 [k' [K [L2 R]]]]. rewrite snoc_map in R. cbn [length] in L.
    replace (S (S (length p + length g))) with (length (p ++ [Some c]) + length g1) by (rewrite app_length; cbn; lia).
    replace (S (length p)) with (length (p ++ [Some c])) by (rewrite app_length; cbn; lia).
    exists g2, k'. split; [lia|]. split; [cbn [length]; lia|exact R].
Qed.

Lemma unescapes_len stop s v : unescapes stop s v -> length v <= length s.
Proof. induction 1; cbn [length]; lia. Qed.
Lemma unescapes_cstr stop s v : unescapes stop s v -> is_cstr s -> is_cstr v.
Proof.
  induction 1 as [|c s v NB ST U IH|s v U IH|c s v NN U IH]; intros C; [exact C| | |].
  - apply is_cstr_cons in C. apply is_cstr_cons. split; [apply C|apply IH, C].
  - apply is_cstr_cons in C. destruct C as [_ C]. apply is_cstr_cons in C. apply is_cstr_cons. split; [discriminate|apply IH, C].
  - apply is_cstr_cons in C. destruct C as [_ C]. apply is_cstr_cons in C. apply is_cstr_cons. split; [apply C|apply IH, C].
Qed.

(** the end of a text: the terminator, or the closing quote *)
Lemma filt_end oq p g x t k : (x = NUL \/ x = oq) -> 0 < k ->
  exists t', filtered_loop k (p ++ g ++ Some x :: t) oq (length p + length g) (length p) = Ok (p ++ Some NUL :: t', true) /\
    length t' = length g + length t.
Proof.
  intros X K. destruct k as [|k]; [lia|]. cbn [filtered_loop]. rewrite aget_at1. cbn [bind].
  replace (negb (beq x NUL) && negb (beq x oq)) with false by (symmetry; destruct X as [-> | ->]; rewrite beq_refl; cbn; [reflexivity|apply andb_false_r]).
  destruct (shift p g (Some x) [] t NUL) as [g1 [E L]]. cbn [app] in E. rewrite E. cbn [bind].
  exists (g1 ++ t). rewrite <- app_assoc. split; [reflexivity|]. rewrite app_length. cbn in L. lia.
Qed.
Lemma filt_stray p g x t k : isquote x = true -> 0 < k ->
  filtered_loop k (p ++ g ++ Some x :: t) NUL (length p + length g) (length p) = Ok (p ++ g ++ Some x :: t, false).
Proof.
  intros X K. destruct k as [|k]; [lia|]. cbn [filtered_loop]. rewrite aget_at1. cbn [bind].
  replace (beq x NUL) with false by (symmetry; apply beq_false; intros ->; discriminate). cbn [negb andb].
  fold (isquote x). rewrite X. reflexivity.
Qed.

(** filtered_copy in place *)
Lemma filtered_value p s v r : is_cstr s -> env_value s v ->
  exists t', filtered_copy (p ++ map Some s ++ Some NUL :: r) (length p) (length p) = Ok (p ++ map Some v ++ Some NUL :: t', true) /\
    length (map Some v ++ Some NUL :: t') = length (map Some s ++ Some NUL :: r) /\ is_cstr v.
Proof.
  intros C E. unfold filtered_copy. destruct E as [s v NQ U|q s v junk Q U|q s v Q U].
  - assert (H : exists x u, map Some s ++ Some NUL :: r = Some x :: u /\ isquote x = false).
    { destruct s as [|c s]; [exists NUL, r; split; reflexivity|]. exists c, (map Some s ++ Some NUL :: r). split; [reflexivity|]. eapply NQ. reflexivity. }
    destruct H as [x [u [H X]]]. assert (RD : aget (p ++ map Some s ++ Some NUL :: r) (length p) = Ok x) by (rewrite H; apply aget_at).
    rewrite RD. cbn [bind]. fold (isquote x). rewrite X.
    destruct (@filt_run NUL s v (or_introl eq_refl) U C p [] (Some NUL :: r) (S (length p + length r + 1))) as [g [k' [K [L R]]]].
    cbn [app length] in R. rewrite Nat.add_0_r in R.
    replace (S (length (p ++ map Some s ++ Some NUL :: r))) with (length s + S (length p + length r + 1))
      by (rewrite !app_length, map_length; cbn [length]; lia).
    rewrite R. destruct (@filt_end NUL (p ++ map Some v) g NUL r k') as [t' [E2 L2]]; [left; reflexivity|lia|]. rewrite E2.
    exists t'. rewrite <- app_assoc. split; [reflexivity|]. split; [|exact (unescapes_cstr U C)].
    rewrite !app_length, !map_length. cbn [length] in *. lia.
  - apply is_cstr_cons in C. destruct C as [_ C]. apply is_cstr_app in C. destruct C as [C _].
    cbn [map app]. rewrite aget_at. cbn [bind]. fold (isquote q). rewrite Q.
    rewrite <- (@stop_of_quote q Q) in U.
    destruct (@filt_run q s v (or_intror Q) U C p [Some q] (Some q :: map Some junk ++ Some NUL :: r) (S (length p + length junk + length r + 3))) as [g [k' [K [L R]]]].
    cbn [app length] in R. rewrite Nat.add_1_r in R. rewrite map_app, <- app_assoc. cbn [map app].
    replace (S (length (p ++ Some q :: map Some s ++ Some q :: map Some junk ++ Some NUL :: r))) with (length s + S (length p + length junk + length r + 3)).
    2: { rewrite app_length. cbn [length]. rewrite app_length. cbn [length]. rewrite app_length, !map_length. cbn [length]. lia. }
    rewrite R. destruct (@filt_end q (p ++ map Some v) g q (map Some junk ++ Some NUL :: r) k') as [t' [E2 L2]]; [right; reflexivity|lia|]. rewrite E2.
    exists t'. rewrite <- app_assoc. split; [reflexivity|]. split; [|exact (unescapes_cstr U C)].
    cbn [length]. rewrite !app_length, !map_length in *. cbn [length] in *. rewrite app_length, map_length in *. cbn [length] in *. lia.
  - apply is_cstr_cons in C. destruct C as [_ C].
    cbn [map app]. rewrite aget_at. cbn [bind]. fold (isquote q). rewrite Q.
    rewrite <- (@stop_of_quote q Q) in U.
    destruct (@filt_run q s v (or_intror Q) U C p [Some q] (Some NUL :: r) (S (length p + length r + 2))) as [g [k' [K [L R]]]].
    cbn [app length] in R. rewrite Nat.add_1_r in R.
    replace (S (length (p ++ Some q :: map Some s ++ Some NUL :: r))) with (length s + S (length p + length r + 2)).
    2: { rewrite app_length. cbn [length]. rewrite app_length, !map_length. cbn [length]. lia. }
    rewrite R. destruct (@filt_end q (p ++ map Some v) g NUL r k') as [t' [E2 L2]]; [left; reflexivity|lia|]. rewrite E2.
    exists t'. rewrite <- app_assoc. split; [reflexivity|]. split; [|exact (unescapes_cstr U C)].
    cbn [length]. rewrite !app_length, !map_length in *. cbn [length] in *. lia.
Qed.

Lemma filtered_stray p s r : is_cstr s -> stray_quote s ->
  exists m', filtered_copy (p ++ map Some s ++ Some NUL :: r) (length p) (length p) = Ok (m', false) /\
     length m' = length (p ++ map Some s ++ Some NUL :: r).
Proof.
  intros C [a [va [q [b [-> [NE [NQ [U Q]]]]]]]]. unfold filtered_copy. destruct a as [|c a]; [congruence|].
  assert (X : isquote c = false) by (eapply NQ; reflexivity).
  apply is_cstr_app in C. destruct C as [C _].
  cbn [map app]. rewrite aget_at. cbn [bind]. fold (isquote c). rewrite X.
  destruct (@filt_run NUL (c :: a) va (or_introl eq_refl) U C p [] (Some q :: map Some b ++ Some NUL :: r) (S (length p + length b + length r + 2))) as [g [k' [K [L R]]]].
  cbn [app map length] in R. rewrite Nat.add_0_r in R. rewrite map_app, <- app_assoc. cbn [map app].
  replace (S (length (p ++ Some c :: map Some a ++ Some q :: map Some b ++ Some NUL :: r))) with (S (length a) + S (length p + length b + length r + 2)).
  2: { rewrite app_length. cbn [length]. rewrite app_length. cbn [length]. rewrite app_length, !map_length. cbn [length]. lia. }
  rewrite R, filt_stray by (try exact Q; lia). eexists. split; [reflexivity|].
  rewrite <- !app_assoc. rewrite !app_length. cbn [length]. rewrite !app_length, !map_length. cbn [length] in *. rewrite !app_length, !map_length. cbn [length] in *. lia.
Qed.
