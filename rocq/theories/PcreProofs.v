(** Proofs about PcreModel.v: compiling the substitute. *)
From Verif Require Import Prelude PreludeFacts Str StrFacts Libc LibcFacts CompatProofs EnvProofs PcreModel PcreSpec.
Set Implicit Arguments.

(** what has been compiled so far: finished blocks, each followed by a reference, and the
    current block *)
Definition blocks := list (list byte * N).
Definition flat (bs : blocks) : list byte := concat (map fst bs).
Fixpoint offsets (k : nat) (bs : blocks) : list nat :=
  match bs with [] => [k] | (t, _) :: r => k :: offsets (k + length t) r end.
Definition occurrences (j : nat) (bs : blocks) : nat := length (filter (fun b => (snd b =? N.of_nat j)%N) bs).

Definition compiled (s : substitute) (size : nat) (bs : blocks) (cur : list byte) : Prop :=
  length bs <= 32 /\ Forall (fun b => (snd b <= 32)%N) bs /\
  length (text s) = size /\ (exists r, text s = map Some (flat bs ++ cur) ++ Some NUL :: r /\ (forall x, In x r -> x = Some NUL)) /\
  block_offset s = map Some (offsets 0 bs) ++ repeat (Some 0) (32 - length bs) /\
  (exists r, block_length s = map (fun b => Some (length (fst b))) bs ++ r /\ length (block_length s) = 33) /\
  backref s = map (fun b => Some (Z.of_N (snd b))) bs ++ repeat (Some 0%Z) (33 - length bs) /\
  (forall j, j < 35 -> aget (backref_count s) j = Ok (Z.of_nat (occurrences j bs))) /\ length (backref_count s) = 35.

Lemma offsets_length k bs : length (offsets k bs) = S (length bs).
Proof. revert k. induction bs as [|[t n] bs IH]; intros k; cbn; [reflexivity|]. rewrite IH. reflexivity. Qed.
Lemma offsets_snoc k bs t n : offsets k (bs ++ [(t, n)]) = offsets k bs ++ [k + length (flat bs) + length t].
Proof.
  revert k. induction bs as [|[u m] bs IH]; intros k; cbn [app offsets flat map concat fst length]; [rewrite Nat.add_0_r; reflexivity|].
  rewrite IH. cbn [app]. do 2 f_equal. unfold flat. cbn [map concat fst]. rewrite app_length. f_equal. lia.
Qed.
Lemma flat_snoc bs t n : flat (bs ++ [(t, n)]) = flat bs ++ t.
Proof. unfold flat. rewrite map_app, concat_app. cbn. rewrite app_nil_r. reflexivity. Qed.
Lemma offsets_nth k bs i : i <= length bs -> nth_error (offsets k bs) i = Some (k + length (flat (firstn i bs))).
Proof.
  revert k i. induction bs as [|[t n] bs IH]; intros k [|i] L; cbn in L; try lia; cbn [offsets nth_error firstn]; try (cbn; rewrite Nat.add_0_r; reflexivity).
  rewrite IH by lia. unfold flat. cbn. rewrite app_length. f_equal. lia.
Qed.
Lemma occurrences_snoc j bs t n : occurrences j (bs ++ [(t, n)]) = occurrences j bs + if (n =? N.of_nat j)%N then 1 else 0.
Proof. unfold occurrences. rewrite filter_app, app_length. cbn. destruct (n =? N.of_nat j)%N; reflexivity. Qed.

Lemma aget_nth A (l : cells A) i x : nth_error l i = Some (Some x) -> aget l i = Ok x.
Proof. unfold aget. intros ->. reflexivity. Qed.

Lemma compiled_offset s size bs cur : compiled s size bs cur -> aget (block_offset s) (length bs) = Ok (length (flat bs)).
Proof.
  intros [_ [_ [_ [_ [E _]]]]]. rewrite E. apply aget_nth. rewrite nth_error_app1 by (rewrite map_length, offsets_length; lia).
  rewrite nth_error_map, offsets_nth by lia. cbn. rewrite firstn_all. reflexivity.
Qed.

Lemma compiled_put s size bs cur c : compiled s size bs cur -> S (length (flat bs ++ cur)) < size ->
  exists t, aset (text s) (length (flat bs ++ cur)) c = Ok t /\
    compiled (mkSub t (backrefs s) (block_offset s) (block_length s) (backref s) (backref_count s)) size bs (cur ++ [c]).
Proof.
  intros [C1 [C2 [C3 [[r [C4 CR]] [C5 [C6 [C7 C8]]]]]]] L.
  assert (R : exists r', r = Some NUL :: r').
  { destruct r as [|y r']; [|exists r'; f_equal; apply CR; left; reflexivity]. rewrite C4, app_length, map_length in C3. cbn in C3. lia. }
  destruct R as [r' ->]. rewrite C4. rewrite <- (map_length (@Some byte)), aset_at.
  eexists. split; [reflexivity|]. unfold compiled. cbn [text block_offset block_length backref backref_count].
  repeat (split; [assumption|]). split; [rewrite <- C3, C4, !app_length; cbn [length]; rewrite !map_length, !app_length; lia|]. split; [exists r'; split; [rewrite app_assoc, (map_app _ (flat bs ++ cur)), <- app_assoc; reflexivity|]; intros x I; apply CR; right; exact I|].
  repeat (split; [assumption|]). assumption.
Qed.

(** block_length[refnum] is set more often than needed *)
Lemma compiled_len s size bs cur x : compiled s size bs cur ->
  exists lens, aset (block_length s) (length bs) x = Ok lens /\
    compiled (mkSub (text s) (backrefs s) (block_offset s) lens (backref s) (backref_count s)) size bs cur /\
    aget lens (length bs) = Ok x.
Proof.
  intros [C1 [C2 [C3 [C4 [C5 [[r [C6 CL]] [C7 C8]]]]]]].
  assert (R : exists y r', r = y :: r').
  { destruct r as [|y r']; [|eauto]. rewrite C6, app_nil_r, map_length in CL. lia. }
  destruct R as [y [r' ->]].
  assert (ML : length bs = length (map (fun b : list byte * N => Some (length (fst b))) bs)) by (rewrite map_length; reflexivity).
  assert (A : aset (block_length s) (length bs) x = Ok (map (fun b : list byte * N => Some (length (fst b))) bs ++ Some x :: r')).
  { rewrite C6. rewrite <- (map_length (fun b : list byte * N => Some (length (fst b))) bs). apply aset_at. }
  eexists. split; [exact A|]. split.
  - unfold compiled. cbn [text block_offset block_length backref backref_count]. repeat (split; [assumption|]). split; [|repeat (split; [assumption|]); assumption].
    eexists. split; [reflexivity|]. rewrite <- CL, C6, !app_length. reflexivity.
  - rewrite ML. apply aget_at.
Qed.

Lemma repeat_cons_S A (x : A) n : 0 < n -> repeat x n = x :: repeat x (n - 1).
Proof. destruct n; [lia|]. intros _. cbn. rewrite Nat.sub_0_r. reflexivity. Qed.

(** a reference ends the current block *)
Lemma compiled_ref s size bs cur v : compiled s size bs cur -> length bs < 32 -> (v <= 32)%N ->
  aget (block_length s) (length bs) = Ok (length cur) ->
  exists refs n counts offs, aset (backref s) (length bs) (Z.of_N v) = Ok refs /\ aget (backref_count s) (N.to_nat v) = Ok n /\
    aset (backref_count s) (N.to_nat v) (n + 1)%Z = Ok counts /\
    aset (block_offset s) (S (length bs)) (length (flat bs ++ cur)) = Ok offs /\
    compiled (mkSub (text s) (backrefs s) offs (block_length s) refs counts) size (bs ++ [(cur, v)]) [].
Proof.
  intros [C1 [C2 [C3 [[r [C4 CR]] [C5 [[rl [C6 CL]] [C7 [C8 C9]]]]]]]] L V G.
  assert (E1 : aset (backref s) (length bs) (Z.of_N v) = Ok (map (fun b => Some (Z.of_N (snd b))) (bs ++ [(cur, v)]) ++ repeat (Some 0%Z) (33 - S (length bs)))).
  { rewrite C7, (@repeat_cons_S _ _ (33 - length bs)) by lia.
    assert (ML : length bs = length (map (fun b : list byte * N => Some (Z.of_N (snd b))) bs)) by (rewrite map_length; reflexivity).
    etransitivity; [apply (f_equal (fun k => aset _ k _) ML)|]. rewrite aset_at. f_equal. rewrite map_app, <- app_assoc. cbn [map app snd]. do 3 f_equal. lia. }
  assert (E4 : aset (block_offset s) (S (length bs)) (length (flat bs ++ cur)) = Ok (map Some (offsets 0 (bs ++ [(cur, v)])) ++ repeat (Some 0) (32 - S (length bs)))).
  { rewrite C5, (@repeat_cons_S _ _ (32 - length bs)) by lia.
    assert (ML : S (length bs) = length (map (@Some nat) (offsets 0 bs))) by (rewrite map_length, offsets_length; reflexivity).
    etransitivity; [apply (f_equal (fun k => aset _ k _) ML)|]. rewrite aset_at. f_equal. rewrite offsets_snoc, map_app, <- app_assoc. cbn [map app]. rewrite app_length, Nat.add_0_l. do 3 f_equal. lia. }
  assert (E2 : aget (backref_count s) (N.to_nat v) = Ok (Z.of_nat (occurrences (N.to_nat v) bs))) by (apply C8; lia).
  eexists _, _, _, _. split; [exact E1|]. split; [exact E2|]. split; [apply aset_Ok; lia|]. split; [exact E4|].
  unfold compiled. cbn [text block_offset block_length backref backref_count]. rewrite !app_length. cbn [length].
  split; [lia|]. split; [apply Forall_app; split; [exact C2|repeat constructor; exact V]|]. split; [exact C3|].
  split; [exists r; split; [rewrite flat_snoc, app_nil_r; exact C4|exact CR]|].
  replace (length bs + 1) with (S (length bs)) by lia. split; [reflexivity|]. split.
  - assert (R : exists y r', rl = y :: r') by (destruct rl as [|y r']; [rewrite C6, app_nil_r, map_length in CL; lia|eauto]).
    destruct R as [y [r' ->]]. rewrite C6 in G.
    assert (ML : length bs = length (map (fun b : list byte * N => Some (length (fst b))) bs)) by (rewrite map_length; reflexivity).
    exists r'. split; [|exact CL]. rewrite map_app, <- app_assoc. cbn [map app fst]. rewrite C6. do 2 f_equal.
    unfold aget in G. rewrite ML, nth_error_app2, Nat.sub_diag in G by lia. cbn in G. destruct y; congruence.
  - split; [reflexivity|]. split; [|rewrite length_upd; exact C9]. intros j J. rewrite occurrences_snoc.
    destruct (N.eqb_spec v (N.of_nat j)) as [E|E].
    + subst v. rewrite Nat2N.id in *. unfold aget. rewrite upd_nth_error, Nat.eqb_refl. replace (j <? length (backref_count s)) with true by lia. cbn. f_equal. lia.
    + unfold aget. rewrite upd_nth_error. replace (N.to_nat v =? j) with false by lia. cbn [andb]. fold (aget (backref_count s) j). rewrite C8 by exact J. f_equal. lia.
Qed.
