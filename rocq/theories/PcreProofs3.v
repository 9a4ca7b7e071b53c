(** Proofs about PcreModel.v: executing a job. *)
From Verif Require Import Prelude PreludeFacts Str StrFacts Libc LibcFacts MemSpec CompatProofs EnvProofs PcreModel PcreSpec PcreProofs PcreProofs2.
Set Implicit Arguments.

(** a finished substitute *)
Definition ready (s : substitute) (bs : blocks) (cur : list byte) : Prop :=
  compiled s (length (text s)) bs cur /\ backrefs s = length bs /\ aget (block_length s) (length bs) = Ok (length cur) /\
  is_cstr (flat bs ++ cur).

Lemma zero_compiled n : compiled (mkSub (repeat (Some NUL) (S n)) 0 (repeat (Some 0) MAX_SUBMATCHES) (repeat (Some 0) MAX_SUBMATCHES)
                    (repeat (Some 0%Z) MAX_SUBMATCHES) (repeat (Some 0%Z) (MAX_SUBMATCHES + 2))) (S n) [] [].
Proof.
  unfold compiled. cbn [text block_offset block_length backref backref_count length map app flat concat]. split; [lia|]. split; [constructor|]. split; [apply repeat_length|].
  split; [exists (repeat (Some NUL) n); split; [reflexivity|]; intros x I; apply repeat_spec in I; exact I|]. split; [reflexivity|]. split; [eexists; split; reflexivity|]. split; [reflexivity|].
  split; [|reflexivity]. intros j J. do 35 (destruct j as [|j]; [reflexivity|]). lia.
Qed.

Lemma items_cstr bs cur : Forall plain_item (items_of bs cur) -> is_cstr (flat bs ++ cur).
Proof.
  intros F I. assert (J : In (Lit NUL) (items_of bs cur)).
  { unfold items_of, flat in *. apply in_app_iff in I. apply in_app_iff. destruct I as [I|I].
    - left. apply in_concat in I. destruct I as [t [T I]]. apply in_map_iff in T. destruct T as [[t' n] [<- T]]. cbn in I.
      apply in_flat_map. exists (t', n). split; [exact T|]. apply in_app_iff. left. apply in_map, I.
    - right. apply in_map, I. }
  rewrite Forall_forall in F. apply F in J. apply J. reflexivity.
Qed.

Lemma compile_spec (s : list byte) cc l : denotes cc s l -> is_cstr s -> Forall plain_item l -> nrefs l <= 32 -> refs_ascii s ->
  exists sb bad bs cur, pcre_wrap_compile_replacement s false (Z.of_N cc) = Ok (sb, bad) /\ ready sb bs cur /\ items_of bs cur = l.
Proof.
  intros D C P R A. unfold pcre_wrap_compile_replacement.
  destruct (loop_spec D (f := S (length s)) [] (size := S (length s)) (bs := []) (cur := [])
    (st := mkR 0 false 0 0 (mkSub (repeat (Some NUL) (S (length s))) 0 (repeat (Some 0) MAX_SUBMATCHES) (repeat (Some 0) MAX_SUBMATCHES)
                    (repeat (Some 0%Z) MAX_SUBMATCHES) (repeat (Some 0%Z) (MAX_SUBMATCHES + 2))) false) C P R A) as [st' [bs [cur [E [A' I]]]]];
    [split; [apply zero_compiled|auto]|reflexivity|cbn; lia|cbn [length]; lia|lia|].
  cbn [app] in E. rewrite Nat.add_1_r. cbn [text block_offset block_length backref backref_count]. rewrite E. cbn [bind].
  destruct (start_ref A') as [off [lens [E1 [E2 [[C2 _] G]]]]]. cbn [sub] in C2. rewrite E1. cbn [bind]. rewrite E2. cbn [bind].
  destruct A' as [_ [_ [RF T]]]. cbn in I. subst l.
  eexists _, _, bs, cur. split; [reflexivity|]. split; [|reflexivity].
  assert (LT : length (text (sub st')) = S (length s)) by (destruct C2 as [_ [_ [LT _]]]; exact LT).
  unfold ready. cbn [text backrefs block_length]. rewrite LT. split; [exact C2|]. split; [exact RF|]. split; [exact G|]. apply items_cstr, P.
Qed.
Lemma trivial_spec (s : list byte) cc : is_cstr s ->
  exists sb bad, pcre_wrap_compile_replacement s true cc = Ok (sb, bad) /\ ready sb [] s.
Proof.
  intros C. unfold pcre_wrap_compile_replacement. rewrite Nat.add_1_r. cbn [text block_offset block_length backref backref_count].
  rewrite acopy_Ok by (rewrite ?repeat_length, ?length_block; lia). cbn [bind firstn app skipn].
  replace (firstn _ (block s)) with (block s) by (symmetry; apply firstn_all2; rewrite length_block; lia).
  rewrite skipn_all2 by (rewrite repeat_length; lia). rewrite app_nil_r.
  pose proof (zero_compiled (length s)) as [C1 [C2 [_ [_ [C5 [C6 [C7 C8]]]]]]]. cbn [text block_offset block_length backref backref_count] in *.
  assert (CC : compiled (mkSub (block s) 0 (repeat (Some 0) MAX_SUBMATCHES) (repeat (Some 0) MAX_SUBMATCHES)
                    (repeat (Some 0%Z) MAX_SUBMATCHES) (repeat (Some 0%Z) (MAX_SUBMATCHES + 2))) (S (length s)) [] s).
  { unfold compiled. cbn [text block_offset block_length backref backref_count]. split; [exact C1|]. split; [exact C2|]. split; [rewrite length_block; lia|].
    split; [exists []; split; [unfold block; rewrite map_app; reflexivity|intros x []]|]. auto. }
  destruct (compiled_len (length s - 0) CC) as [lens [E1 [E2 E3]]]. cbn in E1.
  eexists _, _. cbn [refnum sub block_offset]. split; [cbn; reflexivity|].
  injection E1 as <-. split; [cbn [text]; rewrite length_block; exact E2|]. split; [reflexivity|]. split; [cbn [block_length]; etransitivity; [exact E3|]; f_equal; apply Nat.sub_0_r|exact C].
Qed.

(** what the pieces look like once the substitute is ready *)
Lemma ready_text s bs cur : ready s bs cur -> mstr (text s) = Ok (flat bs ++ cur).
Proof.
  intros [[_ [_ [_ [[r [T _]] _]]]] [_ [_ C]]]. apply (proj2 (mstr_holds _ _)). split; [exact C|]. exists r. exact T.
Qed.
Lemma ready_block s bs cur i t n : ready s bs cur -> nth_error bs i = Some (t, n) ->
  aget (block_offset s) i = Ok (length (flat (firstn i bs))) /\ aget (block_length s) i = Ok (length t) /\ aget (backref s) i = Ok (Z.of_N n) /\ (n <= 32)%N /\
  firstn (length t) (skipn (length (flat (firstn i bs))) (text s)) = map Some t /\ length (flat (firstn i bs)) + length t <= length (text s).
Proof.
  intros [[C1 [C2 [_ [[r [T _]] [C5 [[rl [C6 _]] [C7 _]]]]]]] _] E.
  assert (L : i < length bs) by (apply nth_error_Some; congruence).
  split; [rewrite C5; apply aget_nth; rewrite nth_error_app1 by (rewrite map_length, offsets_length; lia); rewrite nth_error_map, offsets_nth by lia; reflexivity|].
  split; [rewrite C6; apply aget_nth; rewrite nth_error_app1 by (rewrite map_length; lia); rewrite nth_error_map, E; reflexivity|].
  split; [rewrite C7; apply aget_nth; rewrite nth_error_app1 by (rewrite map_length; lia); rewrite nth_error_map, E; reflexivity|].
  split; [rewrite Forall_forall in C2; apply (C2 (t, n)); apply nth_error_In in E; exact E|].
  assert (F : flat bs = flat (firstn i bs) ++ t ++ flat (skipn (S i) bs)).
  { apply nth_error_split in E. destruct E as [l1 [l2 [-> L1]]]. subst i.
    rewrite firstn_app_le, firstn_all, skipn_app_ge by lia. replace (S (length l1) - length l1) with 1 by lia. cbn [skipn].
    unfold flat. rewrite map_app, concat_app. reflexivity. }
  rewrite T, F. split.
  - rewrite !map_app, <- !app_assoc. rewrite skipn_app_ge by (rewrite map_length; lia). rewrite map_length, Nat.sub_diag. cbn [skipn].
    rewrite firstn_app_le, firstn_all2 by (rewrite map_length; lia). reflexivity.
  - rewrite app_length, map_length, !app_length. lia.
Qed.
Lemma ready_last s bs cur : ready s bs cur ->
  aget (block_offset s) (length bs) = Ok (length (flat bs)) /\ aget (block_length s) (length bs) = Ok (length cur) /\
  firstn (length cur) (skipn (length (flat bs)) (text s)) = map Some cur /\ length (flat bs) + length cur <= length (text s).
Proof.
  intros [C [_ [L _]]]. split; [apply (compiled_offset C)|]. split; [exact L|]. destruct C as [_ [_ [_ [[r [T _]] _]]]]. rewrite T. split.
  - rewrite map_app, <- app_assoc. rewrite skipn_app_ge by (rewrite map_length; lia). rewrite map_length, Nat.sub_diag. cbn [skipn].
    rewrite firstn_app_le, firstn_all2 by (rewrite map_length; lia). reflexivity.
  - rewrite app_length, map_length, app_length. lia.
Qed.
Lemma ready_count s bs cur j : ready s bs cur -> j < 35 -> aget (backref_count s) j = Ok (Z.of_nat (occurrences j bs)).
Proof. intros [[_ [_ [_ [_ [_ [_ [_ [C _]]]]]]]] _]. apply C. Qed.
Lemma ready_none s bs cur j : ready s bs cur -> 32 < j -> occurrences j bs = 0.
Proof.
  intros [[_ [C _]] _] J. unfold occurrences. replace (filter _ bs) with (@nil (list byte * N)); [reflexivity|]. symmetry.
  induction C as [|[t n] bs' H _ IH]; [reflexivity|]. cbn [filter snd] in *. replace (n =? N.of_nat j)%N with false by lia. exact IH.
Qed.

Lemma usz_small z : (0 <= z < SIZE_MOD)%Z -> usz z = z.
Proof. intros B. apply Z.mod_small, B. Qed.
Lemma usz_add_l a b : usz (usz a + b) = usz (a + b).
Proof. apply Zplus_mod_idemp_l. Qed.

Section Exec.
  Variable subject : list byte.
  Hypothesis SML : (Z.of_nat (length subject) < SIZE_MOD)%Z.
  Notation len := (length subject).

  Definition pair_text (p : Z * Z) : list byte := match pair_of p with Some (a, b) => slice subject a b | None => [] end.
  Lemma slice_length a b : a <= b -> b <= len -> length (slice subject a b) = b - a.
  Proof. intros. unfold slice. rewrite firstn_length, skipn_length. lia. Qed.
  Lemma pair_length p : pair_ok len p -> m_length p = Z.of_nat (length (pair_text p)).
  Proof.
    intros [-> | [B1 B2]]; [reflexivity|]. unfold m_length, pair_text, pair_of. replace (fst p <? 0)%Z with false by lia.
    rewrite slice_length by lia. rewrite usz_small by (split; lia). lia.
  Qed.
  Lemma group_text m n : group subject (groups_of m) n = match nth_error m (N.to_nat n) with Some p => pair_text p | None => [] end.
  Proof. unfold group, groups_of, pair_text. rewrite nth_error_map. destruct (nth_error m (N.to_nat n)) as [p|]; [|reflexivity]. cbn. destruct (pair_of p) as [[a b]|]; reflexivity. Qed.

  (** the size of the references in a substitute, block by block and group by group *)
  Definition refs_size (m : groups) (bs : blocks) : Z := fold_right (fun b z => Z.of_nat (length (group subject m (snd b))) + z)%Z 0%Z bs.
  Fixpoint by_group (i : nat) (m : list (Z * Z)) (bs : blocks) : Z :=
    match m with [] => 0%Z | p :: r => (Z.of_nat (length (pair_text p)) * Z.of_nat (occurrences i bs) + by_group (S i) r bs)%Z end.
  Lemma by_group_nil i m : by_group i m [] = 0%Z.
  Proof. revert i. induction m as [|p m IH]; intros i; cbn [by_group]; [reflexivity|]. rewrite IH. cbn. lia. Qed.
  Lemma by_group_cons i m t n bs : by_group i m ((t, n) :: bs) =
    (by_group i m bs + Z.of_nat (length (match nth_error m (N.to_nat n - i)%nat with Some p => if (i <=? N.to_nat n)%nat then pair_text p else [] | None => [] end)))%Z.
  Proof.
    revert i. induction m as [|p m IH]; intros i; cbn [by_group].
    - destruct (N.to_nat n - i); reflexivity.
    - rewrite IH. unfold occurrences. cbn [filter snd]. destruct (N.eqb_spec n (N.of_nat i)) as [E|E].
      + subst n. rewrite Nat2N.id. replace (i - i) with 0 by lia. replace (i - S i) with 0 by lia. cbn [nth_error].
        replace (S i <=? i) with false by lia. replace (i <=? i) with true by lia. cbn [length].
        destruct m; cbn [length]; lia.
      + destruct (Nat.le_gt_cases i (N.to_nat n)) as [L|L].
        * replace (N.to_nat n - i) with (S (N.to_nat n - S i)) by lia. cbn [nth_error].
          replace (S i <=? N.to_nat n) with true by lia. replace (i <=? N.to_nat n) with true by lia. lia.
        * replace (S i <=? N.to_nat n) with false by lia. replace (i <=? N.to_nat n) with false by lia.
          assert (Z0 : forall (o : option (Z * Z)), length (match o with Some _ => @nil byte | None => [] end) = 0) by (intros []; reflexivity).
          rewrite !Z0. lia.
  Qed.
  Lemma by_group_refs m bs : by_group 0 m bs = refs_size (groups_of m) bs.
  Proof.
    induction bs as [|[t n] bs IH]; [apply by_group_nil|]. rewrite by_group_cons, IH. cbn [refs_size fold_right snd]. rewrite group_text, Nat.sub_0_r.
    fold (refs_size (groups_of m) bs). destruct (nth_error m (N.to_nat n)); cbn [Nat.leb]; lia.
  Qed.
  Lemma sizes_spec s bs cur : ready s bs cur -> forall m i z, Forall (pair_ok len) m -> i + length m <= 35 ->
    exists z', submatch_sizes m i (backref_count s) (usz z) = Ok (usz z') /\ z' = (z + by_group i m bs)%Z.
  Proof.
    intros R. induction m as [|p m IH]; intros i z F L; cbn [submatch_sizes by_group length] in *.
    - exists z. split; [reflexivity|lia].
    - inversion F as [|? ? P F']; subst. rewrite (ready_count R) by lia. cbn [bind]. rewrite usz_add_l, (pair_length P).
      destruct (IH (S i) (z + Z.of_nat (length (pair_text p)) * Z.of_nat (occurrences i bs))%Z F') as [z' [E1 E2]]; [lia|].
      exists z'. split; [exact E1|lia].
  Qed.

  Lemma expand_items bs cur m : expand subject (items_of bs cur) m = flat_map (fun b => fst b ++ group subject m (snd b)) bs ++ cur.
  Proof.
    unfold expand, items_of. rewrite flat_map_app. f_equal.
    - induction bs as [|[t n] bs IH]; [reflexivity|]. cbn [flat_map fst snd]. rewrite flat_map_app, IH, flat_map_app. f_equal. cbn [flat_map]. rewrite app_nil_r. f_equal.
      induction t as [|c t IHt]; [reflexivity|]. cbn. f_equal. exact IHt.
    - induction cur as [|c cur IHt]; [reflexivity|]. cbn. f_equal. exact IHt.
  Qed.
  Lemma expand_length bs cur m : Z.of_nat (length (expand subject (items_of bs cur) m)) = (Z.of_nat (length (flat bs ++ cur)) + refs_size m bs)%Z.
  Proof.
    rewrite expand_items, !app_length.
    assert (E : Z.of_nat (length (flat_map (fun b => fst b ++ group subject m (snd b)) bs)) = (Z.of_nat (length (flat bs)) + refs_size m bs)%Z).
    { induction bs as [|[t n] bs IH]; [reflexivity|]. unfold flat in *. cbn [flat_map map concat fst snd refs_size fold_right]. rewrite !app_length. fold (refs_size m bs). lia. }
    lia.
  Qed.
End Exec.
