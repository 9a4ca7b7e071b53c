(** Proofs about the string editing functions (part 1: copying and appending). *)
From Verif Require Import Prelude PreludeFacts Str StrFacts Libc LibcFacts MemSpec CmpModel EditModel EditSpec.
Set Implicit Arguments.

(** * buffers with a known beginning *)
Lemma split_at (m : cells byte) (s : list byte) : holds m s ->
  exists r, m = map Some s ++ Some NUL :: r.
Proof. intros [_ H]. exact H. Qed.

Lemma put_holds m x : is_cstr x -> holds (put m x) x.
Proof. intros C. split; [exact C|]. eexists; reflexivity. Qed.
Lemma put_length m x : length x < length m -> length (put m x) = length m.
Proof. intros H. unfold put. rewrite app_length, map_length. cbn [length]. rewrite skipn_length. lia. Qed.
Lemma put_same_from m x n : length x < n -> length x < length m -> same_from n m (put m x).
Proof.
  intros H L. split; [apply put_length; exact L|]. unfold put.
  rewrite skipn_app, map_length, skipn_all2 by (rewrite map_length; lia). cbn [app].
  replace (n - length x) with (S (n - S (length x))) by lia. cbn [skipn]. rewrite skipn_skipn. f_equal. lia.
Qed.
Lemma put_of m (x : list byte) r : m = map Some x ++ Some NUL :: r -> put m x = m.
Proof.
  intros ->. unfold put. rewrite skipn_app, map_length, skipn_all2 by (rewrite map_length; lia).
  replace (S (length x) - length x) with 1 by lia. reflexivity.
Qed.
(** whatever the first cells were, a buffer that starts with x, a terminator and the
    old rest is [put m x] *)
Lemma put_eq m (x : list byte) r : r = skipn (S (length x)) m -> map Some x ++ Some NUL :: r = put m x.
Proof. intros ->. reflexivity. Qed.

Lemma write_at (a : list byte) (r : cells byte) i c : i = length a -> 0 < length r ->
  aset (map Some a ++ r) i c = Ok (map Some (a ++ [c]) ++ skipn 1 r).
Proof. intros -> L. destruct r as [|x r]; [cbn in L; lia|]. rewrite aset_rep_end. reflexivity. Qed.

Lemma write_end (a : list byte) (r : cells byte) i : i = length a -> 0 < length r ->
  aset (map Some a ++ r) i NUL = Ok (map Some a ++ Some NUL :: skipn 1 r).
Proof. intros H L. rewrite write_at by auto. rewrite map_app, <- app_assoc. reflexivity. Qed.

Lemma firstn_block s n : n <= length s -> firstn n (block s) = map Some (firstn n s).
Proof.
  intros H. rewrite block_eq, firstn_app_le by (rewrite map_length; lia). symmetry. apply firstn_map || rewrite firstn_map; reflexivity.
Qed.

Lemma copy_at (a s : list byte) (r : cells byte) i n : i = length a -> n <= length r -> n <= length s ->
  acopy (map Some a ++ r) i (block s) 0 n = Ok (map Some (a ++ firstn n s) ++ skipn n r).
Proof.
  intros -> L1 L2. rewrite acopy_Ok; [|rewrite app_length, map_length; lia|rewrite length_block; lia].
  cbn [skipn]. rewrite firstn_block by lia.
  rewrite firstn_app_le, (firstn_all2 (map Some a)) by (rewrite map_length; lia).
  rewrite skipn_app_ge, map_length by (rewrite map_length; lia).
  rewrite map_app, <- app_assoc. replace (length a + n - length a) with n by lia. reflexivity.
Qed.

(** ** copying the terminator too *)
Lemma copy_str_at (a s : list byte) (r : cells byte) i : i = length a -> length s < length r ->
  acopy (map Some a ++ r) i (block s) 0 (S (length s)) = Ok (map Some (a ++ s) ++ Some NUL :: skipn (S (length s)) r).
Proof.
  intros -> L1. rewrite acopy_Ok; [|rewrite app_length, map_length; lia|rewrite length_block; lia].
  cbn [skipn]. rewrite <- length_block, firstn_all. rewrite block_eq.
  rewrite firstn_app_le, (firstn_all2 (map Some a)) by (rewrite map_length; lia).
  rewrite skipn_app_ge, map_length by (rewrite map_length; lia).
  rewrite app_length, map_length. cbn [length]. rewrite map_app, <- !app_assoc. cbn [app].
  replace (length a + (length s + 1) - length a) with (length s + 1) by lia. rewrite (Nat.add_1_r (length s)). reflexivity.
Qed.

Lemma skipn1_skipn A (l : list A) n : skipn 1 (skipn n l) = skipn (S n) l.
Proof. rewrite skipn_skipn. reflexivity. Qed.

Lemma is_cstr_firstn n s : is_cstr s -> is_cstr (firstn n s).
Proof. intros C I. apply C. rewrite <- (firstn_skipn n s). apply in_or_app. auto. Qed.

(** * StringCopy *)
Lemma StringCopy_spec from m n : is_cstr from -> 0 < n <= length m ->
  exists m', StringCopy from m n = Ok (m', if length from <? n then length from else n) /\
    holds m' (firstn (n - 1) from) /\ same_from n m m'.
Proof.
  intros C [P L]. unfold StringCopy, mset. apply Nat.leb_le in L as Lb. rewrite Lb. cbn [bind].
  unfold mstrncpy. rewrite app_length, repeat_length, skipn_length.
  replace (n <=? n + (length m - n)) with true by (symmetry; apply Nat.leb_le; lia). cbn [bind].
  rewrite (skipn_app_ge (repeat (Some NUL) n)) by (rewrite repeat_length; lia).
  rewrite repeat_length, Nat.sub_diag. cbn [skipn].
  destruct n as [|k]; [lia|]. replace (S k - 1) with k by lia.
  destruct (Nat.ltb_spec (length from) (S k)) as [F|G].
  - (* fits *)
    rewrite firstn_all2 by lia.
    set (m1 := map Some from ++ repeat (Some NUL) (S k - length from) ++ skipn (S k) m).
    assert (H1 : holds m1 from).
    { split; [exact C|]. exists (repeat (Some NUL) (k - length from) ++ skipn (S k) m). unfold m1.
      replace (S k - length from) with (S (k - length from)) by lia. reflexivity. }
    assert (E : aget m1 k = Ok NUL).
    { unfold aget, m1. rewrite nth_error_app2 by (rewrite map_length; lia). rewrite map_length.
      rewrite nth_error_app1 by (rewrite repeat_length; lia).
      rewrite nth_error_repeat by lia. reflexivity. }
    rewrite E. cbn [bind]. rewrite beq_refl. cbn [negb].
    apply mstr_holds in H1 as H1'. rewrite H1'. cbn [bind]. exists m1. split; [reflexivity|].
    rewrite firstn_all2 by lia. split; [exact H1|]. split.
    + unfold m1. rewrite !app_length, map_length, repeat_length, skipn_length. lia.
    + unfold m1. rewrite skipn_app_ge by (rewrite map_length; lia). rewrite map_length, skipn_app_ge by (rewrite repeat_length; lia).
      rewrite repeat_length. replace (S k - length from - (S k - length from)) with 0 by lia. reflexivity.
  - replace (S k - length from) with 0 by lia. cbn [repeat app].
    rewrite (@firstn_S_nth _ from k NUL) by lia.
    set (fk := firstn k from). assert (Lk : length fk = k) by (unfold fk; rewrite firstn_length; lia).
    rewrite map_app, <- app_assoc. cbn [map app].
    assert (E : aget (map Some fk ++ Some (nth k from NUL) :: skipn (S k) m) k = Ok (nth k from NUL)).
    { unfold aget. rewrite nth_error_app2 by (rewrite map_length; lia). rewrite map_length, Lk, Nat.sub_diag. reflexivity. }
    rewrite E. cbn [bind].
    assert (X : beq (nth k from NUL) NUL = false) by (apply beq_false; apply nth_cstr; auto; lia).
    rewrite X. cbn [negb]. rewrite write_end by (cbn; lia). cbn [bind skipn].
    eexists; split; [reflexivity|]. split.
    + split; [apply is_cstr_firstn, C|]. eexists; reflexivity.
    + split.
      * rewrite app_length, map_length. cbn [length]. rewrite skipn_length. lia.
      * rewrite skipn_app_ge by (rewrite map_length; lia). rewrite map_length, Lk. replace (S k - k) with 1 by lia. reflexivity.
Qed.

(** * in-place mapping *)
Lemma map_loop_spec f fuel : forall a s r, length s < fuel -> is_cstr s ->
  map_loop f fuel (length a) (map Some a ++ map Some s ++ Some NUL :: r)
    = Ok (map Some (a ++ map f s) ++ Some NUL :: r).
Proof.
  induction fuel as [|g IH]; intros a s r L C; [lia|]. cbn [map_loop]. destruct s as [|c s].
  - cbn [map app]. assert (E : aget (map Some a ++ Some NUL :: r) (length a) = Ok NUL).
    { unfold aget. rewrite nth_error_app2 by (rewrite map_length; lia). rewrite map_length, Nat.sub_diag. reflexivity. }
    rewrite E. cbn [bind]. rewrite beq_refl, app_nil_r. reflexivity.
  - cbn [map app]. assert (E : aget (map Some a ++ Some c :: map Some s ++ Some NUL :: r) (length a) = Ok c).
    { unfold aget. rewrite nth_error_app2 by (rewrite map_length; lia). rewrite map_length, Nat.sub_diag. reflexivity. }
    rewrite E. cbn [bind]. apply is_cstr_cons in C as [N C]. apply beq_false in N. rewrite N.
    rewrite write_at by (cbn; lia). cbn [bind skipn].
    specialize (IH (a ++ [f c]) s r). rewrite app_length in IH. cbn [length] in IH, L. rewrite Nat.add_1_r in IH.
    rewrite IH by (auto; lia). rewrite <- app_assoc. reflexivity.
Qed.

Lemma map_loop_whole f m s : holds m s -> map_loop f (S (length m)) 0 m = Ok (put m (map f s)).
Proof.
  intros H. pose proof (holds_length H). destruct H as [C [r ->]].
  pose proof (@map_loop_spec f (S (length (map Some s ++ Some NUL :: r))) [] s r ltac:(lia) C) as X.
  cbn [app map length] in X. etransitivity; [exact X|]. f_equal.
  unfold put. rewrite map_length, skipn_app, map_length, skipn_all2 by (rewrite map_length; lia).
  replace (S (length s) - length s) with 1 by lia. reflexivity.
Qed.

(** * StringCanonify *)
Definition canon (c : byte) : byte := if isalnum c then c else "_"%char.
Lemma canonify_loop_spec fuel : forall a r b, length b < fuel -> is_cstr b -> length b < length r ->
  forall src, src = a ++ b ->
  canonify_loop fuel (length a) (map Some (map canon a) ++ r) src
    = Ok (map Some (map canon (a ++ b)) ++ Some NUL :: skipn (S (length b)) r, length (a ++ b)).
Proof.
  induction fuel as [|g IH]; intros a r b L C R src E; [lia|]. cbn [canonify_loop]. destruct b as [|c b].
  - subst src. rewrite chr_app_end. cbn [bind]. rewrite beq_refl.
    rewrite write_end by (rewrite ?map_length; cbn in *; lia). cbn [bind length]. rewrite app_nil_r. reflexivity.
  - rewrite E at 1. rewrite chr_app_mid. cbn [bind]. apply is_cstr_cons in C as [N C]. apply beq_false in N. rewrite N.
    rewrite write_at by (rewrite ?map_length; cbn in *; lia). cbn [bind].
    specialize (IH (a ++ [c]) (skipn 1 r) b). rewrite app_length in IH. cbn [length] in IH, L, R. rewrite Nat.add_1_r in IH.
    rewrite map_app in IH. cbn [map] in IH. unfold canon at 2 in IH. rewrite skipn_length in IH.
    assert (E' : src = (a ++ [c]) ++ b) by (rewrite E, <- app_assoc; reflexivity).
    specialize (IH ltac:(lia) C ltac:(lia) src E'). rewrite skipn_skipn, <- app_assoc, Nat.add_1_r in IH. cbn [app] in IH.
    exact IH.
Qed.
Lemma StringCanonify_spec m src : is_cstr src -> length src < length m ->
  StringCanonify m src = Ok (put m (map canon src), length src).
Proof.
  intros C L. unfold StringCanonify.
  etransitivity; [exact (@canonify_loop_spec (S (length src)) [] m src ltac:(lia) C L src eq_refl)|]. cbn [app].
  unfold put. rewrite map_length. reflexivity.
Qed.

(** * SearchAndReplace *)
Lemma sar_loop_spec fuel : forall src find rep out, find <> [] -> length src < fuel ->
  exists r, sar_loop fuel src find rep out = Ok (out ++ r) /\ replaced find rep src r.
Proof.
  induction fuel as [|g IH]; intros src find rep out N L; [lia|]. cbn [sar_loop].
  destruct (strstr src find) as [i|] eqn:E.
  - apply strstr_Some in E. pose proof E as [[a [b [Es La]]] _].
    destruct (IH (skipn (i + length find) src) find rep (out ++ firstn i src ++ rep) N) as [r [Er Hr]].
    + rewrite skipn_length. destruct find; [congruence|]. rewrite Es in L |- *. rewrite !app_length in *. cbn [length] in *. lia.
    + exists (firstn i src ++ rep ++ r). split; [rewrite Er, !app_assoc; reflexivity|]. eapply rep_next; eauto.
  - exists src. split; [reflexivity|]. apply rep_none, strstr_None, E.
Qed.

Lemma first_occurrence_unique f s i j : first_occurrence f s i -> first_occurrence f s j -> i = j.
Proof. intros [O1 M1] [O2 M2]. apply Nat.le_antisymm; auto. Qed.

Lemma replaced_unique find rep s r1 : replaced find rep s r1 -> forall r2, replaced find rep s r2 -> r1 = r2.
Proof.
  induction 1 as [s A|s i out F R IH]; intros r2 H2; inversion H2; subst.
  - reflexivity.
  - destruct H as [O _]. destruct (A _ O).
  - destruct F as [O _]. destruct (H _ O).
  - assert (i0 = i) by (eapply first_occurrence_unique; eauto). subst i0. f_equal. f_equal. apply IH. assumption.
Qed.

(** * StringConcatenate *)
Definition orempty (a : option (list byte)) : list byte := match a with Some s => s | None => [] end.
Lemma strcat_all_spec args : forall d r, is_cstr d -> Forall (fun a => is_cstr (orempty a)) args ->
  length (concat (map orempty args)) <= length r ->
  exists r', strcat_all (map Some d ++ Some NUL :: r) args
    = Ok (map Some (d ++ concat (map orempty args)) ++ Some NUL :: r') /\
    r' = skipn (length (concat (map orempty args))) r.
Proof.
  induction args as [|[s|] args IH]; intros d r C F L; cbn [strcat_all map orempty concat] in *.
  - exists r. rewrite app_nil_r. auto.
  - rewrite (proj2 (mstr_holds (map Some d ++ Some NUL :: r) d)) by (split; [exact C|eexists; reflexivity]).
    cbn [bind]. rewrite app_length in L. inversion F as [|? ? C1 F']; subst. cbn [orempty] in C1.
    rewrite copy_str_at by (cbn; lia). cbn [bind skipn].
    destruct (IH (d ++ s) (skipn (length s) r)) as [r' [E ->]].
    + apply is_cstr_app. auto.
    + exact F'.
    + rewrite skipn_length. lia.
    + rewrite E. eexists. split; [rewrite <- app_assoc; reflexivity|]. rewrite skipn_skipn, app_length. f_equal. lia.
  - inversion F; subst. apply IH; auto.
Qed.

Lemma total_len args n : fold_left (fun n a => n + match a with Some s => length s | None => 0 end) args n
  = n + length (concat (map orempty args)).
Proof.
  revert n; induction args as [|a args IH]; intros n; cbn; [lia|]. rewrite IH, app_length. destruct a; cbn; lia.
Qed.

Lemma StringConcatenate_spec count args : 0 < count -> Forall (fun a => is_cstr (orempty a)) (firstn count args) ->
  StringConcatenate count args = Ok (Some (block (concat (map orempty (firstn count args))))).
Proof.
  intros P F. unfold StringConcatenate. destruct (Nat.ltb_spec count 1); [lia|].
  rewrite total_len. cbn [Nat.add]. rewrite Nat.add_1_r. unfold calloc. cbn [repeat].
  set (t := concat (map orempty (firstn count args))) in *.
  destruct (@strcat_all_spec (firstn count args) [] (repeat (Some NUL) (length t))) as [r' [E ->]].
  - intros [].
  - exact F.
  - rewrite repeat_length. fold t. lia.
  - cbn [map app] in E. rewrite E. cbn [bind]. fold t. rewrite skipn_all2 by (rewrite repeat_length; lia).
    rewrite block_eq. reflexivity.
Qed.

(** * scanning loops *)
Lemma all_loop_spec p fuel : forall a b, length b < fuel -> is_cstr b ->
  all_loop p fuel (length a) (a ++ b) = Ok (forallb p b).
Proof.
  induction fuel as [|g IH]; intros a b L C; [lia|]. cbn [all_loop]. destruct b as [|c b].
  - rewrite chr_app_end. cbn [bind]. rewrite beq_refl. reflexivity.
  - rewrite chr_app_mid. cbn [bind forallb]. apply is_cstr_cons in C as [N C]. apply beq_false in N. rewrite N.
    destruct (p c); cbn [negb andb]; [|reflexivity].
    specialize (IH (a ++ [c]) b). rewrite app_length, <- app_assoc in IH. cbn [length app] in *. rewrite Nat.add_1_r in IH. apply IH; auto; lia.
Qed.
