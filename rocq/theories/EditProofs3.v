(** Proofs about the string editing functions (part 3). *)
From Verif Require Import Prelude PreludeFacts Str StrFacts Libc LibcFacts MemSpec CmpModel EditModel EditSpec EditProofs EditProofs2.
Set Implicit Arguments.

(** * trimming *)
Lemma back_loop_spec p m s : holds m s -> forall i, i <= length s ->
  exists k, back_loop p i m = Ok k /\ k <= i /\ (forall c, In c (skipn k (firstn i s)) -> p c = true) /\
    (k = 0 \/ p (nth (k - 1) s NUL) = false).
Proof.
  intros H. induction i as [|j IH]; intros L; cbn [back_loop].
  - exists 0. split; [reflexivity|]. split; [lia|]. split; [intros c []|auto].
  - rewrite (@holds_aget m s) by (auto; lia). cbn [bind]. destruct (p (nth j s NUL)) eqn:P.
    + destruct (IH ltac:(lia)) as [k [-> [K [A B]]]]. exists k. repeat split; auto.
      rewrite (@firstn_S_nth _ s j NUL) by lia. rewrite skipn_app_le by (rewrite firstn_length; lia).
      intros c I. apply in_app_or in I as [I|[<-|[]]]; auto.
    + exists (S j). split; [reflexivity|]. split; [lia|]. split.
      * rewrite skipn_all2 by (rewrite firstn_length; lia). intros c [].
      * right. replace (S j - 1) with j by lia. exact P.
Qed.

Lemma put_in (s t w : list byte) r : s = t ++ w -> w <> [] ->
  upd (map Some s ++ Some NUL :: r) (length t) (Some NUL) = map Some t ++ Some NUL :: map Some (skipn 1 w) ++ Some NUL :: r.
Proof.
  intros -> N. destruct w as [|c w]; [congruence|]. rewrite map_app, <- app_assoc. cbn [map app skipn].
  rewrite upd_app_r by (rewrite map_length; lia). rewrite map_length, Nat.sub_diag. reflexivity.
Qed.

(** cutting a held string: writing a terminator inside it *)
Lemma cut_at m s k : holds m s -> k <= length s -> aset m k NUL = Ok (put m (firstn k s)).
Proof.
  intros H L. assert (LM := holds_length H). rewrite aset_Ok by lia. f_equal.
  destruct H as [C [r ->]]. unfold put. rewrite firstn_length, Nat.min_l by lia.
  rewrite upd_spec by lia. rewrite firstn_app_le by (rewrite map_length; lia). rewrite firstn_map. reflexivity.
Qed.

Lemma strip_trailing_spec p m s max : p NUL = false -> holds m s ->
  exists m' r, strip_trailing p (Some m) max = Ok (Some m', r) /\
    (length s <= max -> r = 0%Z /\ exists t, stripped_right p s t /\ m' = put m t) /\
    (max < length s -> r = (-1)%Z /\ m' = m).
Proof.
  intros PN H. unfold strip_trailing. rewrite (mstrnlen_holds _ H). cbn [bind].
  destruct (Nat.ltb_spec max (Nat.min (max + 1) (length s))).
  - exists m, (-1)%Z. split; [reflexivity|]. split; [lia|auto].
  - rewrite Nat.min_r by lia. destruct (@back_loop_spec p m s H (length s) ltac:(lia)) as [k [-> [K [A B]]]]. cbn [bind].
    rewrite (@holds_aget m s) by auto. cbn [bind].
    assert (MA : beq (nth k s NUL) NUL || p (nth k s NUL) = true).
    { destruct (Nat.eq_dec k (length s)) as [->|N].
      - rewrite nth_overflow, beq_refl by lia. reflexivity.
      - rewrite firstn_all in A. rewrite (A (nth k s NUL)); [apply orb_true_r|]. rewrite (@skipn_cons_nth _ s k NUL) by lia. left; reflexivity. }
    rewrite MA. cbn [massert]. rewrite (cut_at H K). cbn [bind]. eexists _, 0%Z. split; [reflexivity|]. split; [|lia].
    intros _. split; [reflexivity|]. exists (firstn k s). split; [|reflexivity].
    exists (skipn k s). rewrite firstn_skipn. split; [reflexivity|]. rewrite firstn_all in A. split; [exact A|].
    destruct B as [->|B]; [left; reflexivity|]. destruct k as [|j]; [left; reflexivity|]. right.
    exists (firstn j s), (nth j s NUL). replace (S j - 1) with j in B by lia. rewrite (@firstn_S_nth _ s j NUL) by lia. auto.
Qed.

Lemma stripped_right_unique p s t1 t2 : stripped_right p s t1 -> stripped_right p s t2 -> t1 = t2.
Proof.
  intros [w1 [E1 [A1 B1]]] [w2 [E2 [A2 B2]]].
  assert (X : forall t w t' w', t ++ w = t' ++ w' -> (forall c, In c w -> p c = true) -> 
     (t' = [] \/ exists u c, t' = u ++ [c] /\ p c = false) -> length t <= length t' -> t = t').
  { intros t w t' w' E A B L. assert (E' := E).
    apply (f_equal (firstn (length t'))) in E. rewrite firstn_app_ge, firstn_app_le, firstn_all in E by lia.
    destruct B as [->|[u [c [-> P]]]]; [destruct t; [reflexivity|cbn in L; lia]|].
    destruct (Nat.eq_dec (length t) (length (u ++ [c]))) as [Q|Q].
    - rewrite Q, Nat.sub_diag in E. cbn in E. rewrite app_nil_r in E. exact E.
    - exfalso. rewrite app_length in *. cbn [length] in *.
      assert (I : In c w); [|rewrite (A _ I) in P; discriminate].
      assert (N : nth (length u) (t ++ w) c = c). { rewrite E', <- app_assoc. cbn [app]. rewrite app_nth2, Nat.sub_diag by lia. reflexivity. }
      rewrite app_nth2 in N by lia. rewrite <- N. apply nth_In.
      apply (f_equal (@length _)) in E'. rewrite !app_length in E'. cbn [length] in E'. lia. }
  destruct (Nat.le_ge_cases (length t1) (length t2)).
  - eapply X; [rewrite <- E1, <- E2; reflexivity|exact A1|exact B2|assumption].
  - symmetry. eapply X; [rewrite <- E1, <- E2; reflexivity|exact A2|exact B1|assumption].
Qed.

(** ** TrimWhitespace *)
Lemma skip_space_spec fuel : forall a v t r, length v < fuel -> (forall c, In c v -> isspace c = true) ->
  match t with [] => True | c :: _ => isspace c = false end ->
  skip_space fuel (length a) (map Some a ++ map Some (v ++ t) ++ Some NUL :: r) = Ok (length a + length v).
Proof.
  induction fuel as [|g IH]; intros a v t r L A T; [lia|]. cbn [skip_space]. destruct v as [|c v].
  - cbn [app]. assert (E : aget (map Some a ++ map Some t ++ Some NUL :: r) (length a) = Ok (hd NUL t)).
    { destruct t; cbn [map app hd]; rewrite aget_mid; reflexivity. }
    rewrite E. cbn [bind]. replace (isspace (hd NUL t)) with false by (destruct t; auto). cbn. f_equal. lia.
  - cbn [app map]. rewrite aget_mid by reflexivity. cbn [bind]. rewrite (A c) by (left; reflexivity).
    specialize (IH (a ++ [c]) v t r). rewrite app_length, map_app, <- app_assoc in IH. cbn [length map app] in IH, L. rewrite Nat.add_1_r in IH.
    rewrite IH; [|lia|intros; apply A; right; assumption|exact T]. cbn [length]. f_equal. lia.
Qed.

Lemma back_space_spec m s fuel : holds m s -> forall e k, k <= e -> e < length s -> isspace (nth k s NUL) = false ->
  (forall j, k < j <= e -> isspace (nth j s NUL) = true) -> e - k < fuel -> back_space fuel e m = Ok k.
Proof.
  intros H. induction fuel as [|g IH]; intros e k K L NS A F; [lia|]. cbn [back_space].
  rewrite (@holds_aget m s) by (auto; lia). cbn [bind].
  destruct (Nat.eq_dec e k) as [->|N].
  - rewrite NS. reflexivity.
  - rewrite A by lia. destruct e as [|e']; [lia|]. apply IH; auto; try lia. intros j J. apply A. lia.
Qed.

Lemma span_all (p : byte -> bool) s : exists a b, s = a ++ b /\ (forall c, In c a -> p c = true) /\ match b with [] => True | c :: _ => p c = false end.
Proof.
  destruct (span p s) as [a b] eqn:E. apply span_eq in E as [-> [F B]]. exists a, b. split; [reflexivity|]. split; [|exact B].
  apply forallb_forall. exact F.
Qed.
Lemma last_split (p : byte -> bool) s : (exists t c w, s = t ++ c :: w /\ p c = false /\ (forall x, In x w -> p x = true)) \/ (forall x, In x s -> p x = true).
Proof.
  induction s as [|c s IH] using rev_ind; [right; intros x []|].
  destruct (p c) eqn:P.
  - destruct IH as [[t [d [w [-> [D W]]]]]|A].
    + left. exists t, d, (w ++ [c]). rewrite <- app_assoc. repeat split; auto. intros x I. apply in_app_or in I as [I|[<-|[]]]; auto.
    + right. intros x I. apply in_app_or in I as [I|[<-|[]]]; auto.
  - left. exists s, c, []. split; [reflexivity|]. split; [exact P|]. intros x [].
Qed.

Lemma TrimWhitespace_spec m s : holds m s ->
  exists m' off t, TrimWhitespace m = Ok (m', off) /\ stripped isspace s t /\ holds (skipn off m') t /\
    same_from (S (length s)) m m' /\ firstn off m' = firstn off m /\ off <= length s.
Proof.
  intros H. pose proof (holds_length H) as HL. pose proof H as [C [r Em]]. unfold TrimWhitespace.
  destruct (span_all isspace s) as [v [b [Es [V B]]]].
  assert (SK : skip_space (S (length m)) 0 m = Ok (length v)).
  { rewrite Em at 2. rewrite Es. refine (@skip_space_spec (S (length m)) [] v b r _ V B). rewrite Es, app_length in HL. lia. }
  rewrite SK. cbn [bind].
  assert (LV : length v <= length s) by (rewrite Es, app_length; lia).
  rewrite (@holds_aget m s) by auto. cbn [bind].
  destruct b as [|c0 b0].
  - rewrite app_nil_r in Es. subst v. rewrite nth_overflow, beq_refl by lia.
    exists m, (length s), []. split; [reflexivity|]. split.
    + exists s, []. cbn [app]. rewrite app_nil_r. auto.
    + split; [|split; [split; reflexivity|split; [reflexivity|lia]]].
      split; [intros []|]. exists r. rewrite Em, skipn_app_ge, map_length, Nat.sub_diag by (rewrite map_length; lia). reflexivity.
  - set (b := c0 :: b0) in *.
    assert (X : nth (length v) s NUL = c0) by (rewrite Es, app_nth2, Nat.sub_diag by lia; reflexivity).
    rewrite X. assert (N0 : beq c0 NUL = false).
    { apply beq_false. intros ->. apply C. rewrite Es. apply in_or_app. right. left. reflexivity. }
    rewrite N0.
    assert (HB : holds (skipn (length v) m) b).
    { split; [rewrite Es in C; apply is_cstr_app in C; apply C|]. exists r.
      rewrite Em, Es, map_app, <- app_assoc, skipn_app_ge, map_length, Nat.sub_diag by (rewrite map_length; lia). reflexivity. }
    rewrite (proj2 (mstr_holds _ _) HB). cbn [bind].
    destruct (last_split isspace b) as [[t [d [w [Eb [D W]]]]]|A]; [|exfalso; specialize (A c0 ltac:(left; reflexivity)); congruence].
    assert (LB : length b = length t + S (length w)) by (rewrite Eb, app_length; reflexivity).
    assert (Ls : length s = length v + (length t + S (length w))) by (rewrite Es, app_length; lia).
    assert (BS : back_space (S (length m)) (length v + length b - 1) m = Ok (length v + length t)).
    { apply (@back_space_spec m s); auto; try lia.
      - rewrite Es, Eb, app_nth2 by lia. replace (length v + length t - length v) with (length t) by lia.
        rewrite app_nth2, Nat.sub_diag by lia. exact D.
      - intros j J. apply W. rewrite Es, Eb, app_nth2, app_nth2 by lia.
        replace (j - length v - length t) with (S (j - length v - length t - 1)) by lia. cbn [nth]. apply nth_In. lia. }
    rewrite BS. cbn [bind]. rewrite (@cut_at m s (length v + length t + 1) H) by lia. cbn [bind].
    set (k := length v + length t + 1).
    assert (FK : firstn k s = v ++ t ++ [d]).
    { rewrite Es, Eb, firstn_app_ge by lia. f_equal. replace (k - length v) with (length t + 1) by lia.
      rewrite firstn_app_ge by lia. f_equal. replace (length t + 1 - length t) with 1 by lia. reflexivity. }
    exists (put m (firstn k s)), (length v), (t ++ [d]). split; [reflexivity|]. split; [|split; [|split; [|split]]].
    + exists v, w. split; [rewrite Es, Eb, <- app_assoc; reflexivity|]. split.
      * intros c I. apply in_app_or in I as [I|I]; auto.
      * right. split; [|exists t, d; auto]. destruct t as [|x t].
        -- exists d, []. auto.
        -- cbn in Eb. injection Eb as <- _. exists c0, (t ++ [d]). auto.
    + rewrite FK. unfold put. split; [rewrite Es, Eb in C; apply is_cstr_app in C as [_ C]; apply is_cstr_app in C as [C1 C2]; apply is_cstr_cons in C2 as [C2 _]; apply is_cstr_app; split; [exact C1|]; intros [I|[]]; congruence|].
      rewrite map_app, <- app_assoc, skipn_app_ge, map_length, Nat.sub_diag by (rewrite map_length; lia). cbn [skipn]. eexists; reflexivity.
    + apply put_same_from; rewrite firstn_length; lia.
    + rewrite FK. unfold put. rewrite map_app, <- app_assoc. rewrite firstn_app_le by (rewrite map_length; lia).
      rewrite Em, Es, map_app, <- app_assoc. rewrite firstn_app_le by (rewrite map_length; lia). reflexivity.
    + lia.
Qed.

(** ** TrimCSVLineCRLF *)
Definition CR : byte := ascii_of_nat 13.
Definition LF : byte := ascii_of_nat 10.
Lemma TrimCSVLineCRLF_crlf m t : holds m (t ++ [CR; LF]) ->
  exists m', TrimCSVLineCRLF m = Ok (m', length t) /\ holds m' t /\ same_from (length t + 2) m m'.
Proof.
  intros H. pose proof (holds_length H) as HL. unfold TrimCSVLineCRLF. rewrite (proj2 (mstr_holds _ _) H). cbn [bind].
  rewrite (@holds_aget m (t ++ [CR; LF])) by (auto; lia). cbn [bind]. rewrite nth_overflow, beq_refl by lia. cbn [massert].
  rewrite app_length in *. cbn [length] in *. destruct (Nat.ltb_spec (length t + 2) 2); [lia|].
  replace (length t + 2 - 2) with (length t) by lia. replace (length t + 2 - 1) with (S (length t)) by lia.
  rewrite !(@holds_aget m (t ++ [CR; LF])) by (auto; rewrite app_length; cbn; lia). cbn [bind].
  rewrite !app_nth2, Nat.sub_diag by lia. replace (S (length t) - length t) with 1 by lia. cbn [nth].
  change (beq CR (ascii_of_nat 13)) with true. change (beq LF (ascii_of_nat 10)) with true. cbn [bind].
  pose proof H as [C [r Em]]. apply is_cstr_app in C as [Ct _].
  rewrite Em, map_app, <- app_assoc. cbn [map app]. rewrite write_end by (cbn; lia). cbn [bind skipn].
  rewrite (aset_Ok (map Some t ++ Some NUL :: Some LF :: Some NUL :: r)) by (rewrite app_length, map_length; cbn; lia). cbn [bind].
  rewrite upd_app_r by (rewrite map_length; lia). rewrite map_length. replace (S (length t) - length t) with 1 by lia. cbn [upd].
  assert (HH : holds (map Some t ++ Some NUL :: Some NUL :: Some NUL :: r) t) by (split; [exact Ct|eexists; reflexivity]).
  rewrite (proj2 (mstr_holds _ _) HH). cbn [bind]. rewrite Nat.eqb_refl. cbn [massert].
  eexists; split; [reflexivity|]. split; [exact HH|]. split.
  - rewrite !app_length, map_length. reflexivity.
  - rewrite !skipn_app_ge by (rewrite map_length; lia). rewrite !map_length. replace (length t + 2 - length t) with 2 by lia. reflexivity.
Qed.
Lemma TrimCSVLineCRLF_other m s : holds m s -> (forall t, s <> t ++ [CR; LF]) -> TrimCSVLineCRLF m = Ok (m, length s).
Proof.
  intros H N. unfold TrimCSVLineCRLF. rewrite (proj2 (mstr_holds _ _) H). cbn [bind].
  rewrite (@holds_aget m s) by (auto; lia). cbn [bind]. rewrite nth_overflow, beq_refl by lia. cbn [massert].
  destruct (Nat.ltb_spec (length s) 2); [reflexivity|].
  rewrite !(@holds_aget m s) by (auto; lia). cbn [bind].
  assert (X : (if beq (nth (length s - 2) s NUL) (ascii_of_nat 13) then Ok (beq (nth (length s - 1) s NUL) (ascii_of_nat 10)) else Ok false) = Ok false).
  { destruct (beq_spec (nth (length s - 2) s NUL) (ascii_of_nat 13)) as [E1|]; [|reflexivity].
    destruct (beq_spec (nth (length s - 1) s NUL) (ascii_of_nat 10)) as [E2|]; [|reflexivity]. exfalso.
    apply (N (firstn (length s - 2) s)). rewrite <- (firstn_skipn (length s - 2) s) at 1. f_equal.
    rewrite (@skipn_cons_nth _ s (length s - 2) NUL), E1 by lia. replace (S (length s - 2)) with (length s - 1) by lia.
    rewrite (@skipn_cons_nth _ s (length s - 1) NUL), E2 by lia. rewrite skipn_all2 by lia. reflexivity. }
  rewrite X. cbn [bind]. rewrite (proj2 (mstr_holds _ _) H). cbn [bind]. rewrite Nat.eqb_refl. reflexivity.
Qed.

(** * StringCloseHole *)
Lemma StringCloseHole_spec m s a b : holds m s -> a <= b <= length s ->
  exists m', StringCloseHole m a b = Ok m' /\ holds m' (firstn a s ++ skipn b s) /\ same_from (S (length s)) m m'.
Proof.
  intros H [L1 L2]. pose proof (holds_length H) as HL. unfold StringCloseHole. rewrite (proj2 (mstr_holds _ _) H). cbn [bind].
  replace ((a <=? b) && (b <=? length s)) with true by (symmetry; apply andb_true_iff; split; apply Nat.leb_le; lia).
  replace (b - a <=? length s) with true by (symmetry; apply Nat.leb_le; lia). cbn [massert].
  destruct (Nat.ltb_spec a b).
  - pose proof H as [C [r Em]].
    assert (HB : holds (skipn b m) (skipn b s)).
    { split; [intros I; apply C; rewrite <- (firstn_skipn b s); apply in_or_app; auto|]. exists r.
      rewrite Em, skipn_app_le by (rewrite map_length; lia). rewrite skipn_map. reflexivity. }
    rewrite (proj2 (mstr_holds _ _) HB). cbn [bind]. unfold amove. rewrite skipn_length.
    replace ((a + (length s - b + 1) <=? length m) && (b + (length s - b + 1) <=? length m)) with true
      by (symmetry; apply andb_true_iff; split; apply Nat.leb_le; lia).
    eexists; split; [reflexivity|].
    assert (E1 : firstn a m = map Some (firstn a s)) by (rewrite Em, firstn_app_le by (rewrite map_length; lia); apply firstn_map).
    assert (E2 : firstn (length s - b + 1) (skipn b m) = map Some (skipn b s) ++ [Some NUL]).
    { rewrite Em, skipn_app_le by (rewrite map_length; lia). rewrite firstn_app_ge by (rewrite skipn_length, map_length; lia).
      rewrite skipn_map, map_length, skipn_length. replace (length s - b + 1 - (length s - b)) with 1 by lia. reflexivity. }
    rewrite E1, E2. split.
    + split.
      * intros I. apply in_app_or in I as [I|I]; apply C; [rewrite <- (firstn_skipn a s)|rewrite <- (firstn_skipn b s)]; apply in_or_app; auto.
      * exists (skipn (a + (length s - b + 1)) m). rewrite map_app, <- !app_assoc. reflexivity.
    + split.
      * rewrite !app_length, !map_length, firstn_length, !skipn_length. cbn [length]. lia.
      * rewrite skipn_app_ge by (rewrite map_length, firstn_length; lia). rewrite map_length, firstn_length.
        rewrite skipn_app_ge by (rewrite app_length, map_length, skipn_length; cbn [length]; lia).
        rewrite app_length, map_length, skipn_length. cbn [length]. rewrite skipn_skipn. f_equal. lia.
  - assert (b = a) by lia. subst b. rewrite firstn_skipn. exists m. split; [reflexivity|]. split; [exact H|]. split; reflexivity.
Qed.

(** * memcchr *)
Lemma memcchr_loop_spec fuel : forall i (l : list byte) j c n, length l = n -> i <= n -> n - i < fuel ->
  memcchr_loop fuel i (map Some l ++ j) c n = Ok (
    match find (fun k => negb (beq (nth k l NUL) c)) (seq i (n - i)) with Some k => Some k | None => None end).
Proof.
  induction fuel as [|g IH]; intros i l j c n E L F; [lia|]. cbn [memcchr_loop].
  destruct (Nat.ltb_spec i n).
  - rewrite (@aget_rep _ l j i NUL) by lia. cbn [bind]. replace (n - i) with (S (n - S i)) by lia. cbn [seq find].
    destruct (negb (beq (nth i l NUL) c)); [reflexivity|]. apply IH; lia.
  - replace (n - i) with 0 by lia. reflexivity.
Qed.

(** * ReplaceTrailingChar *)
Lemma ReplaceTrailingChar_spec m s from to : holds m s -> 
  exists m', ReplaceTrailingChar m from to = Ok m' /\
   ((exists t, s = t ++ [from] /\ m' = map Some (t ++ [to]) ++ skipn (length s) m) \/ ((forall t, s <> t ++ [from]) /\ m' = m)).
Proof.
  intros H. unfold ReplaceTrailingChar. rewrite (proj2 (mstr_holds _ _) H). cbn [bind].
  destruct (length s) as [|i] eqn:L.
  - exists m. split; [reflexivity|]. right. split; [|reflexivity]. intros t E. rewrite E, app_length in L. cbn in L. lia.
  - rewrite (@holds_aget m s) by (auto; lia). cbn [bind].
    assert (E : s = firstn i s ++ [nth i s NUL]) by (rewrite <- firstn_S_nth, <- L by lia; symmetry; apply firstn_all).
    destruct (beq_spec (nth i s NUL) from) as [<-|N].
    + assert (HL := holds_length H). pose proof (split_hold H) as Em.
      rewrite aset_Ok by lia. eexists; split; [reflexivity|]. left. exists (firstn i s). split; [exact E|].
      rewrite upd_spec by lia. rewrite Em at 1. rewrite firstn_app_le by (rewrite map_length; lia). rewrite firstn_map.
      rewrite map_app, <- app_assoc. reflexivity.
    + exists m. split; [reflexivity|]. right. split; [|reflexivity]. intros t Et. apply N.
      assert (length t = i) by (rewrite Et, app_length in L; cbn in L; lia). rewrite Et, app_nth2 by lia.
      replace (i - length t) with 0 by lia. reflexivity.
Qed.

(** * ReplaceChar *)
Definition repc (from to c : byte) : byte := if beq c from then to else c.
Lemma replchar_loop_spec fuel : forall a b r n from to, is_cstr (a ++ b) -> length b < fuel -> n <= length a + length r ->
  replchar_loop fuel (length a) (a ++ b) (map Some (map (repc from to) a) ++ r) n from to
   = Ok (map Some (map (repc from to) (a ++ firstn (n - 1 - length a) b)) ++ skipn (length (firstn (n - 1 - length a) b)) r).
Proof.
  induction fuel as [|g IH]; intros a b r n from to C L R; [lia|]. cbn [replchar_loop].
  rewrite app_length. destruct b as [|c b].
  - cbn [length]. destruct (Nat.ltb_spec (length a) (length a + 0)); [lia|]. cbn [andb].
    rewrite firstn_nil. cbn. rewrite app_nil_r. reflexivity.
  - cbn [length]. destruct (Nat.ltb_spec (length a) (length a + S (length b))); [|lia]. cbn [andb].
    destruct (Nat.ltb_spec (S (length a)) n).
    + rewrite chr_app_mid. cbn [bind]. rewrite write_at by (rewrite ?map_length; auto; lia). cbn [bind].
      specialize (IH (a ++ [c]) b (skipn 1 r) n from to). rewrite <- app_assoc, !app_length, skipn_length in IH. cbn [app length] in IH, L.
      rewrite !Nat.add_1_r, map_app in IH. cbn [map] in IH. unfold repc at 2 in IH. rewrite IH by (auto; lia). clear IH.
      replace (n - 1 - length a) with (S (n - 1 - S (length a))) by lia. cbn [firstn length].
      rewrite skipn_skipn, Nat.add_1_r, <- !app_assoc. reflexivity.
    + replace (n - 1 - length a) with 0 by lia. cbn. rewrite app_nil_r. reflexivity.
Qed.
Lemma ReplaceChar_spec inp m n from to : is_cstr inp -> 0 < n <= length m -> to <> NUL ->
  exists m', ReplaceChar inp m n from to = Ok m' /\ holds m' (map (repc from to) (firstn (n - 1) inp)) /\ same_from n m m'.
Proof.
  intros C [P L] NT. unfold ReplaceChar, mset. apply Nat.leb_le in L as Lb. rewrite Lb. cbn [bind].
  pose proof (@replchar_loop_spec (S (length inp)) [] inp (repeat (Some NUL) n ++ skipn n m) n from to C ltac:(lia)) as X.
  rewrite app_length, repeat_length in X. specialize (X ltac:(cbn; lia)). cbn [length app map] in X. rewrite Nat.sub_0_r in X.
  rewrite X. clear X. eexists; split; [reflexivity|].
  set (w := firstn (n - 1) inp). assert (Lw : length w <= n - 1) by (unfold w; rewrite firstn_length; lia).
  split.
  - split.
    + intros I. apply in_map_iff in I as [c [E I]]. unfold repc in E. destruct (beq c from); [congruence|]. subst c.
      apply C. rewrite <- (firstn_skipn (n - 1) inp). apply in_or_app; auto.
    + rewrite skipn_app_le by (rewrite repeat_length; lia).
      assert (Z : skipn (length w) (repeat (Some NUL) n) = repeat (Some NUL) (n - length w)).
      { assert (G : forall k i, skipn k (repeat (Some NUL) i) = repeat (Some NUL) (i - k)) by (induction k as [|k IH]; intros [|i]; cbn; auto). apply G. }
      rewrite Z. replace (n - length w) with (S (n - length w - 1)) by lia. cbn [repeat app]. eexists; reflexivity.
  - split.
    + rewrite app_length, map_length, map_length, skipn_length, app_length, repeat_length, skipn_length. lia.
    + rewrite skipn_app_ge by (rewrite !map_length; lia). rewrite !map_length, skipn_skipn, skipn_app_ge by (rewrite repeat_length; lia).
      rewrite repeat_length. replace (n - length w + length w - n) with 0 by lia. reflexivity.
Qed.

(** * StringNotMatchingSetCapped *)
Lemma StringNotMatching_spec isp limit exclude m : is_cstr isp -> 0 < limit <= length m ->
  let w := firstn (strcspn isp exclude) isp in
  StringNotMatchingSetCapped isp limit exclude m = Ok (put m (firstn (limit - 1) w), limit - 1 <=? length w).
Proof.
  intros C [P L] w. unfold StringNotMatchingSetCapped. destruct limit as [|k]; [lia|]. cbn [predw]. replace (S k - 1) with k by lia.
  destruct (strcspn_spec isp exclude) as [a [b [E [La _]]]].
  assert (LE : strcspn isp exclude <= length isp) by (apply (f_equal (@length _)) in E; rewrite app_length in E; lia).
  assert (Lw : length w = strcspn isp exclude) by (unfold w; rewrite firstn_length; lia).
  destruct (Nat.ltb_spec (strcspn isp exclude) k); destruct (Nat.leb_spec k (length w)); try lia.
  - pose proof (@copy_at [] isp m 0 (strcspn isp exclude) eq_refl ltac:(lia) LE) as X. cbn [map app] in X. rewrite X. cbn [bind].
    rewrite write_end; [|fold w; lia|rewrite skipn_length; lia]. cbn [bind]. fold w. rewrite (firstn_all2 w) by lia.
    okput. apply put_eq. rewrite skipn1_skipn. f_equal. lia.
  - pose proof (@copy_at [] isp m 0 k eq_refl ltac:(lia) ltac:(lia)) as X. cbn [map app] in X. rewrite X. cbn [bind].
    rewrite write_end; [|rewrite firstn_length; lia|rewrite skipn_length; lia]. cbn [bind].
    unfold w. rewrite firstn_firstn, Nat.min_l by lia.
    okput. apply put_eq. rewrite skipn1_skipn, firstn_length. f_equal. lia.
Qed.
