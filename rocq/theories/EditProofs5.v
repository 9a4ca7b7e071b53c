(** Proofs about the string editing functions (part 5: StringSubstring, chains of
    appends). *)
From Verif Require Import Prelude PreludeFacts Str StrFacts Libc LibcFacts MemSpec CmpModel EditModel EditSpec EditProofs EditProofs2 EditProofs3 EditProofs4.
Set Implicit Arguments.

Lemma to_size_pos z : (0 <= z < 2 ^ 64)%Z -> to_size z = z.
Proof. intros H. unfold to_size. apply Z.mod_small. exact H. Qed.
Lemma to_size_neg z : (- 2 ^ 64 <= z < 0)%Z -> to_size z = (z + 2 ^ 64)%Z.
Proof. intros H. unfold to_size. rewrite <- (Z.mod_add z 1 (2 ^ 64)) by lia. rewrite Z.mod_small; lia. Qed.

Lemma copy_slice s b n : b + n <= length s -> acopy (calloc (n + 1)) 0 (block s) b n = Ok (block (firstn n (skipn b s))).
Proof.
  intros L. pose proof (@copy_at [] (skipn b s) (calloc (n + 1)) 0 n eq_refl) as X.
  assert (E : acopy (calloc (n + 1)) 0 (block s) b n = acopy (calloc (n + 1)) 0 (block (skipn b s)) 0 n).
  { unfold calloc.
    assert (K : forall s0, length (block s0) = S (length s0)) by (intros s0; unfold block; rewrite map_length, app_length; cbn; lia).
    rewrite acopy_Ok; [|rewrite repeat_length; lia|rewrite K; lia].
    rewrite acopy_Ok; [|rewrite repeat_length; lia|rewrite K, skipn_length; lia].
    assert (Q : skipn b (block s) = skipn 0 (block (skipn b s))).
    { unfold block. rewrite !map_app. cbn [map skipn]. rewrite skipn_app_le by (rewrite map_length; lia).
      rewrite skipn_map. reflexivity. }
    rewrite Q. reflexivity. }
  rewrite E. cbn [map app] in X. unfold calloc in *. rewrite repeat_length, skipn_length in X. rewrite X by lia.
  rewrite block_eq. do 2 f_equal.
  assert (G : forall k i, skipn k (repeat (Some NUL) i) = repeat (Some NUL) (i - k)) by (induction k as [|k IHk]; intros [|i]; cbn; auto).
  rewrite G. replace (n + 1 - n) with 1 by lia. reflexivity.
Qed.

(** the end StringSubstring settles on (exclusive) *)
Definition sub_end (n : nat) (start len : Z) : Z :=
  let n := Z.of_nat n in
  if (len <? 0)%Z then (if (n + len <=? 0)%Z then n else n + len)%Z
  else if (start + len <=? 0)%Z then n else Z.min n (start + len)%Z.

Lemma StringSubstring_spec s start len : s <> [] -> (Z.of_nat (length s) <= INT_MAX)%Z -> len <> 0%Z ->
  (INT_MIN <= len <= INT_MAX)%Z -> (- Z.of_nat (length s) <= start <= INT_MAX)%Z -> (start + len <= INT_MAX)%Z ->
  let b := (if start <? 0 then Z.of_nat (length s) + start else start)%Z in
  let e := sub_end (length s) start len in
  StringSubstring s (length s) start len =
    Ok (if (b + 2 <=? e)%Z then Some (block (firstn (Z.to_nat (e - b)) (skipn (Z.to_nat b) s))) else None).
Proof.
  intros NE LS NZ RL RS RO b e. unfold StringSubstring. assert (P : (0 < Z.of_nat (length s))%Z) by (destruct s; [congruence|cbn; lia]).
  unfold INT_MAX, INT_MIN in *.
  destruct (Z.eqb_spec len 0); [lia|]. replace (2 ^ 31 - 1 <? start + len)%Z with false by (symmetry; apply Z.ltb_ge; lia). rewrite andb_false_r.
  set (sl := Z.of_nat (length s)) in *. cbv zeta.
  assert (FIN : forall f, (- 2 ^ 40 <= f <= 2 ^ 40)%Z ->
     (if (to_size f <? to_size (sl - 1))%Z then f else (sl - 1)%Z) = (if f <? 0 then sl - 1 else Z.min f (sl - 1))%Z).
  { intros f Hf. rewrite (to_size_pos (z := sl - 1)) by lia. destruct (Z.ltb_spec f 0).
    - rewrite to_size_neg by lia. destruct (Z.ltb_spec (f + 2 ^ 64) (sl - 1)); [lia|reflexivity].
    - rewrite to_size_pos by lia. destruct (Z.ltb_spec f (sl - 1)); lia. }
  rewrite FIN by (destruct (len <? 0)%Z; lia).
  assert (EF : (if (if (len <? 0)%Z then (sl + len - 1)%Z else (start + len - 1)%Z) <? 0 then sl - 1 else Z.min (if (len <? 0)%Z then (sl + len - 1)%Z else (start + len - 1)%Z) (sl - 1))%Z = (e - 1)%Z).
  { unfold e, sub_end. fold sl. destruct (Z.ltb_spec len 0).
    - destruct (Z.ltb_spec (sl + len - 1) 0); destruct (Z.leb_spec (sl + len) 0); lia.
    - destruct (Z.ltb_spec (start + len - 1) 0); destruct (Z.leb_spec (start + len) 0); lia. }
  rewrite EF. fold b. assert (EB : (e <= sl)%Z).
  { unfold e, sub_end. fold sl. destruct (Z.ltb_spec len 0); [destruct (Z.leb_spec (sl + len) 0)|destruct (Z.leb_spec (start + len) 0)]; lia. }
  assert (B0 : (0 <= b)%Z) by (unfold b; destruct (Z.ltb_spec start 0); lia).
  destruct (Z.geb_spec b (e - 1)).
  - destruct (Z.leb_spec (b + 2) e); [lia|reflexivity].
  - destruct (Z.leb_spec (b + 2) e); [|lia]. destruct (Z.ltb_spec b 0); [lia|].
    replace (e - 1 - b + 1)%Z with (e - b)%Z by lia. rewrite copy_slice by lia. reflexivity.
Qed.

(** chains of StrCat *)
Fixpoint StrCat_chain (m : cells byte) (dst_size : nat) (n : option nat) (srcs : list (list byte)) : res (cells byte * option nat) :=
  match srcs with
  | [] => Ok (m, n)
  | s :: t => let* ' (m, n) := StrCat m dst_size n s 0 in StrCat_chain m dst_size n t
  end.
Lemma put_trunc_put m x y k : length x <= k -> put (put m (firstn k x)) (firstn k (x ++ y)) = put m (firstn k (x ++ y)).
Proof. intros L. apply put_put. rewrite firstn_all2 by lia. rewrite firstn_length, app_length. lia. Qed.

Lemma StrCat_chain_spec dst_size srcs : forall m x, 0 < dst_size <= length m -> is_cstr x -> Forall is_cstr srcs ->
  StrCat_chain (put m (firstn (dst_size - 1) x)) dst_size (Some (length x)) srcs
   = Ok (put m (firstn (dst_size - 1) (x ++ concat srcs)), Some (length (x ++ concat srcs))).
Proof.
  induction srcs as [|s srcs IH]; intros m x L C F; cbn [StrCat_chain concat].
  - rewrite app_nil_r. reflexivity.
  - inversion F as [|? ? Cs Fs]; subst. rewrite app_assoc.
    assert (IH' := IH m (x ++ s) L ltac:(apply is_cstr_app; auto) Fs).
    destruct (Nat.ltb_spec (length x) dst_size) as [FIT|FULL].
    + pose proof (@StrCat_spec (put m (firstn (dst_size - 1) x)) x dst_size (Some (length x)) s 0) as X.
      cbn [Nat.eqb option_map] in X. cbv zeta in X. rewrite X.
      * cbn [bind]. rewrite put_trunc_put by lia. exact IH'.
      * rewrite firstn_all2 by lia. apply put_holds, C.
      * rewrite put_length by (rewrite firstn_length; lia). lia.
      * reflexivity.
      * lia.
    + rewrite StrCat_full by lia. cbn [Nat.eqb bind].
      rewrite app_length in IH'. rewrite <- IH'. do 2 f_equal. rewrite firstn_app_le by lia. reflexivity.
Qed.

(** chains of StrCatDelim *)
Fixpoint StrCatDelim_chain (m : cells byte) (dst_size : nat) (n : option nat) (srcs : list (list byte)) (sep : byte) : res (cells byte * option nat) :=
  match srcs with
  | [] => Ok (m, n)
  | s :: t => let* ' (m, n) := StrCatDelim m dst_size n s sep in StrCatDelim_chain m dst_size n t sep
  end.
Lemma delim_grow sep d s : length d <= length (delim sep d s).
Proof. destruct d; cbn; [lia|]. rewrite app_length. cbn. lia. Qed.
Lemma fold_delim_grow sep srcs : forall d, length d <= length (fold_left (delim sep) srcs d).
Proof. induction srcs as [|s srcs IH]; intros d; cbn; [lia|]. pose proof (delim_grow sep d s). specialize (IH (delim sep d s)). lia. Qed.
Lemma delim_cstr sep d s : sep <> NUL -> is_cstr d -> is_cstr s -> is_cstr (delim sep d s).
Proof. intros N C1 C2. unfold delim. destruct d; [exact C2|]. apply is_cstr_app. split; [exact C1|]. apply is_cstr_cons. auto. Qed.
Lemma delim_len_eq sep x y s : length x = length y -> length (delim sep x s) = length (delim sep y s).
Proof. destruct x, y; cbn; try discriminate; [reflexivity|]. intros E. rewrite !app_length. cbn. lia. Qed.

Lemma StrCatDelim_chain_full dst_size sep srcs : forall m x, dst_size <= length x -> 0 < length x ->
  StrCatDelim_chain m dst_size (Some (length x)) srcs sep = Ok (m, Some (length (fold_left (delim sep) srcs x))).
Proof.
  induction srcs as [|s srcs IH]; intros m x L P; cbn [StrCatDelim_chain fold_left]; [reflexivity|].
  rewrite StrCatDelim_full by lia. cbn [bind].
  assert (E : S (length x + length s) = length (delim sep x s)).
  { rewrite delim_length. destruct (Nat.ltb_spec 0 (length x)); [reflexivity|lia]. }
  rewrite E. apply IH; lia.
Qed.

Lemma StrCatDelim_chain_spec dst_size sep srcs : forall m x, sep <> NUL -> holds m x -> length x < dst_size <= length m -> Forall is_cstr srcs ->
  exists k m', StrCatDelim_chain m dst_size (Some (length x)) srcs sep = Ok (m', Some (length (fold_left (delim sep) srcs x))) /\
    m' = put m (fold_left (delim sep) (firstn k srcs) x) /\ k <= length srcs /\
    length (fold_left (delim sep) (firstn k srcs) x) < dst_size /\
    (k < length srcs -> dst_size <= length (fold_left (delim sep) (firstn (S k) srcs) x)).
Proof.
  induction srcs as [|s srcs IH]; intros m x NS H L F.
  - exists 0, m. cbn. split; [reflexivity|]. split; [symmetry; apply put_self, H|]. split; [lia|]. split; [lia|lia].
  - inversion F as [|? ? Cs Fs]; subst. cbn [StrCatDelim_chain].
    pose proof (@StrCatDelim_spec m x dst_size (Some (length x)) s sep H Cs NS L eq_refl) as X. cbv zeta in X. rewrite X. cbn [bind option_map].
    pose proof H as [Cx _].
    destruct (Nat.ltb_spec (length (delim sep x s)) dst_size) as [FIT|FULL].
    + destruct (IH (put m (delim sep x s)) (delim sep x s)) as [k [m' [E [M [K1 [K2 K3]]]]]]; auto.
      * apply put_holds, delim_cstr; auto.
      * rewrite put_length by lia. lia.
      * exists (S k), m'. cbn [firstn fold_left length]. split; [exact E|]. split.
        { rewrite M. apply put_put. apply fold_delim_grow. }
        split; [lia|]. split; [exact K2|]. intros LK. apply K3. lia.
    + assert (P : 0 < length (delim sep x s)) by lia.
      rewrite StrCatDelim_chain_full by lia. exists 0, m. cbn [firstn fold_left length].
      split; [reflexivity|]. split; [symmetry; apply put_self, H|]. split; [lia|]. split; [lia|]. intros _. exact FULL.
Qed.

(** runs only depend on the values of the predicate *)
Lemma runs_ext (p q : byte -> bool) off s ts : (forall c, p c = q c) -> runs p off s ts -> runs q off s ts.
Proof.
  intros E R. induction R as [off|off c s ts Sc R IH|off t s ts N A B R IH].
  - constructor.
  - apply runs_sep; [rewrite <- E; exact Sc|exact IH].
  - apply runs_tok; auto.
    + intros c I. rewrite <- E. auto.
    + destruct B as [->|[c [s' [-> D]]]]; [auto|]. right. exists c, s'. split; [reflexivity|]. rewrite <- E. exact D.
Qed.
