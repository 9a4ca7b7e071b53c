(** Proofs about the comparison functions of string_lib.c *)
From Verif Require Import Prelude PreludeFacts Str StrFacts Libc LibcFacts CmpSpec CmpFacts CmpModel.
Set Implicit Arguments.
Local Open Scope Z_scope.

(** the string a pointer points to *)
Definition strof (p : cptr) : option (list byte) := option_map snd p.
(** equal addresses hold equal strings *)
Definition coherent (a b : cptr) : Prop := same_ptr a b = true -> strof a = strof b.

Definition zcmp0 (a b : option (list byte)) : Z :=
  match a, b with
  | None, None => 0 | None, Some _ => -1 | Some _, None => 1
  | Some s, Some t => zcmp s t
  end.

Lemma zcmp0_spec a b : (zcmp0 a b = -1 <-> before0 a b) /\ (zcmp0 a b = 0 <-> a = b) /\ (zcmp0 a b = 1 <-> before0 b a).
Proof.
  destruct a as [a|], b as [b|]; cbn; try (split; [|split]; split; (lia || congruence || tauto)).
  destruct (zcmp_compares a b) as [H1 [H2 H3]]. rewrite <- H1, <- H3.
  assert (E : Some a = Some b <-> a = b) by (split; congruence). rewrite E, <- H2.
  unfold zcmp. destruct (lexcmp a b); (split; [|split]); split; lia.
Qed.

Lemma safe_compare_sgn strcmp a b : strcmp_ok strcmp -> coherent a b ->
  StringSafeCompare strcmp a b = Ok (zcmp0 (strof a) (strof b)).
Proof.
  intros OK Co. unfold StringSafeCompare. destruct (same_ptr a b) eqn:Sm.
  - rewrite (Co Sm). f_equal. symmetry. apply zcmp0_spec. reflexivity.
  - destruct a as [[p s]|], b as [[q t]|]; cbn in Sm |- *; try discriminate; try reflexivity.
    destruct (OK s t) as [C [L U]]. pose proof (compares_sgn C) as E. rewrite <- E.
    destruct (Z.eqb_spec (strcmp s t) 0) as [->|N]; cbn; [reflexivity|].
    unfold c_abs. destruct (Z.eqb_spec (strcmp s t) INT_MIN); [lia|]. cbn. f_equal.
    destruct (Z_lt_le_dec (strcmp s t) 0).
    + rewrite Z.abs_neq, Z.sgn_neg by lia. rewrite Z.quot_opp_r, Z.quot_same by lia. reflexivity.
    + rewrite Z.abs_eq, Z.sgn_pos by lia. apply Z.quot_same. lia.
Qed.

(** the other variants: some int with the sign of the order on transformed strings *)
Definition via (f : list byte -> list byte) (a : cptr) : option (list byte) := option_map f (strof a).

Lemma null_compare_sgn (a b : cptr) : same_ptr a b = false -> (a = None \/ b = None) ->
  exists r, NullCompare a b = Ok r /\ forall f, Z.sgn r = zcmp0 (via f a) (via f b).
Proof.
  unfold NullCompare. intros S H. rewrite S. cbn.
  destruct a as [[p s]|], b as [[q t]|]; cbn in *; try discriminate; try (destruct H; discriminate).
  - exists 1. split; [reflexivity|]. reflexivity.
  - exists (-1). split; [reflexivity|]. reflexivity.
Qed.

Lemma via_compare (g : list byte -> list byte -> Z) (f : list byte -> list byte) (a b : cptr) :
  (forall s t, compares (g s t) (f s) (f t)) -> coherent a b ->
  exists r, (if same_ptr a b then Ok 0 else match a, b with Some (_, sa), Some (_, sb) => Ok (g sa sb) | _, _ => NullCompare a b end) = Ok r /\
            Z.sgn r = zcmp0 (via f a) (via f b).
Proof.
  intros OK Co. destruct (same_ptr a b) eqn:S.
  - exists 0. split; [reflexivity|]. unfold via. rewrite (Co S). symmetry. apply zcmp0_spec. reflexivity.
  - destruct a as [[p s]|], b as [[q t]|].
    + exists (g s t). split; [reflexivity|]. cbn. apply compares_sgn, OK.
    + destruct (@null_compare_sgn _ _ S) as [r [E H]]; [auto|]. exists r. split; auto.
    + destruct (@null_compare_sgn _ _ S) as [r [E H]]; [auto|]. exists r. split; auto.
    + discriminate.
Qed.

(** * prefixes and suffixes *)
Lemma starts_loop_spec fuel : forall i str prefix, (i <= length prefix)%nat -> (length prefix <= length str)%nat ->
  (length prefix - i < fuel)%nat ->
  starts_loop fuel i str prefix = Ok (bytes_eqb (skipn i prefix) (skipn i (firstn (length prefix) str))).
Proof.
  induction fuel as [|f IH]; intros i str prefix Hi Hl Hf; [lia|]. cbn [starts_loop].
  destruct (Nat.ltb_spec i (length prefix)).
  - rewrite !chr_lt by lia. cbn [bind].
    rewrite (@skipn_cons_nth _ prefix i NUL) by lia.
    rewrite (@skipn_cons_nth _ (firstn (length prefix) str) i NUL) by (rewrite firstn_length; lia).
    rewrite nth_firstn by lia. cbn [bytes_eqb].
    destruct (beq_spec (nth i str NUL) (nth i prefix NUL)) as [->|N]; cbn [negb].
    + rewrite beq_refl. cbn. apply IH; lia.
    + assert (X : beq (nth i prefix NUL) (nth i str NUL) = false) by (apply beq_false; congruence). rewrite X. reflexivity.
  - assert (i = length prefix) by lia. subst i. rewrite skipn_all.
    rewrite skipn_all2; [reflexivity|]. rewrite firstn_length. lia.
Qed.

Lemma starts_with_spec str prefix : exists b, StringStartsWith str prefix = Ok b /\ (b = true <-> exists t, str = prefix ++ t).
Proof.
  unfold StringStartsWith. destruct (Nat.ltb_spec (length str) (length prefix)).
  - exists false. split; [reflexivity|]. split; [discriminate|]. intros [t ->]. rewrite app_length in H. lia.
  - rewrite starts_loop_spec by lia. eexists; split; [reflexivity|]. cbn [skipn].
    rewrite bytes_eqb_eq. split.
    + intros E. exists (skipn (length prefix) str). rewrite E at 1. symmetry. apply firstn_skipn.
    + intros [t ->]. rewrite firstn_app_le, firstn_all by lia. reflexivity.
Qed.

Lemma ToLower_tolower c : ToLower c = tolower c.
Proof. unfold ToLower, tolower. destruct (isupper c) eqn:E; [|reflexivity].
  unfold isupper, in_range in E. apply andb_true_iff in E as [E1 E2]. apply N.leb_le in E1, E2. f_equal. lia. Qed.

Definition foldc (fold : bool) (c : byte) : byte := if fold then tolower c else c.

Lemma ends_loop_spec fuel : forall i str suffix fold, (i <= length suffix)%nat -> (length suffix <= length str)%nat ->
  (length suffix - i < fuel)%nat ->
  exists b, ends_loop fuel i str suffix fold = Ok b /\
  (b = true <-> forall k, (i <= k < length suffix)%nat ->
     foldc fold (nth (length str - k - 1) str NUL) = foldc fold (nth (length suffix - k - 1) suffix NUL)).
Proof.
  induction fuel as [|f IH]; intros i str suffix fold Hi Hl Hf; [lia|]. cbn [ends_loop].
  destruct (Nat.ltb_spec i (length suffix)).
  - rewrite !chr_lt by lia. cbn [bind].
    rewrite !ToLower_tolower.
    change (if fold then tolower (nth (length str - i - 1) str NUL) else nth (length str - i - 1) str NUL) with (foldc fold (nth (length str - i - 1) str NUL)).
    change (if fold then tolower (nth (length suffix - i - 1) suffix NUL) else nth (length suffix - i - 1) suffix NUL) with (foldc fold (nth (length suffix - i - 1) suffix NUL)).
    destruct (beq_spec (foldc fold (nth (length str - i - 1) str NUL)) (foldc fold (nth (length suffix - i - 1) suffix NUL))) as [E|N]; cbn [negb].
    + destruct (IH (S i) str suffix fold) as [b [-> HB]]; try lia. exists b. split; [reflexivity|]. rewrite HB. split.
      * intros A k K. destruct (Nat.eq_dec k i) as [->|]; [exact E|]. apply A. lia.
      * intros A k K. apply A. lia.
    + exists false. split; [reflexivity|]. split; [discriminate|]. intros A. destruct N. apply A. lia.
  - exists true. split; [reflexivity|]. split; [|auto]. intros _ k K. lia.
Qed.

Lemma ends_with_spec str suffix fold : exists b, StringEndsWithCase str suffix fold = Ok b /\
  (b = true <-> exists p t, str = p ++ t /\ map (foldc fold) t = map (foldc fold) suffix).
Proof.
  unfold StringEndsWithCase. destruct (Nat.ltb_spec (length str) (length suffix)).
  - exists false. split; [reflexivity|]. split; [discriminate|]. intros [p [t [-> E]]].
    apply (f_equal (@length _)) in E. rewrite !map_length in E. rewrite app_length in H. lia.
  - destruct (@ends_loop_spec (S (length suffix)) 0 str suffix fold) as [b [-> HB]]; try lia.
    exists b. split; [reflexivity|]. rewrite HB. split.
    + intros A. exists (firstn (length str - length suffix) str), (skipn (length str - length suffix) str).
      split; [symmetry; apply firstn_skipn|].
      apply nth_ext_lt with (d := foldc fold NUL).
      * rewrite !map_length, skipn_length. lia.
      * rewrite map_length, skipn_length. intros k K. rewrite !map_nth, nth_skipn.
        specialize (A (length suffix - 1 - k)%nat ltac:(lia)).
        replace (length str - length suffix + k)%nat with (length str - (length suffix - 1 - k) - 1)%nat by lia.
        rewrite A. do 2 f_equal. lia.
    + intros [p [t [-> E]]] k K.
      assert (L : length t = length suffix) by (apply (f_equal (@length _)) in E; rewrite !map_length in E; exact E).
      rewrite <- !map_nth with (f := foldc fold), map_app, E, app_nth2; rewrite ?map_length, app_length; [|lia].
      f_equal. lia.
Qed.
