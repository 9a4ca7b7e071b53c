(** C21: buffers hold what was written.  C22: comparing buffers. *)
From Verif Require Import Prelude PreludeFacts Str StrFacts Libc LibcFacts MemSpec CmpSpec CmpFacts CmpModel MiscModel BufModel BufSpec BufProofs.
Set Implicit Arguments.

(** a new buffer: empty, in C string mode, terminated *)
Definition fresh : abuf := mkA CSTRING [] true.

(** Every history of legal calls on a new buffer runs without undefined behaviour and
    leaves exactly the mode and the bytes the calls describe, with the size below the
    capacity and every byte inside the allocation. *)
Theorem C21_history cap os : 0 < cap -> legal_history fresh os -> (N.of_nat (total os) < 2 ^ 62)%N ->
  exists b, calls (BufferNewWithCapacity cap) os = Ok b /\ represents b (fold_left step os fresh).
Proof.
  intros P L B. destruct (new_spec P) as [b0 [-> [R0 _]]].
  destruct (@calls_spec os b0 fresh R0 L B) as [b [E R]]. exists b. split; [exact E|apply rep_represents, R].
Qed.

Theorem C21_BufferNew os : legal_history fresh os -> (N.of_nat (total os) < 2 ^ 62)%N ->
  exists b, calls BufferNew os = Ok b /\ represents b (fold_left step os fresh).
Proof. apply C21_history. unfold DEFAULT_BUFFER_CAPACITY. lia. Qed.

(** a call that does not change the mode *)
Definition keeps_mode (o : bop) : Prop := match o with OMode _ => False | _ => True end.

Lemma step_cstring st o : keeps_mode o -> amode st = CSTRING -> aterm st = true ->
  amode (step st o) = CSTRING /\ aterm (step st o) = true.
Proof.
  intros K M T. destruct o; cbn [step amode aterm]; rewrite ?M, ?T; try (split; reflexivity).
  - destruct (length bs =? 0); auto.
  - destruct (max <? _); auto.
  - destruct K.
Qed.

(** In C string mode the bytes are always a C string in the buffer's memory. *)
Theorem C21_terminated cap os : 0 < cap -> legal_history fresh os -> Forall keeps_mode os -> (N.of_nat (total os) < 2 ^ 62)%N ->
  exists b, calls (BufferNewWithCapacity cap) os = Ok b /\ BufferSize b = length (abytes (fold_left step os fresh)) /\
    holds (bmem b) (abytes (fold_left step os fresh)).
Proof.
  intros P L K B. destruct (new_spec P) as [b0 [-> [R0 _]]].
  destruct (@calls_spec os b0 fresh R0 L B) as [b [E R]]. exists b. split; [exact E|].
  assert (X : amode (fold_left step os fresh) = CSTRING /\ aterm (fold_left step os fresh) = true).
  { clear - K. assert (H : amode fresh = CSTRING /\ aterm fresh = true) by (split; reflexivity). revert H. generalize fresh.
    induction K as [|o os Ko K IH]; intros st [M T]; [auto|]. cbn [fold_left]. apply IH, step_cstring; auto. }
  destruct X as [M T], R as [_ [U [_ [C [x [r [Em Tx]]]]]]]. split; [exact U|]. split; [auto|]. exists r. rewrite Em, (Tx T). reflexivity.
Qed.

(** BufferNewFrom and BufferCopy give a C string buffer with the bytes before the
    first NUL; the copy of a byte array with a NUL is cut short. *)
Theorem C21_BufferNewFrom bs rest : (N.of_nat (length bs) < 2 ^ 62)%N ->
  exists b, BufferNewFrom (map Some bs ++ rest) (length bs) = Ok b /\ represents b (mkA CSTRING (upto_nul bs) true).
Proof.
  intros B. unfold BufferNewFrom. destruct (@new_spec (length bs + 1) ltac:(lia)) as [b0 [-> [R0 _]]]. cbn [bind].
  destruct (@append_spec b0 _ bs rest R0 B) as [b [E R]]. exists b. split; [exact E|]. apply rep_represents. revert R. cbn [step amode abytes aterm seen is_cstring app].
  destruct bs; exact (fun h => h).
Qed.
Theorem C21_BufferCopy cap os : 0 < cap -> legal_history fresh os -> (N.of_nat (total os) < 2 ^ 62)%N ->
  exists b c, calls (BufferNewWithCapacity cap) os = Ok b /\ BufferCopy b = Ok c /\
    represents c (mkA CSTRING (upto_nul (abytes (fold_left step os fresh))) true).
Proof.
  intros P L B. destruct (new_spec P) as [b0 [-> [R0 _]]].
  destruct (@calls_spec os b0 fresh R0 L B) as [b [E R]]. exists b.
  assert (SZ : (N.of_nat (length (abytes (fold_left step os fresh))) < 2 ^ 62)%N).
  { assert (forall st, length (abytes (fold_left step os st)) <= length (abytes st) + total os).
    { clear. induction os as [|o os IH]; intros st; cbn [fold_left total fold_right]; [lia|]. fold (total os). pose proof (IH (step st o)). pose proof (step_len st o). lia. }
    specialize (H fresh). cbn [fresh abytes length] in H. lia. }
  destruct R as [_ [U [_ [_ [x [r [Em _]]]]]]].
  unfold BufferCopy. rewrite U, Em. destruct (@C21_BufferNewFrom (abytes (fold_left step os fresh)) (x :: r) SZ) as [c [Ec Rc]].
  exists c. auto.
Qed.
Theorem C21_copy_loses_bytes_refuted :
  ~ (forall b c, calls BufferNew [OMode BYTEARRAY; OAppend [ascii_of_nat 1; NUL; ascii_of_nat 2]] = Ok b -> BufferCopy b = Ok c -> BufferSize c = BufferSize b).
Proof.
  intros H. assert (K : exists b c, calls BufferNew [OMode BYTEARRAY; OAppend [ascii_of_nat 1; NUL; ascii_of_nat 2]] = Ok b /\ BufferCopy b = Ok c /\ BufferSize c <> BufferSize b).
  { match eval vm_compute in (calls (BufferNew) [OMode BYTEARRAY; OAppend [ascii_of_nat 1; NUL; ascii_of_nat 2]]) with
    | Ok ?b => match eval vm_compute in (BufferCopy b) with Ok ?c => exists b, c end end.
    split; [vm_compute; reflexivity|]. split; [vm_compute; reflexivity|]. vm_compute. discriminate. }
  destruct K as [b [c [E [E' N]]]]. exact (N (H b c E E')).
Qed.
(** a buffer of capacity 0 is undefined behaviour: the terminator is written outside *)
Theorem C21_zero_capacity_refuted : BufferNewWithCapacity 0 = UB.
Proof. reflexivity. Qed.
(** switching a byte array back to a C string can leave it unterminated *)
Theorem C21_mode_switch_unterminated_refuted : exists b,
  calls (BufferNewWithCapacity 2) [OMode BYTEARRAY; OAppend (lit "a"); OMode CSTRING] = Ok b /\
  BufferMode b = CSTRING /\ mstr (bmem b) = UB.
Proof. eexists. split; [reflexivity|]. split; reflexivity. Qed.
(** appending a NUL character in C string mode is counted when there is room and
    dropped when there is none *)
Theorem C21_append_nul_depends_on_room_refuted : exists b1 b2,
  calls (BufferNewWithCapacity 3) [OString (lit "a"); OChar NUL] = Ok b1 /\ BufferSize b1 = 2 /\
  calls (BufferNewWithCapacity 1) [OChar NUL] = Ok b2 /\ BufferSize b2 = 0.
Proof. do 2 eexists. split; [vm_compute; reflexivity|]. split; [reflexivity|]. split; vm_compute; reflexivity. Qed.

(** the hypotheses are met by a history that uses every call and both growth paths *)
Example C21_example : let os := [OString (lit "a b"); OChar "c"%char; OPrintf (lit "hello, world"); OAppendF (lit "!?"); OCanonify;
    ORewrite isalpha false; OTrim 7; OMode BYTEARRAY; OAppend [NUL; "x"%char]; OMode CSTRING; OSet (lit "z")] in
  legal_history fresh os /\ exists b, calls (BufferNewWithCapacity 1) os = Ok b /\ mstr (bmem b) = Ok (lit "z").
Proof.
  split.
  - assert (A : forall s, bytes_eqb (upto_nul s) s = true -> is_cstr s).
    { intros s H. apply bytes_eqb_eq in H. rewrite <- H. apply upto_nul_cstr. }
    cbn [legal_history legal amode step abytes aterm fresh]. repeat split; try (apply A; vm_compute; reflexivity); try discriminate.
  - eexists. split; vm_compute; reflexivity.
Qed.

(* ------------------------------------------------------------------------- C22 *)
(** lexicographic order of bytes taken as signed chars, as (char) comparison has it *)
Definition sbefore (a b : list byte) : Prop :=
  (exists c t, b = a ++ c :: t) \/
  (exists p x y t u, a = p ++ x :: t /\ b = p ++ y :: u /\ (scode x < scode y)%Z).

Definition flip (c : byte) : byte := match c with Ascii a b c d e f g h => Ascii a b c d e f g (negb h) end.
Lemma flip_code c : Z.of_N (code (flip c)) = (scode c + 128)%Z.
Proof. destruct c as [[] [] [] [] [] [] [] []]; reflexivity. Qed.
Lemma flip_flip c : flip (flip c) = c.
Proof. destruct c as [a b c d e f g h]. cbn. rewrite negb_involutive. reflexivity. Qed.
Lemma map_flip_flip l : map flip (map flip l) = l.
Proof. rewrite map_map. induction l as [|c l IH]; [reflexivity|]. cbn [map]. rewrite flip_flip, IH. reflexivity. Qed.
Lemma flip_inj a b : map flip a = map flip b -> a = b.
Proof. intros H. rewrite <- (map_flip_flip a), <- (map_flip_flip b), H. reflexivity. Qed.

Lemma sbefore_flip a b : sbefore a b <-> before (map flip a) (map flip b).
Proof.
  split.
  - intros [[c [t ->]]|[p [x [y [t [u [-> [-> H]]]]]]]].
    + left. exists (flip c), (map flip t). rewrite map_app. reflexivity.
    + right. exists (map flip p), (flip x), (flip y), (map flip t), (map flip u). rewrite !map_app. split; [reflexivity|]. split; [reflexivity|].
      pose proof (flip_code x). pose proof (flip_code y). lia.
  - intros [[c [t E]]|[p [x [y [t [u [E1 [E2 H]]]]]]]].
    + left. exists (flip c), (map flip t). apply flip_inj. rewrite E, map_app. cbn [map]. rewrite flip_flip, map_flip_flip. reflexivity.
    + right. exists (map flip p), (flip x), (flip y), (map flip t), (map flip u).
      rewrite <- (map_flip_flip a), <- (map_flip_flip b), E1, E2, !map_app. split; [reflexivity|]. split; [reflexivity|].
      pose proof (flip_code (flip x)). pose proof (flip_code (flip y)). rewrite flip_flip in *. lia.
Qed.
Lemma sbefore_irrefl a : ~ sbefore a a.
Proof. rewrite sbefore_flip. apply before_irrefl. Qed.
Lemma sbefore_trans a b c : sbefore a b -> sbefore b c -> sbefore a c.
Proof. rewrite !sbefore_flip. apply before_trans. Qed.
Lemma sbefore_total a b : sbefore a b \/ a = b \/ sbefore b a.
Proof. rewrite !sbefore_flip. destruct (before_total (map flip a) (map flip b)) as [|[H|]]; auto. right. left. apply flip_inj, H. Qed.

Fixpoint scmp (a b : list byte) : Z :=
  match a, b with
  | [], [] => 0
  | [], _ => -1
  | _, [] => 1
  | x :: a, y :: b => if (scode x <? scode y)%Z then -1 else if (scode y <? scode x)%Z then 1 else scmp a b
  end%Z.
Lemma scode_inj x y : scode x = scode y -> x = y.
Proof.
  intros H. rewrite <- (flip_flip x), <- (flip_flip y). f_equal. pose proof (flip_code x). pose proof (flip_code y).
  apply code_inj. lia.
Qed.
Lemma scmp_spec a : forall b, (scmp a b = -1 <-> sbefore a b)%Z /\ (scmp a b = 0 <-> a = b)%Z /\ (scmp a b = 1 <-> sbefore b a)%Z.
Proof.
  assert (Main : forall a b, (scmp a b = -1 /\ sbefore a b \/ scmp a b = 0 /\ a = b \/ scmp a b = 1 /\ sbefore b a)%Z).
  { clear a. induction a as [|x a IH]; intros [|y b]; cbn [scmp].
    - right; left; auto.
    - left. split; [reflexivity|]. left. exists y, b. reflexivity.
    - right; right. split; [reflexivity|]. left. exists x, a. reflexivity.
    - destruct (Z.ltb_spec (scode x) (scode y)) as [H|H].
      + left. split; [reflexivity|]. right. exists [], x, y, a, b. auto.
      + destruct (Z.ltb_spec (scode y) (scode x)) as [H'|H'].
        * right; right. split; [reflexivity|]. right. exists [], y, x, b, a. auto.
        * assert (x = y) as <- by (apply scode_inj; lia).
          assert (Cx : forall a b, sbefore a b -> sbefore (x :: a) (x :: b)).
          { intros u v [[c [t ->]]|[p [x' [y' [t [w [-> [-> K]]]]]]]]; [left; exists c, t; reflexivity|right; exists (x :: p), x', y', t, w; auto]. }
          destruct (IH b) as [[-> K]|[[-> ->]|[-> K]]]; auto. }
  intros b. pose proof (@sbefore_irrefl a) as I1. pose proof (@sbefore_trans a b a) as TT.
  destruct (Main a b) as [[-> K]|[[-> ->]|[-> K]]]; (split; [|split]); split; intros X; auto; try discriminate; exfalso; subst; auto.
Qed.

Lemma cmp_loop_spec fuel : forall p a b r s after bound, bound = length p + Nat.min (length a) (length b) -> Nat.min (length a) (length b) < fuel ->
  (after = scmp (skipn (Nat.min (length a) (length b)) a) (skipn (Nat.min (length a) (length b)) b)) ->
  cmp_loop fuel (length p) (map Some (p ++ a) ++ r) (map Some (p ++ b) ++ s) bound after = Ok (scmp a b).
Proof.
  induction fuel as [|g IH]; intros p a b r s after bound Eb F A; [lia|]. cbn [cmp_loop].
  destruct (Nat.ltb_spec (length p) bound) as [H|H].
  - destruct a as [|x a]; [cbn in Eb; lia|]. destruct b as [|y b]; [cbn in Eb; lia|].
    rewrite !map_app, <- !app_assoc. cbn [map app]. rewrite !EditProofs2.aget_mid by reflexivity. cbn [bind scmp].
    destruct (Z.ltb_spec (scode x) (scode y)) as [|H1]; [reflexivity|]. destruct (Z.ltb_spec (scode y) (scode x)) as [|H2]; [reflexivity|].
    assert (x = y) as <- by (apply scode_inj; lia).
    specialize (IH (p ++ [x]) a b r s after bound). rewrite !app_length, !map_app, <- !app_assoc in IH. cbn [length map app Nat.min skipn] in *.
    replace (S (length p)) with (length p + 1) by lia. apply IH; [lia|lia|exact A].
  - assert (Nat.min (length a) (length b) = 0) as Z0 by lia. rewrite Z0 in A. cbn [skipn] in A. rewrite A. reflexivity.
Qed.

Lemma byte_compare_spec b1 b2 s1 s2 : rep b1 s1 -> rep b2 s2 -> byte_compare b1 b2 = Ok (scmp (abytes s1) (abytes s2)).
Proof.
  intros [_ [U1 [_ [_ [x1 [r1 [E1 _]]]]]]] [_ [U2 [_ [_ [x2 [r2 [E2 _]]]]]]]. unfold byte_compare. rewrite U1, U2, E1, E2.
  set (a := abytes s1). set (b := abytes s2).
  pose proof (fun f after bound => @cmp_loop_spec f [] a b (x1 :: r1) (x2 :: r2) after bound) as X. cbn [length app] in X.
  assert (NZ : forall l : list byte, l <> [] -> scmp [] l = (-1)%Z /\ scmp l [] = 1%Z) by (intros [|? ?]; cbn; [congruence|auto]).
  destruct (Nat.ltb_spec (length a) (length b)).
  - apply X; [lia|lia|]. rewrite Nat.min_l by lia. rewrite skipn_all. symmetry. apply NZ. intros K. apply (f_equal (@length _)) in K. rewrite skipn_length in K. cbn in K. lia.
  - destruct (Nat.eqb_spec (length a) (length b)) as [K|K].
    + apply X; [lia|lia|]. rewrite K, Nat.min_id. rewrite <- K at 1. rewrite !skipn_all. reflexivity.
    + apply X; [lia|lia|]. rewrite Nat.min_r by lia. rewrite skipn_all. symmetry. apply NZ. intros K'. apply (f_equal (@length _)) in K'. rewrite skipn_length in K'. cbn in K'. lia.
Qed.

Lemma represents_rep b st : represents b st -> (amode st = CSTRING -> is_cstr (abytes st)) -> rep b st.
Proof.
  unfold represents, BufferMode, BufferSize, BufferCapacity. intros [M [U [L [LT [F T]]]]] C. split; [exact M|]. split; [exact U|]. split; [exact L|]. split; [exact C|].
  destruct (skipn (bused b) (bmem b)) as [|x r] eqn:E.
  - apply (f_equal (@length _)) in E. rewrite skipn_length in E. cbn in E. lia.
  - exists x, r. split; [rewrite <- F, <- E, firstn_skipn; reflexivity|]. intros Ht. specialize (T Ht).
    assert (N0 : nth_error (skipn (bused b) (bmem b)) 0 = Some x) by (rewrite E; reflexivity).
    rewrite <- (firstn_skipn (bused b) (bmem b)), nth_error_app2 in T by (rewrite firstn_length; lia).
    rewrite firstn_length, Nat.min_l in T by lia. rewrite Nat.sub_diag in T. congruence.
Qed.

(** Two byte arrays, or a byte array and a C string, compare by signed bytes, the
    shorter first when one is a prefix of the other. *)
Theorem C22_bytes strcmp b1 b2 s1 s2 : represents b1 s1 -> represents b2 s2 ->
  (amode s1 = CSTRING -> is_cstr (abytes s1)) -> (amode s2 = CSTRING -> is_cstr (abytes s2)) ->
  amode s1 = BYTEARRAY \/ amode s2 = BYTEARRAY ->
  exists r, BufferCompare strcmp b1 b2 = Ok r /\ (r = -1 <-> sbefore (abytes s1) (abytes s2))%Z /\ (r = 0 <-> abytes s1 = abytes s2)%Z /\
    (r = 1 <-> sbefore (abytes s2) (abytes s1))%Z.
Proof.
  intros R1 R2 C1 C2 M. pose proof (represents_rep R1 C1) as P1. pose proof (represents_rep R2 C2) as P2.
  exists (scmp (abytes s1) (abytes s2)). split; [|apply scmp_spec]. unfold BufferCompare.
  assert (E1 : bmd b1 = amode s1) by apply P1. assert (E2 : bmd b2 = amode s2) by apply P2.
  rewrite E1, E2. pose proof (byte_compare_spec P1 P2) as X. destruct M as [M|M]; rewrite M; [destruct (amode s2)|destruct (amode s1)]; exact X.
Qed.

(** Two terminated C string buffers compare as strcmp does: by unsigned bytes. *)
Theorem C22_cstrings strcmp b1 b2 s1 s2 : strcmp_ok strcmp -> represents b1 s1 -> represents b2 s2 ->
  amode s1 = CSTRING -> amode s2 = CSTRING -> is_cstr (abytes s1) -> is_cstr (abytes s2) -> aterm s1 = true -> aterm s2 = true ->
  exists r, BufferCompare strcmp b1 b2 = Ok r /\ (r = -1 <-> before (abytes s1) (abytes s2))%Z /\ (r = 0 <-> abytes s1 = abytes s2)%Z /\
    (r = 1 <-> before (abytes s2) (abytes s1))%Z.
Proof.
  intros OK R1 R2 M1 M2 C1 C2 T1 T2. destruct (represents_rep R1 (fun _ => C1)) as [E1 [_ [_ [_ [x1 [r1 [Em1 X1]]]]]]].
  destruct (represents_rep R2 (fun _ => C2)) as [E2 [_ [_ [_ [x2 [r2 [Em2 X2]]]]]]]. unfold BufferCompare. rewrite E1, E2, M1, M2.
  assert (H1 : holds (bmem b1) (abytes s1)) by (split; [exact C1|exists r1; rewrite Em1, X1 by exact T1; reflexivity]). apply mstr_holds in H1. rewrite H1.
  assert (H2 : holds (bmem b2) (abytes s2)) by (split; [exact C2|exists r2; rewrite Em2, X2 by exact T2; reflexivity]). apply mstr_holds in H2. rewrite H2.
  cbn [bind]. destruct (OK (abytes s1) (abytes s2)) as [[L [Q G]] RG]. set (r := strcmp (abytes s1) (abytes s2)) in *.
  destruct (Z.eqb_spec r 0) as [Z0|NZ].
  - exists 0%Z. split; [reflexivity|]. rewrite <- L, <- Q, <- G, Z0. repeat split; lia.
  - destruct (Z.eqb_spec r INT_MIN) as [K|K]; [lia|]. exists (Z.quot r (Z.abs r)). split; [reflexivity|].
    assert (QV : Z.quot r (Z.abs r) = Z.sgn r).
    { destruct (Z.lt_trichotomy r 0) as [H|[H|H]]; [|lia|].
      - rewrite Z.abs_neq by lia. rewrite Z.sgn_neg by lia. rewrite Z.quot_opp_r by lia. rewrite Z.quot_same by lia. reflexivity.
      - rewrite Z.abs_eq by lia. rewrite Z.sgn_pos by lia. apply Z.quot_same. lia. }
    rewrite QV, <- L, <- Q, <- G. destruct (Z.sgn_spec r) as [[H ->]|[[H ->]|[H ->]]]; (split; [|split]); split; lia.
Qed.

(** each of the two orders is a strict total order *)
Theorem C22_total_orders :
  ((forall a, ~ sbefore a a) /\ (forall a b c, sbefore a b -> sbefore b c -> sbefore a c) /\ (forall a b, sbefore a b \/ a = b \/ sbefore b a)) /\
  ((forall a, ~ before a a) /\ (forall a b c, before a b -> before b c -> before a c) /\ (forall a b, before a b \/ a = b \/ before b a)).
Proof.
  split; (split; [|split]).
  - exact sbefore_irrefl. - exact sbefore_trans. - exact sbefore_total.
  - exact before_irrefl. - exact before_trans. - exact before_total.
Qed.

(** in a mix of modes comparing is not transitive: for every correct strcmp, with bytes
    of 0x80 and more the two orders disagree *)
Theorem C22_mixed_modes_refuted strcmp : strcmp_ok strcmp ->
  exists x y z, calls BufferNew [OString [ascii_of_nat 128]] = Ok x /\ calls BufferNew [OString (lit "a")] = Ok y /\
    calls BufferNew [OMode BYTEARRAY; OAppend (lit "B")] = Ok z /\
    BufferCompare strcmp x z = Ok (-1)%Z /\ BufferCompare strcmp z y = Ok (-1)%Z /\ BufferCompare strcmp x y = Ok 1%Z.
Proof.
  intros OK.
  assert (CS : forall s, bytes_eqb (upto_nul s) s = true -> is_cstr s).
  { intros s H. apply bytes_eqb_eq in H. rewrite <- H. apply upto_nul_cstr. }
  destruct (@C21_BufferNew [OString [ascii_of_nat 128]]) as [x [Ex Rx]]; [split; [apply CS; reflexivity|exact Logic.I]|reflexivity|].
  destruct (@C21_BufferNew [OString (lit "a")]) as [y [Ey Ry]]; [split; [apply CS; reflexivity|exact Logic.I]|reflexivity|].
  destruct (@C21_BufferNew [OMode BYTEARRAY; OAppend (lit "B")]) as [z [Ez Rz]]; [cbn; auto|reflexivity|].
  exists x, y, z. do 3 (split; [assumption|]). cbn in Rx, Ry, Rz.
  destruct (@C22_bytes strcmp x z _ _ Rx Rz) as [r1 [E1 [[_ H1] _]]]; [intros _; apply CS; reflexivity|discriminate|right; reflexivity|].
  destruct (@C22_bytes strcmp z y _ _ Rz Ry) as [r2 [E2 [[_ H2] _]]]; [discriminate|intros _; apply CS; reflexivity|left; reflexivity|].
  destruct (@C22_cstrings strcmp x y _ _ OK Rx Ry) as [r3 [E3 [_ [_ [_ H3]]]]]; try reflexivity; try (apply CS; reflexivity).
  rewrite E1, E2, E3, H1, H2, H3.
  - auto.
  - right. exists [], "a"%char, (ascii_of_nat 128), [], []. repeat split.
  - right. exists [], "B"%char, "a"%char, [], []. repeat split.
  - right. exists [], (ascii_of_nat 128), "B"%char, [], []. repeat split.
Qed.
