(** C140: NULL-tolerant string helpers; arrays of strings are freed completely. *)
From Verif Require Import Prelude PreludeFacts Str StrFacts Libc LibcFacts MemSpec EditSpec CompatModel CompatProofs.
From Verif Require Import EditModel EditProofs EditProofs4 ListModel StrHelpModel.
Set Implicit Arguments.

(** * Values *)
Theorem C140_duplicate_null mem size :
  SafeStringDuplicate mem None = Ok None /\ SafeStringNDuplicate mem None size = Ok None /\
  SafeStringLength None = Ok 0%Z /\ NULLStringToEmpty None = map Some [] ++ [Some NUL].
Proof. repeat split. Qed.

(** a fresh block of exactly the right size; the program ends without memory *)
Theorem C140_duplicate m s : holds m s ->
  SafeStringDuplicate true (Some m) = Ok (Some (map Some s ++ [Some NUL])) /\
  SafeStringDuplicate false (Some m) = Abort /\ NULLStringToEmpty (Some m) = m.
Proof.
  intros H. unfold SafeStringDuplicate, must. rewrite (strdup_spec H), block_eq. split; [reflexivity|].
  split; [|reflexivity]. unfold strdup. rewrite (proj2 (mstr_holds m s) H). reflexivity.
Qed.
Theorem C140_nduplicate s max r : is_cstr s -> max <= length s \/ (exists r', r = Some NUL :: r') ->
  SafeStringNDuplicate true (Some (map Some s ++ r)) max = Ok (Some (map Some (firstn max s) ++ [Some NUL])) /\
  SafeStringNDuplicate false (Some (map Some s ++ r)) max = Abort.
Proof.
  intros C H. unfold SafeStringNDuplicate, must. rewrite (strndup_spec C H), block_eq. split; [reflexivity|].
  unfold strndup. rewrite (strnlen_spec C H). reflexivity.
Qed.

(** the length, as long as an int can hold it *)
Theorem C140_length_partial m s : holds m s -> (Z.of_nat (length s) < 2 ^ 31)%Z ->
  SafeStringLength (Some m) = Ok (Z.of_nat (length s)).
Proof.
  intros H L. unfold SafeStringLength. rewrite (proj2 (mstr_holds m s) H). cbn [bind]. f_equal.
  rewrite Z.mod_small; lia.
Qed.
(** a string of 2 GiB has a negative length *)
Theorem C140_length_refuted : exists m s, holds m s /\
  exists z, SafeStringLength (Some m) = Ok z /\ (z < 0)%Z.
Proof.
  pose (s := repeat "a"%char (Z.to_nat (2 ^ 31))).
  assert (C : is_cstr s) by (unfold is_cstr; intros I; apply repeat_spec in I; discriminate).
  assert (H : holds (map Some s ++ [Some NUL]) s) by (split; [exact C|exists []; reflexivity]).
  exists (map Some s ++ [Some NUL]), s. split; [exact H|].
  unfold SafeStringLength. rewrite (proj2 (mstr_holds _ s) H). cbn [bind].
  eexists. split; [reflexivity|].
  assert (L : Z.of_nat (length s) = (2 ^ 31)%Z) by (unfold s; rewrite repeat_length; apply Z2Nat.id; lia).
  rewrite L. reflexivity.
Qed.

Theorem C140_contains mh h mn n : holds mh h -> holds mn n ->
  exists b, StringContains mh mn = Ok b /\ (b = true <-> exists i, occurs_at n h i).
Proof.
  intros H N. unfold StringContains. rewrite (proj2 (mstr_holds _ _) H), (proj2 (mstr_holds _ _) N). cbn [bind].
  eexists. split; [reflexivity|]. destruct (strstr h n) as [i|] eqn:E.
  - split; [|auto]. intros _. apply strstr_Some in E as [O _]. exists i. exact O.
  - split; [discriminate|]. intros [i O]. destruct (strstr_None E O).
Qed.
(** the terminator counts as a character of the string, as for strchr *)
Theorem C140_contains_char m s c : holds m s ->
  exists b, StringContainsChar m c = Ok b /\ (b = true <-> In c (s ++ [NUL])).
Proof.
  intros H. unfold StringContainsChar. rewrite (proj2 (mstr_holds _ _) H). cbn [bind].
  eexists. split; [reflexivity|]. clear H. induction s as [|x t IH]; cbn [strchr app In].
  - destruct (beq_spec c NUL) as [->|N]; split; auto; try discriminate. intros [E|[]]; congruence.
  - destruct (beq_spec x c) as [->|N]; [split; auto|]. destruct (strchr t c) as [j|]; cbn [option_map].
    + split; [|auto]. intros _. right. apply IH. reflexivity.
    + split; [discriminate|]. intros [E|I]; [congruence|]. apply IH, I.
Qed.

Example C140_values_ex :
  SafeStringDuplicate true (Some (block (lit "abc"))) = Ok (Some (block (lit "abc"))) /\
  SafeStringNDuplicate true (Some (block (lit "abc"))) 2 = Ok (Some (block (lit "ab"))) /\
  SafeStringLength (Some (block (lit "abc"))) = Ok 3%Z /\
  StringContains (block (lit "abc")) (block (lit "bc")) = Ok true /\
  StringContains (block (lit "abc")) (block (lit "cb")) = Ok false /\
  StringContainsChar (block (lit "abc")) "c"%char = Ok true /\
  StringContainsChar (block (lit "abc")) "d"%char = Ok false.
Proof. repeat split. Qed.

(** * Arrays of strings *)

(** the block [a] holds the addresses [ps], then NULL *)
Definition array_at (w : sheap) (a : nat) (ps : list nat) : Prop :=
  exists r, hmem (arrs_ w) a = Some (map (fun p => Some (Some p)) ps ++ Some None :: r).

Lemma mm ps : map (fun p : nat => Some (Some p)) ps = map (@Some (option nat)) (map Some ps).
Proof. rewrite map_map. reflexivity. Qed.

Lemma free_loop_spec a r : forall ps g w k,
  hmem (arrs_ w) a = Some (map (@Some (option nat)) (repeat None k) ++ map (fun p => Some (Some p)) ps ++ Some None :: r) ->
  NoDup ps -> (forall p, In p ps -> hmem (strs_ w) p <> None) -> length ps < g ->
  exists w', free_loop g w a k = Ok w' /\ hfresh (strs_ w') = hfresh (strs_ w) /\ hfresh (arrs_ w') = hfresh (arrs_ w) /\
    (forall p, In p ps -> hmem (strs_ w') p = None) /\
    (forall p, ~ In p ps -> hmem (strs_ w') p = hmem (strs_ w) p) /\
    (exists x, hmem (arrs_ w') a = Some x) /\
    (forall b, b <> a -> hmem (arrs_ w') b = hmem (arrs_ w) b).
Proof.
  induction ps as [|p ps IH]; intros g w k E ND LV L; (destruct g as [|g]; [cbn in L; lia|]); cbn [free_loop];
    unfold hload at 1; rewrite E; cbn [bind].
  - assert (G : aget (map (@Some (option nat)) (repeat None k) ++ map (fun p => Some (Some p)) [] ++ Some None :: r) k = Ok None).
    { cbn [map app]. unfold aget. rewrite nth_error_app2 by (rewrite map_length, repeat_length; lia).
      rewrite map_length, repeat_length, Nat.sub_diag. reflexivity. }
    rewrite G. cbn [bind]. exists w. split; [reflexivity|]. repeat (split; [reflexivity|]).
    split; [intros q []|]. split; [auto|]. split; [eauto|auto].
  - assert (G : aget (map (@Some (option nat)) (repeat None k) ++ map (fun p => Some (Some p)) (p :: ps) ++ Some None :: r) k = Ok (Some p)).
    { cbn [map app]. unfold aget. rewrite nth_error_app2 by (rewrite map_length, repeat_length; lia).
      rewrite map_length, repeat_length, Nat.sub_diag. reflexivity. }
    rewrite G. cbn [bind]. clear G.
    assert (P : exists x, hmem (strs_ w) p = Some x).
    { specialize (LV p (or_introl eq_refl)). destruct (hmem (strs_ w) p); [eauto|congruence]. }
    destruct P as [x P]. unfold hfree, hload at 1. rewrite P. cbn [bind].
    assert (AS : aset (map (@Some (option nat)) (repeat None k) ++ map (fun p => Some (Some p)) (p :: ps) ++ Some None :: r) k None
               = Ok (map (@Some (option nat)) (repeat None (S k)) ++ map (fun p => Some (Some p)) ps ++ Some None :: r)).
    { cbn [map app]. pose proof (aset_rep_end (repeat (@None nat) k) (Some (Some p)) (map (fun p => Some (Some p)) ps ++ Some None :: r) None) as X.
      rewrite repeat_length in X. rewrite X. do 3 f_equal.
      change [@None nat] with (repeat (@None nat) 1). rewrite <- repeat_app. f_equal. lia. }
    rewrite AS. cbn [bind]. unfold hstore, hload at 1. rewrite E. cbn [bind].
    inversion ND as [|? ? NI ND']; subst.
    edestruct (IH g (mkSH (hput (strs_ w) p None) (hput (arrs_ w) a
       (Some (map (@Some (option nat)) (repeat None (S k)) ++ map (fun p => Some (Some p)) ps ++ Some None :: r)))) (S k))
      as [w' [R [F1 [F2 [D [U [X O]]]]]]].
    + cbn [arrs_ hput hmem]. rewrite Nat.eqb_refl. reflexivity.
    + exact ND'.
    + intros q I. cbn [strs_ hput hmem]. destruct (Nat.eqb_spec q p) as [->|_]; [contradiction|]. apply LV. right. exact I.
    + cbn in L. lia.
    + exists w'. split; [exact R|]. split; [exact F1|]. split; [exact F2|]. cbn [strs_ arrs_ hput hmem] in U, O.
      split; [|split; [|split; [exact X|]]].
      * intros q [<-|I]; [|apply D, I]. rewrite U by exact NI. rewrite Nat.eqb_refl. reflexivity.
      * intros q NI'. rewrite U by (intros I; apply NI'; right; exact I).
        destruct (Nat.eqb_spec q p) as [->|_]; [|reflexivity]. exfalso. apply NI'. left. reflexivity.
      * intros b B. rewrite O by exact B. destruct (Nat.eqb_spec b a); congruence.
Qed.

(** FreeStringArray frees every string of the array and the array, each once, and
    leaves all other memory alone *)
Theorem C140_free_array w a ps : array_at w a ps -> NoDup ps -> (forall p, In p ps -> hmem (strs_ w) p <> None) ->
  exists w', FreeStringArray w (Some a) = Ok w' /\
    (forall p, hmem (strs_ w') p = if existsb (Nat.eqb p) ps then None else hmem (strs_ w) p) /\
    (forall b, hmem (arrs_ w') b = if b =? a then None else hmem (arrs_ w) b).
Proof.
  intros [r E] ND LV. unfold FreeStringArray, hload at 1. rewrite E. cbn [bind].
  destruct (@free_loop_spec a r ps (S (length (map (fun p => Some (Some p)) ps ++ Some None :: r))) w 0 E ND LV)
    as [w' [R [_ [_ [D [U [[x X] O]]]]]]].
  { rewrite app_length, map_length. lia. }
  rewrite R. cbn [bind]. unfold hfree, hload. rewrite X. cbn [bind].
  eexists. split; [reflexivity|]. cbn [strs_ arrs_ hput hmem]. split.
  - intros p. destruct (existsb (Nat.eqb p) ps) eqn:I.
    + apply existsb_exists in I as [q [I Q]]. apply Nat.eqb_eq in Q as <-. apply D, I.
    + apply U. intros J. assert (K : existsb (Nat.eqb p) ps = true) by (apply existsb_exists; exists p; rewrite Nat.eqb_refl; auto). congruence.
  - intros b. destruct (Nat.eqb_spec b a); [reflexivity|]. apply O. assumption.
Qed.
Theorem C140_free_null w : FreeStringArray w None = Ok w.
Proof. reflexivity. Qed.

(** * Making and freeing an array *)
Lemma put_piece_ok w a done n sp len : is_cstr sp -> len <= length sp ->
  hmem (arrs_ w) a = Some (map (@Some (option nat)) done ++ repeat (Some None) (S n)) ->
  put_piece w a (length done) sp len =
    Ok (mkSH (mkHeap (fun q => if q =? hfresh (strs_ w) then Some (block (firstn len sp)) else hmem (strs_ w) q) (S (hfresh (strs_ w))))
             (hput (arrs_ w) a (Some (map (@Some (option nat)) (done ++ [Some (hfresh (strs_ w))]) ++ repeat (Some None) n)))).
Proof.
  intros C L E. unfold put_piece.
  assert (COPY : acopy (repeat (Some NUL) (len + 1)) 0 (block sp) 0 len = Ok (block (firstn len sp))).
  { pose proof (@copy_at [] sp (repeat (Some NUL) (len + 1)) 0 len eq_refl) as X. cbn [map app] in X.
    rewrite repeat_length in X. rewrite X by lia. rewrite block_eq. do 2 f_equal.
    rewrite repeat_app, skipn_app_ge by (rewrite repeat_length; lia). rewrite repeat_length, Nat.sub_diag. reflexivity. }
  rewrite COPY. cbn [bind halloc strs_ arrs_]. unfold hload at 1. rewrite E. cbn [bind].
  cbn [repeat]. rewrite aset_rep_end. cbn [bind]. unfold hstore, hload. rewrite E. reflexivity.
Qed.

(** what the loop leaves behind: [ps] at the addresses from the first fresh one on *)
Definition pieces_at (h : heap (cells byte)) (f : nat) (ps : list (list byte)) : Prop :=
  forall i p, nth_error ps i = Some p -> hmem h (f + i) = Some (block p).

Lemma pieces_loop_spec sep a : sep <> NUL -> forall g w done n sp, is_cstr sp -> length sp < g ->
  hmem (arrs_ w) a = Some (map (@Some (option nat)) done ++ repeat (Some None) (separators sp sep + 1 + n)) ->
  exists w' ps, pieces_loop g w a (length done) sp sep = Ok w' /\ pieces_of sep sp ps /\
    hmem (arrs_ w') a = Some (map (@Some (option nat)) (done ++ map Some (seq (hfresh (strs_ w)) (length ps))) ++ repeat (Some None) n) /\
    (forall b, b <> a -> hmem (arrs_ w') b = hmem (arrs_ w) b) /\
    pieces_at (strs_ w') (hfresh (strs_ w)) ps /\
    hfresh (strs_ w') = hfresh (strs_ w) + length ps /\
    (forall q, q < hfresh (strs_ w) \/ hfresh (strs_ w) + length ps <= q -> hmem (strs_ w') q = hmem (strs_ w) q).
Proof.
  intros NS. induction g as [|g IH]; intros w done n sp C L E; [lia|]. cbn [pieces_loop].
  pose proof (strchr_cases C NS) as SC. destruct (strchr sp sep) as [j|].
  - destruct SC as [x [y [Es [Lx NI]]]]. assert (Cy : is_cstr y) by (rewrite Es in C; apply is_cstr_app in C as [_ C]; apply is_cstr_cons in C; apply C).
    assert (Ly : length sp = j + S (length y)) by (rewrite Es, app_length, Lx; reflexivity).
    assert (SE : separators sp sep = S (separators y sep)).
    { rewrite Es. clear -NI. induction x as [|z x IHx]; cbn.
      - rewrite beq_refl. reflexivity.
      - assert (X : beq z sep = false) by (apply beq_false; intros ->; apply NI; left; reflexivity). rewrite X. cbn. apply IHx. intros I. apply NI. right. exact I. }
    assert (E1 : firstn j sp = x) by (rewrite Es, <- Lx, firstn_app_le, firstn_all by lia; reflexivity).
    assert (E2 : skipn (j + 1) sp = y).
    { rewrite Es, skipn_app_ge by lia. rewrite Lx. replace (j + 1 - j) with 1 by lia. reflexivity. }
    rewrite SE in E. cbn [Nat.add] in E. rewrite (@put_piece_ok w a done (separators y sep + 1 + n) sp j C) by (lia || exact E).
    cbn [bind]. destruct (Nat.ltb_spec j (length sp)); [|lia]. rewrite E1, E2.
    set (f := hfresh (strs_ w)).
    edestruct (IH (mkSH (mkHeap (fun q => if q =? f then Some (block x) else hmem (strs_ w) q) (S f))
             (hput (arrs_ w) a (Some (map (@Some (option nat)) (done ++ [Some f]) ++ repeat (Some None) (separators y sep + 1 + n)))))
             (done ++ [Some f]) n y Cy) as [w' [ps [R [P [A [O [PA [FR U]]]]]]]]; [lia| |].
    { cbn [arrs_ hput hmem]. rewrite Nat.eqb_refl. reflexivity. }
    rewrite app_length in R. cbn [length] in R. replace (length done + 1) with (S (length done)) in R by lia. cbn [strs_ arrs_ hfresh hmem hput] in A, O, PA, FR, U.
    exists w', (x :: ps). split; [exact R|]. split; [|split; [|split; [|split; [|split]]]].
    + destruct P as [P1 [P2 P3]]. split; [discriminate|]. split.
      * rewrite Es, <- P2. destruct ps; [congruence|]. reflexivity.
      * intros p [<-|I]; [exact NI|]. apply P3, I.
    + rewrite A. rewrite <- app_assoc. reflexivity.
    + intros b B. rewrite O by exact B. destruct (Nat.eqb_spec b a); congruence.
    + intros [|i] p I; cbn in I.
      * injection I as <-. rewrite Nat.add_0_r. rewrite U by lia. rewrite Nat.eqb_refl. reflexivity.
      * replace (f + S i) with (S f + i) by lia. apply PA, I.
    + cbn [length]. lia.
    + cbn [length]. intros q Q. rewrite U by lia. destruct (Nat.eqb_spec q f); [lia|reflexivity].
  - assert (SE : separators sp sep = 0).
    { clear -SC. induction sp as [|z x IHx]; cbn; [reflexivity|].
      assert (X : beq z sep = false) by (apply beq_false; intros ->; apply SC; left; reflexivity). rewrite X. cbn. apply IHx. intros I. apply SC. right. exact I. }
    rewrite SE in E. cbn [Nat.add] in E. rewrite (@put_piece_ok w a done n sp (length sp) C) by (lia || exact E).
    rewrite firstn_all. eexists _, [sp]. split; [reflexivity|]. cbn [strs_ arrs_ hfresh hmem hput length].
    split; [|split; [|split; [|split; [|split]]]].
    + split; [discriminate|]. split; [reflexivity|]. intros p [<-|[]]. exact SC.
    + rewrite Nat.eqb_refl. reflexivity.
    + intros b B. destruct (Nat.eqb_spec b a); congruence.
    + intros [|[|i]] p I; cbn in I; try discriminate. injection I as <-. cbn [hmem]. rewrite Nat.add_0_r, Nat.eqb_refl. reflexivity.
    + lia.
    + intros q Q. destruct (Nat.eqb_spec q (hfresh (strs_ w))); [lia|reflexivity].
Qed.

(** addresses are never reused *)
Definition fresh_ok (w : sheap) : Prop :=
  (forall q, hfresh (strs_ w) <= q -> hmem (strs_ w) q = None) /\
  (forall q, hfresh (arrs_ w) <= q -> hmem (arrs_ w) q = None).

(** String2StringArray stores the pieces between the separators in blocks of their own,
    and touches nothing that existed before *)
Theorem C140_make_array w m s sep : sep <> NUL -> holds m s -> fresh_ok w ->
  exists w' a ps qs, String2StringArray_heap w (Some m) sep = Ok (w', Some a) /\ pieces_of sep s ps /\
    array_at w' a qs /\ NoDup qs /\ map (hmem (strs_ w')) qs = map (fun p => Some (map Some p ++ [Some NUL])) ps /\
    (forall q, In q qs -> hmem (strs_ w) q = None) /\ hmem (arrs_ w) a = None /\
    (forall q, ~ In q qs -> hmem (strs_ w') q = hmem (strs_ w) q) /\
    (forall b, b <> a -> hmem (arrs_ w') b = hmem (arrs_ w) b).
Proof.
  intros NS H [F1 F2]. unfold String2StringArray_heap. rewrite (proj2 (mstr_holds _ _) H). cbn [bind halloc].
  destruct H as [C _]. set (a := hfresh (arrs_ w)).
  edestruct (@pieces_loop_spec sep a NS (S (length s)) (mkSH (strs_ w)
     (mkHeap (fun q => if q =? a then Some (repeat (Some None) (separators s sep + 2)) else hmem (arrs_ w) q) (S a))) [] 1 s C)
    as [w' [ps [R [P [A [O [PA [FR U]]]]]]]]; [lia| |].
  { cbn [arrs_ hmem]. rewrite Nat.eqb_refl. cbn [map app]. do 2 f_equal. lia. }
  cbn [length] in R. unfold halloc. fold a.
  match goal with |- context [bind ?X _] => replace X with (Ok w') by (symmetry; exact R) end. cbn [bind]. cbn [strs_ arrs_ hmem app] in A, O, PA, FR, U.
  exists w', a, ps, (seq (hfresh (strs_ w)) (length ps)). split; [reflexivity|]. split; [exact P|].
  split; [|split; [|split; [|split; [|split; [|split]]]]].
  - exists []. rewrite A, mm. reflexivity.
  - apply seq_NoDup.
  - clear -PA. revert PA. generalize (hfresh (strs_ w)) as f. induction ps as [|p ps IH]; intros f PA; [reflexivity|].
    cbn [length seq map]. rewrite IH.
    + f_equal. rewrite <- block_eq, <- (Nat.add_0_r f). apply PA. reflexivity.
    + intros i q I. replace (S f + i) with (f + S i) by lia. apply PA, I.
  - intros q I. apply in_seq in I. apply F1. lia.
  - apply F2. reflexivity.
  - intros q I. apply U. rewrite in_seq in I. lia.
  - intros b B. rewrite O by exact B. destruct (Nat.eqb_spec b a); congruence.
Qed.

(** making an array and freeing it gives back all the memory *)
Theorem C140_no_leak w m s sep : sep <> NUL -> holds m s -> fresh_ok w ->
  exists w' a w'', String2StringArray_heap w (Some m) sep = Ok (w', Some a) /\ FreeStringArray w' (Some a) = Ok w'' /\
    (forall q, hmem (strs_ w'') q = hmem (strs_ w) q) /\ (forall b, hmem (arrs_ w'') b = hmem (arrs_ w) b).
Proof.
  intros NS H F. destruct (C140_make_array NS H F) as [w' [a [ps [qs [R [P [A [ND [V [N1 [N2 [U O]]]]]]]]]]]].
  destruct (C140_free_array A ND) as [w'' [R' [X Y]]].
  { intros q I E. apply (in_map (hmem (strs_ w'))) in I. rewrite V in I. apply in_map_iff in I as [p [Q _]]. congruence. }
  exists w', a, w''. split; [exact R|]. split; [exact R'|]. split.
  - intros q. rewrite X. destruct (existsb (Nat.eqb q) qs) eqn:I.
    + apply existsb_exists in I as [q' [I Q]]. apply Nat.eqb_eq in Q as <-. symmetry. apply N1, I.
    + apply U. intros J. assert (K : existsb (Nat.eqb q) qs = true) by (apply existsb_exists; exists q; rewrite Nat.eqb_refl; auto). congruence.
  - intros b. rewrite Y. destruct (Nat.eqb_spec b a) as [->|B]; [symmetry; exact N2|]. apply O, B.
Qed.
(** freeing an array a second time is an error the program must not make *)
Theorem C140_double_free_ub w a : hmem (arrs_ w) a = None -> FreeStringArray w (Some a) = UB.
Proof. intros E. unfold FreeStringArray, hload. rewrite E. reflexivity. Qed.

Example C140_array_ex :
  let w0 := mkSH hempty hempty in
  match String2StringArray_heap w0 (Some (block (lit "a,,bc"))) ","%char with
  | Ok (w, Some a) =>
      map (hmem (strs_ w)) [0; 1; 2; 3] = [Some (block (lit "a")); Some (block []); Some (block (lit "bc")); None] /\
      hmem (arrs_ w) a = Some [Some (Some 0); Some (Some 1); Some (Some 2); Some None] /\
      match FreeStringArray w (Some a) with
      | Ok w' => map (hmem (strs_ w')) [0; 1; 2; 3] = [None; None; None; None] /\ hmem (arrs_ w') a = None
      | _ => False
      end
  | _ => False
  end.
Proof. vm_compute. repeat split. Qed.
Example C140_fresh_ex : fresh_ok (mkSH hempty hempty).
Proof. split; reflexivity. Qed.

Print Assumptions C140_duplicate_null. Print Assumptions C140_duplicate. Print Assumptions C140_nduplicate.
Print Assumptions C140_length_partial. Print Assumptions C140_length_refuted. Print Assumptions C140_contains.
Print Assumptions C140_contains_char. Print Assumptions C140_free_array. Print Assumptions C140_free_null.
Print Assumptions C140_make_array. Print Assumptions C140_no_leak. Print Assumptions C140_double_free_ub.
