(** Proofs about the string editing functions (part 2: bounded appending). *)
From Verif Require Import Prelude PreludeFacts Str StrFacts Libc LibcFacts MemSpec CmpModel EditModel EditSpec EditProofs.
Set Implicit Arguments.

Lemma aget_mid (a : list byte) (r : cells byte) c i : i = length a -> aget (map Some a ++ Some c :: r) i = Ok c.
Proof.
  intros ->. unfold aget. rewrite nth_error_app2 by (rewrite map_length; lia). rewrite map_length, Nat.sub_diag. reflexivity.
Qed.

Ltac okput := match goal with |- Ok (?a, ?x) = Ok (?b, ?x) => let E := fresh in assert (E : a = b); [|rewrite E; reflexivity] end.

(** * StringAppend *)
Lemma sa_find_spec fuel : forall a b r n, is_cstr b -> length b < fuel -> length a <= n ->
  sa_find fuel (length a) (map Some a ++ map Some b ++ Some NUL :: r) n = Ok (Nat.min n (length a + length b)).
Proof.
  induction fuel as [|g IH]; intros a b r n C L N; [lia|]. cbn [sa_find].
  destruct (Nat.ltb_spec (length a) n).
  - destruct b as [|c b].
    + cbn [map app]. rewrite aget_mid by reflexivity. cbn [bind]. rewrite beq_refl. f_equal. cbn. lia.
    + cbn [map app]. rewrite aget_mid by reflexivity. cbn [bind]. apply is_cstr_cons in C as [X C]. apply beq_false in X. rewrite X.
      specialize (IH (a ++ [c]) b r n). rewrite app_length, map_app, <- app_assoc in IH. cbn [length map app] in IH, L. rewrite Nat.add_1_r in IH.
      rewrite IH by (auto; lia). f_equal. cbn. lia.
  - f_equal. lia.
Qed.

Lemma sa_copy_spec fuel : forall d a b r n, is_cstr b -> length b < fuel -> length d <= n -> n < length d + length r ->
  sa_copy fuel (length d) (length a) (map Some d ++ r) (a ++ b) n
   = Ok (map Some (d ++ firstn (n - length d) b) ++ skipn (length (firstn (n - length d) b)) r,
         length d + length (firstn (n - length d) b), length a + length (firstn (n - length d) b)).
Proof.
  induction fuel as [|g IH]; intros d a b r n C L D R; [lia|]. cbn [sa_copy].
  destruct (Nat.ltb_spec (length d) n).
  - destruct b as [|c b].
    + rewrite chr_app_end. cbn [bind]. rewrite beq_refl, firstn_nil. cbn. rewrite app_nil_r, !Nat.add_0_r. reflexivity.
    + rewrite chr_app_mid. cbn [bind]. apply is_cstr_cons in C as [X C]. apply beq_false in X. rewrite X.
      rewrite write_at by (auto; lia). cbn [bind].
      specialize (IH (d ++ [c]) (a ++ [c]) b (skipn 1 r) n).
      rewrite !app_length, <- app_assoc, skipn_length in IH. cbn [length app] in IH, L. rewrite !Nat.add_1_r in IH.
      rewrite IH by (auto; lia). clear IH.
      replace (n - length d) with (S (n - S (length d))) by lia. cbn [firstn length].
      rewrite skipn_skipn, <- app_assoc. cbn [app]. rewrite Nat.add_1_r.
      f_equal. f_equal; [f_equal|]; lia.
  - replace (n - length d) with 0 by lia. cbn. rewrite app_nil_r, !Nat.add_0_r. reflexivity.
Qed.

Lemma StringAppend_spec m d src n : holds m d -> is_cstr src -> length d < n <= length m ->
  StringAppend m src n = Ok (put m (firstn (n - 1) (d ++ src)), length (d ++ src) <? n).
Proof.
  intros H C [L1 L2]. pose proof (holds_length H) as HL. destruct H as [Cd [r Em]].
  unfold StringAppend. destruct n as [|k]; [lia|]. cbn [predw]. replace (S k - 1) with k by lia.
  assert (F : sa_find (S (length m)) 0 m k = Ok (length d)).
  { rewrite Em at 2. etransitivity; [exact (@sa_find_spec (S (length m)) [] d r k Cd ltac:(lia) ltac:(cbn; lia))|]. f_equal. cbn. lia. }
  rewrite F. cbn [bind].
  assert (Er : length m = length d + S (length r)) by (rewrite Em, app_length, map_length; reflexivity).
  assert (S1 : sa_copy (S (length src)) (length d) 0 m src k =
     Ok (map Some (d ++ firstn (k - length d) src) ++ skipn (length (firstn (k - length d) src)) (Some NUL :: r),
         length d + length (firstn (k - length d) src), length (firstn (k - length d) src))).
  { rewrite Em at 1. exact (@sa_copy_spec (S (length src)) d [] src (Some NUL :: r) k C ltac:(lia) ltac:(lia) ltac:(cbn [length]; lia)). }
  rewrite S1. cbn [bind]. clear S1 F.
  set (w := firstn (k - length d) src). assert (Lw : length w = Nat.min (k - length d) (length src)) by apply firstn_length.
  assert (X : firstn k (d ++ src) = d ++ w) by (apply firstn_app_ge; lia).
  rewrite write_end; [|rewrite app_length; reflexivity|rewrite skipn_length; cbn [length]; lia]. cbn [bind].
  rewrite skipn_skipn. rewrite X.
  assert (P : map Some (d ++ w) ++ Some NUL :: skipn (1 + length w) (Some NUL :: r) = put m (d ++ w)).
  { apply put_eq. rewrite Em, app_length, skipn_app_ge by (rewrite map_length; lia). rewrite map_length.
    replace (S (length d + length w) - length d) with (1 + length w) by lia. reflexivity. }
  rewrite P. rewrite app_length.
  destruct (Nat.ltb_spec (length d + length w) k); destruct (Nat.ltb_spec (length d + length src) (S k)); try lia.
  - reflexivity.
  - assert (Ew : length w = length src) by lia. rewrite Ew, chr_end. cbn [bind]. rewrite beq_refl. reflexivity.
  - rewrite chr_lt by lia. cbn [bind]. assert (Y : beq (nth (length w) src NUL) NUL = false) by (apply beq_false, nth_cstr; auto; lia).
    rewrite Y. reflexivity.
Qed.

(** * StrCat *)
Lemma put_put m x y : length x <= length y -> put (put m x) y = put m y.
Proof.
  intros L. unfold put. do 2 f_equal. rewrite skipn_app, map_length, skipn_all2 by (rewrite map_length; lia).
  replace (S (length y) - length x) with (S (length y - length x)) by lia. cbn [skipn app]. rewrite skipn_skipn. f_equal. lia.
Qed.
Lemma put_self m x : holds m x -> put m x = m.
Proof. intros [_ [r E]]. eapply put_of, E. Qed.

Lemma split_hold m d : holds m d -> m = map Some d ++ skipn (length d) m.
Proof. intros [_ [r ->]]. rewrite skipn_app_ge, map_length, Nat.sub_diag by (rewrite map_length; lia). reflexivity. Qed.

Definition dlen_ok (dst_len : option nat) (d : list byte) : Prop :=
  match dst_len with None => True | Some n => n = length d end.

(** an append of [w] at the end of the held string *)
Lemma append_at m d s n : holds m d -> n <= length s -> length d + n < length m ->
  (let* m' := acopy m (length d) (block s) 0 n in aset m' (length d + n) NUL) = Ok (put m (d ++ firstn n s)).
Proof.
  intros H L1 L2. assert (E := split_hold H).
  set (r := skipn (length d) m) in *. assert (Lr : length r = length m - length d) by (unfold r; rewrite skipn_length; lia).
  rewrite E at 1. rewrite copy_at by (auto; lia). cbn [bind].
  rewrite write_end; [|rewrite app_length, firstn_length; lia|rewrite skipn_length; lia].
  apply (f_equal (@Ok (cells byte))). apply put_eq. unfold r. rewrite !skipn_skipn, app_length, firstn_length. f_equal. lia.
Qed.

Lemma StrCat_spec m d dst_size dst_len src src_len : holds m d -> length d < dst_size <= length m -> dlen_ok dst_len d ->
  src_len <= length src ->
  let s := if src_len =? 0 then src else firstn src_len src in
  StrCat m dst_size dst_len src src_len
   = Ok (put m (firstn (dst_size - 1) (d ++ s)), option_map (fun _ => length (d ++ s)) dst_len).
Proof.
  intros H [L1 L2] DL SL s. unfold StrCat.
  assert (ED : match dst_len with Some n => Ok n | None => let* d0 := mstr m in Ok (length d0) end = Ok (length d)).
  { destruct dst_len as [n|]; cbn in DL; [rewrite DL; reflexivity|]. apply mstr_holds in H. rewrite H. reflexivity. }
  rewrite ED. cbn [bind]. clear ED.
  assert (Es : s = firstn (if negb (src_len =? 0) then src_len else length src) src).
  { unfold s. destruct (src_len =? 0); cbn; [rewrite firstn_all; reflexivity|reflexivity]. }
  set (slen := if negb (src_len =? 0) then src_len else length src) in *.
  assert (Lsl : slen <= length src) by (unfold slen; destruct (src_len =? 0); cbn; lia).
  assert (Ls : length s = slen) by (rewrite Es, firstn_length; lia).
  rewrite app_length, Ls.
  destruct (Nat.leb_spec dst_size (length d + 1)).
  - cbn [bind]. do 2 f_equal. assert (dst_size = S (length d)) by lia. subst dst_size. replace (S (length d) - 1) with (length d) by lia.
    rewrite firstn_app_le, firstn_all by lia. symmetry. apply put_self, H.
  - destruct (Nat.ltb_spec (length d + slen) dst_size).
    + rewrite append_at by (auto; lia). cbn [bind]. do 2 f_equal. rewrite <- Es. f_equal. symmetry. apply firstn_all2. rewrite app_length. lia.
    + replace (dst_size <=? length d + slen) with true by (symmetry; apply Nat.leb_le; lia). cbn [massert].
      pose proof (@append_at m d src (dst_size - length d - 1) H ltac:(lia) ltac:(lia)) as X.
      replace (length d + (dst_size - length d - 1)) with (dst_size - 1) in X by lia.
      rewrite X. cbn [bind]. do 3 f_equal.
      rewrite firstn_app_ge by lia. f_equal. rewrite Es, firstn_firstn. f_equal. lia.
Qed.

(** appended to a buffer already reported full, only the count grows *)
Lemma StrCat_full m dst_size n src src_len : dst_size <= n + 1 ->
  StrCat m dst_size (Some n) src src_len
   = Ok (m, Some (n + if src_len =? 0 then length src else src_len)).
Proof.
  intros H. unfold StrCat. cbn [bind]. apply Nat.leb_le in H. rewrite H. cbn. destruct (src_len =? 0); reflexivity.
Qed.

(** * StrCatDelim *)
Lemma delim_length sep d s : length (delim sep d s) = if 0 <? length d then S (length d + length s) else length d + length s.
Proof. destruct d; cbn [delim length Nat.ltb Nat.leb]; [reflexivity|]. rewrite app_length. cbn. lia. Qed.

Lemma StrCatDelim_spec m d dst_size dst_len src sep : holds m d -> is_cstr src -> sep <> NUL -> length d < dst_size <= length m -> dlen_ok dst_len d ->
  let r := delim sep d src in
  StrCatDelim m dst_size dst_len src sep
   = Ok (if length r <? dst_size then put m r else m, option_map (fun _ => length r) dst_len).
Proof.
  intros H Cs Ns [L1 L2] DL r. unfold StrCatDelim.
  assert (ED : match dst_len with Some n => Ok n | None => let* d0 := mstr m in Ok (length d0) end = Ok (length d)).
  { destruct dst_len as [n|]; cbn in DL; [rewrite DL; reflexivity|]. apply mstr_holds in H. rewrite H. reflexivity. }
  rewrite ED. cbn [bind]. clear ED.
  assert (Lr := delim_length sep d src). fold r in Lr. rewrite <- Lr.
  destruct (Nat.leb_spec dst_size (length d + 1)).
  - cbn [bind]. do 2 f_equal. destruct (Nat.ltb_spec (length r) dst_size); [|reflexivity].
    destruct d as [|c d]; cbn [length] in *.
    + assert (E : src = []) by (apply length_zero_iff_nil; change (length r) with (length src) in *; lia).
      change r with src. rewrite E. symmetry. apply put_self. exact H.
    + change (0 <? S (length d)) with true in Lr. cbv iota in Lr. lia.
  - destruct (Nat.ltb_spec (length r) dst_size); [|reflexivity].
    destruct (Nat.ltb_spec 0 (length d)) as [P|Z].
    + cbn [bind]. assert (E := split_hold H).
      set (q := skipn (length d) m) in *. assert (Lq : length q = length m - length d) by (unfold q; rewrite skipn_length; lia).
      rewrite E at 1. rewrite write_at by (auto; lia). cbn [bind].
      rewrite copy_at; [|rewrite app_length; cbn; lia|rewrite skipn_length; lia|lia]. cbn [bind]. rewrite firstn_all.
      assert (Er : r = (d ++ [sep]) ++ src).
      { unfold r. destruct d; [cbn in P; lia|]. cbn [delim]. rewrite <- app_assoc. reflexivity. }
      rewrite <- Er. rewrite write_end; [|reflexivity|rewrite !skipn_length; lia]. cbn [bind]. do 2 f_equal.
      apply put_eq. unfold q. rewrite !skipn_skipn. f_equal. lia.
    + cbn [bind]. assert (d = []) by (destruct d; [reflexivity|cbn in Z; lia]). subst d. cbn [length] in *.
      assert (Er : r = src) by reflexivity.
      pose proof (@append_at m [] src (length src) H ltac:(lia) ltac:(rewrite Er in *; cbn; lia)) as X. cbn [length Nat.add] in X.
      rewrite firstn_all in X. cbn [app] in X. rewrite Er. 
      destruct (acopy m 0 (block src) 0 (length src)) as [m1| | |]; cbn [bind] in *; try discriminate. rewrite X. reflexivity.
Qed.

Lemma StrCatDelim_full m dst_size n src sep : dst_size <= n -> 0 < n ->
  StrCatDelim m dst_size (Some n) src sep = Ok (m, Some (S (n + length src))).
Proof.
  intros H P. unfold StrCatDelim. cbn [bind]. destruct (Nat.leb_spec dst_size (n + 1)); [|lia].
  destruct (Nat.ltb_spec 0 n); [|lia]. reflexivity.
Qed.

(** * PathAppend *)
Lemma PathAppend_spec m d path_size leaf sep : holds m d -> is_cstr leaf -> path_size <= length m ->
  forall base, (d = base ++ [sep] \/ (base = d /\ forall p, d <> p ++ [sep])) ->
  let r := base ++ sep :: leaf in
  PathAppend m path_size leaf sep = Ok (if length r <? path_size then (put m r, true) else (m, false)).
Proof.
  intros H C L base HB r. unfold PathAppend. rewrite (proj2 (mstr_holds m d) H). cbn [bind].
  assert (EH : (if 0 <? length d then let* c := aget m (length d - 1) in Ok (beq c sep) else Ok false)
      = Ok (if 0 <? length d then beq (nth (length d - 1) d NUL) sep else false)).
  { destruct (Nat.ltb_spec 0 (length d)); [|reflexivity]. rewrite (@holds_aget m d) by (auto; lia). reflexivity. }
  rewrite EH. cbn [bind]. clear EH.
  assert (EP : (if (if 0 <? length d then beq (nth (length d - 1) d NUL) sep else false) then length d - 1 else length d) = length base).
  { destruct HB as [->|[-> NE]].
    - rewrite app_length. cbn [length]. rewrite Nat.add_1_r. cbn [Nat.ltb Nat.leb]. replace (S (length base) - 1) with (length base) by lia.
      rewrite app_nth2, Nat.sub_diag by lia. cbn. rewrite beq_refl. reflexivity.
    - destruct (Nat.ltb_spec 0 (length d)); [|reflexivity].
      destruct (beq_spec (nth (length d - 1) d NUL) sep) as [E|N]; [|reflexivity].
      exfalso. apply (NE (firstn (length d - 1) d)). rewrite <- E, <- firstn_S_nth by lia.
      replace (S (length d - 1)) with (length d) by lia. symmetry. apply firstn_all. }
  rewrite EP. assert (Lr : length r = length base + 1 + length leaf) by (unfold r; rewrite app_length; cbn; lia).
  rewrite Lr. destruct (Nat.leb_spec path_size (length base + 1 + length leaf)); destruct (Nat.ltb_spec (length base + 1 + length leaf) path_size); try lia; [reflexivity|].
  assert (LB : length base <= length d) by (destruct HB as [->|[-> _]]; rewrite ?app_length; lia).
  assert (EB : m = map Some base ++ skipn (length base) m).
  { rewrite <- (firstn_skipn (length base) m) at 1. f_equal. destruct H as [_ [q ->]].
    rewrite firstn_app_le by (rewrite map_length; lia). rewrite firstn_map. f_equal.
    destruct HB as [->|[-> _]]; [rewrite firstn_app_le by lia|]; apply firstn_all. }
  set (q := skipn (length base) m) in *. assert (Lq : length q = length m - length base) by (unfold q; rewrite skipn_length; lia).
  rewrite EB at 1. rewrite write_at by (auto; lia). cbn [bind]. rewrite !Nat.add_1_r.
  rewrite copy_str_at; [|rewrite app_length; cbn; lia|rewrite skipn_length; lia]. cbn [bind].
  unfold r. rewrite <- app_assoc. cbn [app]. okput. apply put_eq. unfold q. rewrite !skipn_skipn, app_length. cbn [length]. f_equal. lia.
Qed.

(** * strlcpy *)
Lemma skip_str_spec fuel : forall a b, length b < fuel -> is_cstr b -> skip_str fuel (a ++ b) (length a) = Ok (S (length (a ++ b))).
Proof.
  induction fuel as [|g IH]; intros a b L C; [lia|]. cbn [skip_str]. destruct b as [|c b].
  - rewrite chr_app_end, app_nil_r. cbn [bind]. rewrite beq_refl. reflexivity.
  - rewrite chr_app_mid. cbn [bind]. apply is_cstr_cons in C as [X C]. apply beq_false in X. rewrite X.
    specialize (IH (a ++ [c]) b). rewrite app_length, <- app_assoc in IH. cbn [length app] in IH, L. rewrite Nat.add_1_r in IH.
    apply IH; auto; lia.
Qed.

Lemma strlcpy_loop_spec n : forall a b r, is_cstr b -> 0 < n -> n <= length r ->
  strlcpy_loop n (length a) (map Some a ++ r) (a ++ b) (length a) =
  (if length b <? n - 1
   then Ok (map Some (a ++ b) ++ Some NUL :: skipn (S (length b)) r, S (length (a ++ b)), S (length (a ++ b)), n - 1 - length b)
   else Ok (map Some (a ++ firstn (n - 1) b) ++ skipn (n - 1) r, length a + (n - 1), length a + (n - 1), 0)).
Proof.
  induction n as [|p IH]; intros a b r C P L; [lia|]. cbn [strlcpy_loop].
  destruct p as [|q].
  - cbn [Nat.sub]. destruct (Nat.ltb_spec (length b) 0); [lia|]. cbn. rewrite app_nil_r, Nat.add_0_r. reflexivity.
  - destruct b as [|c b].
    + rewrite chr_app_end. cbn [bind]. rewrite write_end by (auto; lia). cbn [bind]. rewrite beq_refl.
      cbn [length]. destruct (Nat.ltb_spec 0 (S (S q) - 1)); [|lia]. rewrite app_nil_r. reflexivity.
    + rewrite chr_app_mid. cbn [bind]. rewrite write_at by (auto; lia). cbn [bind].
      apply is_cstr_cons in C as [X C]. apply beq_false in X. rewrite X.
      specialize (IH (a ++ [c]) b (skipn 1 r)). rewrite app_length, skipn_length in IH. cbn [length] in IH, L |- *.
      rewrite Nat.add_1_r, <- app_assoc in IH. cbn [app] in IH. rewrite IH by (auto; lia). clear IH.
      replace (S (S q) - 1) with (S q) by lia. replace (S q - 1) with q by lia.
      cbn [firstn]. rewrite !skipn_skipn, !Nat.add_1_r, <- app_assoc. cbn [app].
      destruct (Nat.ltb_spec (length b) q); destruct (Nat.ltb_spec (S (length b)) (S q)); try lia.
      * reflexivity.
      * rewrite !(Nat.add_comm (length a)), !Nat.add_succ_r, !(Nat.add_comm q) || idtac; repeat (f_equal; try lia).
Qed.

Lemma strlcpy_spec m src siz : is_cstr src -> siz <= length m ->
  strlcpy m src siz = Ok (if siz =? 0 then m else put m (firstn (siz - 1) src), length src).
Proof.
  intros C L. unfold strlcpy. destruct siz as [|k].
  - cbn [Nat.eqb negb bind]. pose proof (@skip_str_spec (S (length src)) [] src ltac:(lia) C) as X. cbn [app length] in X.
    rewrite X. cbn [bind]. do 2 f_equal. lia.
  - cbn [Nat.eqb negb]. pose proof (@strlcpy_loop_spec (S k) [] src m C ltac:(lia) L) as X. cbn [app length map Nat.add] in X.
    rewrite X. clear X. replace (S k - 1) with k by lia.
    destruct (Nat.ltb_spec (length src) k) as [F|T].
    + cbn [bind]. destruct (Nat.eqb_spec (k - length src) 0); [lia|]. cbn [bind]. rewrite firstn_all2 by lia.
      f_equal. f_equal. lia.
    + cbn [bind]. cbn [Nat.eqb]. rewrite write_end; [|rewrite firstn_length; lia|rewrite skipn_length; lia]. cbn [bind].
      pose proof (@skip_str_spec (S (length src)) (firstn k src) (skipn k src)) as X.
      rewrite firstn_skipn, firstn_length, Nat.min_l in X by lia. rewrite X; clear X.
      * cbn [bind]. f_equal. f_equal; [|lia]. apply put_eq. rewrite skipn1_skipn, firstn_length. f_equal. lia.
      * rewrite skipn_length. lia.
      * intros I. apply C. rewrite <- (firstn_skipn k src). apply in_or_app; auto.
Qed.

(** * strlcat *)
Lemma strlcat_find_spec n : forall a b r, is_cstr b ->
  strlcat_find n (length a) (map Some a ++ map Some b ++ Some NUL :: r) = Ok (length a + Nat.min n (length b)).
Proof.
  induction n as [|p IH]; intros a b r C; cbn [strlcat_find].
  - cbn. f_equal. lia.
  - destruct b as [|c b]; cbn [map app]; rewrite aget_mid by reflexivity; cbn [bind].
    + rewrite beq_refl. cbn. f_equal. lia.
    + apply is_cstr_cons in C as [X C]. apply beq_false in X. rewrite X.
      specialize (IH (a ++ [c]) b r C). rewrite app_length, map_app, <- app_assoc in IH. cbn [length map app] in IH. rewrite Nat.add_1_r in IH.
      rewrite IH. cbn [length]. f_equal. lia.
Qed.

Lemma strlcat_copy_spec fuel : forall d a b r n, is_cstr b -> length b < fuel -> 0 < n <= length r ->
  strlcat_copy fuel (length d) n (map Some d ++ r) (a ++ b) (length a) =
  Ok (map Some (d ++ firstn (n - 1) b) ++ skipn (length (firstn (n - 1) b)) r, length d + length (firstn (n - 1) b), length (a ++ b)).
Proof.
  induction fuel as [|g IH]; intros d a b r n C L P; [lia|]. cbn [strlcat_copy]. destruct b as [|c b].
  - rewrite chr_app_end. cbn [bind]. rewrite beq_refl, firstn_nil, !app_nil_r. cbn. rewrite Nat.add_0_r. reflexivity.
  - rewrite chr_app_mid. cbn [bind]. apply is_cstr_cons in C as [X C]. apply beq_false in X. rewrite X.
    cbn [length] in L. destruct (Nat.eqb_spec n 1) as [->|N]; cbn [negb].
    + specialize (IH d (a ++ [c]) b r 1 C ltac:(lia) ltac:(lia)). rewrite (app_length a), <- app_assoc in IH. cbn [length app] in IH.
      rewrite Nat.add_1_r in IH. rewrite IH. reflexivity.
    + rewrite write_at by (auto; lia). cbn [bind].
      specialize (IH (d ++ [c]) (a ++ [c]) b (skipn 1 r) (n - 1) C ltac:(lia)). rewrite skipn_length in IH. specialize (IH ltac:(lia)).
      rewrite (app_length a), (app_length d), <- app_assoc in IH. cbn [length app] in IH. rewrite !Nat.add_1_r in IH. rewrite IH.
      replace (n - 1) with (S (n - 1 - 1)) by lia. cbn [firstn length]. rewrite skipn_skipn, <- app_assoc, Nat.add_1_r. cbn [app].
      replace (S (n - 1 - 1) - 1) with (n - 1 - 1) by lia. 
      f_equal. f_equal. f_equal. lia.
Qed.

Lemma strlcat_spec m d src siz : holds m d -> is_cstr src -> siz <= length m ->
  strlcat m src siz = Ok (if length d <? siz then put m (firstn (siz - 1) (d ++ src)) else m, Nat.min siz (length d) + length src).
Proof.
  intros H C L. pose proof (holds_length H) as HL. destruct H as [Cd [r Em]]. unfold strlcat.
  assert (F : strlcat_find siz 0 m = Ok (Nat.min siz (length d))).
  { rewrite Em. exact (@strlcat_find_spec siz [] d r Cd). }
  rewrite F. cbn [bind]. destruct (Nat.ltb_spec (length d) siz).
  - rewrite Nat.min_r by lia. destruct (Nat.eqb_spec (siz - length d) 0); [lia|].
    assert (Er : length m = length d + S (length r)) by (rewrite Em, app_length, map_length; reflexivity).
    pose proof (@strlcat_copy_spec (S (length src)) d [] src (Some NUL :: r) (siz - length d) C ltac:(lia) ltac:(cbn [length]; lia)) as X.
    cbn [app length] in X. rewrite Em at 1. rewrite X. cbn [bind]. clear X.
    set (w := firstn (siz - length d - 1) src). assert (Lw : length w = Nat.min (siz - length d - 1) (length src)) by apply firstn_length.
    rewrite write_end; [|rewrite app_length; reflexivity|rewrite skipn_length; cbn [length]; lia]. cbn [bind]. do 2 f_equal.
    replace (firstn (siz - 1) (d ++ src)) with (d ++ w).
    + apply put_eq. rewrite Em, app_length, skipn_skipn, skipn_app_ge by (rewrite map_length; lia). rewrite map_length. f_equal. lia.
    + rewrite firstn_app_ge by lia. unfold w. do 2 f_equal. lia.
  - rewrite Nat.min_l by lia. rewrite Nat.sub_diag. reflexivity.
Qed.
