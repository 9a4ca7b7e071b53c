(** C52: FullRead and FullWrite; C62: reading a file into a string; C63: sparse copies. *)
From Verif Require Import Prelude PreludeFacts Str StrFacts Libc LibcFacts EditModel EditProofs EditProofs2 EditProofs3 WriterModel PropsWriter IoModel IoProofs MemSpec BufProofs.
Set Implicit Arguments.

(** Writing [bs], which lie in memory at [ptr], at the end of a file: for every pattern of
    short writes and interruptions either all of them are appended and their number is
    returned, or the kernel failed, -1 is returned and a proper prefix was appended.
    No memory outside [bs] is read ([a] and [j] may be anything, even unwritten). *)
Theorem C52_FullWrite c ws a (bs : list byte) j :
  match FullWrite (mkOut c (length c) ws) (a ++ map Some bs ++ j) (length a) (length bs) with
  | Ok (f, r) => (r = Z.of_nat (length bs) /\ content f = c ++ bs) \/
                 (r = (-1)%Z /\ In Fail ws /\ exists b b', bs = b ++ b' /\ b' <> [] /\ content f = c ++ b)
  | Fuel => ~ In Fail ws /\ progress ws < length bs     (* the kernel never answered enough *)
  | _ => False
  end.
Proof.
  unfold FullWrite. cbn [wanswers content fpos]. pose proof (write_loop_spec ws c (length c) a bs j 0) as H.
  destruct (write_loop _ _ _ _ _ _ _) as [[f r]| | |]; auto.
  - destruct H as [[A [B _]]|[A [B [b [b' [D [E [F _]]]]]]]]; [left|right].
    + rewrite overwrite_end in B. auto.
    + rewrite overwrite_end in F. eauto 10.
  - destruct H. auto.
Qed.
(** Anywhere in a file: exactly the bytes from the position on are replaced. *)
Theorem C52_FullWrite_at c p ws (bs : list byte) f r : p <= length c ->
  FullWrite (mkOut c p ws) (map Some bs) 0 (length bs) = Ok (f, r) -> r <> (-1)%Z ->
  content f = firstn p c ++ bs ++ skipn (p + length bs) c /\ fpos f = p + length bs.
Proof.
  intros L E N. unfold FullWrite in E. cbn [wanswers content fpos] in E. pose proof (write_loop_spec ws c p [] bs [] 0) as H.
  rewrite app_nil_r in H. cbn [app length] in H. rewrite E in H. destruct H as [[A [B [C _]]]|[A _]]; [|congruence].
  split; [|exact C]. rewrite B. destruct bs as [|x bs]; [cbn; rewrite Nat.add_0_r, firstn_skipn; reflexivity|].
  rewrite overwrite_cons. replace (p - length c) with 0 by lia. reflexivity.
Qed.
(** With enough answers that move at least one byte, both calls return. *)
Theorem C52_FullWrite_returns c ws (bs : list byte) : length bs <= progress ws ->
  exists f r, FullWrite (mkOut c (length c) ws) (map Some bs) 0 (length bs) = Ok (f, r).
Proof.
  intros L. pose proof (C52_FullWrite c ws [] bs []) as H. rewrite app_nil_r in H. cbn [app length] in H.
  destruct (FullWrite _ _ _ _) as [[f r]| | |]; [eauto|destruct H|destruct H|lia].
Qed.
(** Reading [len] bytes to memory at [ptr]: either the first [len] bytes of what is left of
    the file (all of it if shorter) are stored there, in order, nothing else is changed,
    their number is returned and the rest is left in the file; or the kernel failed. *)
Theorem C52_FullRead src rs (m : cells byte) ptr len : ptr + len <= length m ->
  match FullRead (mkIn src rs) m ptr len with
  | Ok (f, m', r) =>
      (r = Z.of_nat (Nat.min len (length src)) /\ left_ f = skipn len src /\
       firstn ptr m' = firstn ptr m /\ firstn (length (firstn len src)) (skipn ptr m') = map Some (firstn len src) /\
       skipn (ptr + length (firstn len src)) m' = skipn (ptr + length (firstn len src)) m) \/
      (r = (-1)%Z /\ In Fail rs)
  | Fuel => ~ In Fail rs /\ progress rs <= Nat.min len (length src)
  | _ => False
  end.
Proof.
  intros L. unfold FullRead. cbn [ranswers left_]. pose proof (read_loop_spec rs src m ptr len 0 L) as H.
  destruct (read_loop _ _ _ _ _ _) as [[[f m'] r]| | |]; auto.
  destruct H as [k [u [K1 [K2 [K3 [K4 [_ [[E1 E2]|[E1 E2]]]]]]]]].
  - left. assert (F : firstn k src = firstn len src).
    { rewrite (firstn_own len src), firstn_length. f_equal. exact E2. }
    split; [rewrite E1; f_equal; cbn; exact E2|]. split.
    { rewrite K3. destruct (Nat.le_ge_cases len (length src)); [f_equal; lia|rewrite !skipn_all2 by lia; reflexivity]. }
    rewrite K2, F. unfold stored. set (b := firstn len src) in *.
    assert (Lb : ptr + length b <= length m) by (unfold b; rewrite firstn_length; lia).
    assert (Lp : length (firstn ptr m) = ptr) by (rewrite firstn_length; lia). split; [|split].
    + rewrite firstn_app_le by lia. apply firstn_all2. lia.
    + rewrite skipn_app_ge by lia. rewrite Lp, Nat.sub_diag. cbn [skipn]. rewrite firstn_app_le by (rewrite map_length; lia). apply firstn_all2. rewrite map_length. lia.
    + rewrite app_assoc, skipn_app_ge by (rewrite app_length, map_length, Lp; lia). rewrite app_length, map_length, Lp, Nat.sub_diag. reflexivity.
  - right. split; [exact E1|]. rewrite K4. apply in_or_app. auto.
Qed.
Theorem C52_FullRead_returns src rs (m : cells byte) len : len <= length m -> Nat.min len (length src) < progress rs ->
  exists f m' r, FullRead (mkIn src rs) m 0 len = Ok (f, m', r).
Proof.
  intros L P. pose proof (@C52_FullRead src rs m 0 len L) as H.
  destruct (FullRead _ _ _ _) as [[[f m'] r]| | |]; [eauto|destruct H|destruct H|lia].
Qed.
(** A kernel that keeps writing nothing keeps FullWrite from returning. *)
Theorem C52_zero_writes_refuted n c x : FullWrite (mkOut c (length c) (repeat (Done 0) n)) [Some x] 0 1 = Fuel.
Proof. unfold FullWrite. cbn [wanswers content fpos]. generalize 0 at 3. generalize (length c). induction n as [|n IH]; intros p t; [reflexivity|]. cbn. rewrite !Nat.add_0_r. apply IH. Qed.
Example C52_example :
  FullWrite (mkOut (lit "ab") 2 [Eintr; Done 1; Done 0; Eintr; Done 9]) (block (lit "xyz")) 0 3 = Ok (mkOut (lit "abxyz") 5 [], 3%Z) /\
  FullRead (mkIn (lit "abc") [Eintr; Done 0; Done 7; Done 1]) (repeat None 5) 0 4 = Ok (mkIn [] [], map Some (lit "abc") ++ [None; None], 3%Z).
Proof. split; reflexivity. Qed.

(** * C62 *)
Lemma upto_own (s : list byte) : is_cstr s -> upto_nul s = s. Proof. apply upto_nul_id. Qed.
Lemma readfd_spec rs : forall src max w s, is_cstr src -> wholds (WT_STRING w) s -> length s <= max ->
  match readfd_loop rs src max (WT_STRING w) with
  | Ok (Some w', t) => exists i, w' = WT_STRING i /\
      ((t = false /\ wholds w' (s ++ src) /\ length s + length src <= max) \/ (t = true /\ wholds w' (firstn max (s ++ src)) /\ max < length s + length src))
  | Ok (None, t) => t = false /\ In Fail rs
  | Fuel => ~ In Fail rs /\ progress rs <= length src
  | _ => False
  end.
Proof.
  induction rs as [|a rs IH]; intros src max w s C W L; cbn [readfd_loop].
  - split; [intros []|]. cbn. lia.
  - destruct a as [n| |].
    + set (bytes := firstn (Nat.min (S n) READ_BUFSIZE) src). cbn [StringWriterLength bind].
      assert (Rp : 0 < READ_BUFSIZE) by (unfold READ_BUFSIZE; lia). destruct (length bytes) as [|q] eqn:Lb.
      * exists w. split; [reflexivity|]. left. assert (src = []) by (destruct src; [reflexivity|]; unfold bytes in Lb; rewrite firstn_length in Lb; cbn [length] in Lb; lia).
        subst src. rewrite app_nil_r. cbn [length]. split; [reflexivity|]. split; [exact W|lia].
      * rewrite <- Lb. assert (Lr : length bytes <= READ_BUFSIZE) by (unfold bytes; rewrite firstn_length; lia).
        rewrite acopy_Ok by (rewrite ?repeat_length, ?map_length; lia). cbn [bind firstn skipn app Nat.add].
        rewrite (firstn_all2 (map Some bytes)) by (rewrite map_length; lia). set (junk := skipn (length bytes) (repeat None READ_BUFSIZE)).
        destruct W as [W1 [W2 W3]]. assert (W : wholds (WT_STRING w) s) by (split; auto).
        assert (Cb : forall k, is_cstr (firstn k bytes)).
        { intros k. apply is_cstr_firstn. apply is_cstr_firstn. exact C. }
        assert (Es : bytes = firstn (length bytes) src) by apply firstn_own.
        assert (Ls : length bytes <= length src) by (rewrite Es, firstn_length; lia).
        rewrite W1. destruct (Nat.ltb_spec max (length bytes + length s)) as [G|G].
        -- set (k := max - length s). destruct (@wcall_ok (WT_STRING w) s (WLen (firstn k bytes) (map Some (skipn k bytes) ++ junk)) W Logic.I) as [w' [E [H K]]].
           cbn [wcall] in E. rewrite app_assoc, <- map_app, firstn_skipn in E.
           replace (length (firstn k bytes)) with k in E by (rewrite firstn_length; unfold k; lia). rewrite E. cbn [bind].
           destruct w' as [i|f]; [|destruct K]. exists i. split; [reflexivity|]. right. split; [reflexivity|]. split; [|lia].
           cbn [wtext] in H. rewrite upto_own in H by apply Cb.
           replace (firstn max (s ++ src)) with (s ++ firstn k bytes); [exact H|].
           rewrite firstn_app, (firstn_all2 s) by lia. f_equal. fold k. rewrite Es, firstn_firstn. f_equal. unfold k. lia.
        -- destruct (@wcall_ok (WT_STRING w) s (WLen bytes junk) W Logic.I) as [w' [E [H K]]].
           cbn [wcall] in E. rewrite E. cbn [bind]. destruct w' as [i|f]; [|destruct K].
           cbn [wtext] in H. rewrite upto_own in H by (rewrite <- (firstn_all bytes); apply Cb).
           assert (C' : is_cstr (skipn (length bytes) src)) by (intros I; apply C; rewrite <- (firstn_skipn (length bytes) src); apply in_or_app; right; exact I).
           specialize (IH (skipn (length bytes) src) max i (s ++ bytes) C' H). rewrite app_length in IH. specialize (IH ltac:(lia)).
           assert (X : (s ++ bytes) ++ skipn (length bytes) src = s ++ src) by (rewrite <- app_assoc; f_equal; rewrite Es at 1; apply firstn_skipn).
           rewrite X, skipn_length in IH.
           destruct (readfd_loop rs _ _ _) as [[[w'|] t]| | |]; auto.
           ++ destruct IH as [i' [E' D]]. exists i'. split; [exact E'|]. destruct D as [[D1 [D2 D3]]|[D1 [D2 D3]]]; [left|right]; (split; [exact D1|split; [exact D2|lia]]).
           ++ destruct IH as [I1 I2]. split; [exact I1|right; exact I2].
           ++ destruct IH as [I1 I2]. split; [intros [Y|Y]; [discriminate|auto]|]. unfold progress in *. cbn [filter]. destruct (moving (Done n)); cbn [length]; lia.
    + specialize (IH src max w s C W L). destruct (readfd_loop rs _ _ _) as [[[w'|] t]| | |]; auto.
      * destruct IH as [I1 I2]. split; [exact I1|right; exact I2].
      * destruct IH as [I1 I2]. split; [intros [Y|Y]; [discriminate|auto]|exact I2].
    + split; [reflexivity|left; reflexivity].
Qed.

(** Reading a file without NUL bytes into a string: for every pattern of short reads and
    interruptions the result is its first [max] bytes as a C string, and it is reported
    truncated exactly when the file is longer; NULL is returned only if the kernel failed. *)
Theorem C62_FileRead src rs max : is_cstr src ->
  match FileReadFromFd (mkIn src rs) max with
  | Ok (Some w, t) => exists d, StringWriterData w = Ok d /\ StringWriterLength w = Ok (length (firstn max src)) /\
                                holds d (firstn max src) /\ (t = true <-> max < length src)
  | Ok (None, t) => In Fail rs
  | Fuel => ~ In Fail rs /\ progress rs <= length src
  | _ => False
  end.
Proof.
  intros C. unfold FileReadFromFd. cbn [ranswers left_].
  assert (W : wholds StringWriter []) by (split; [reflexivity|]; split; [reflexivity|]; exists []; reflexivity).
  pose proof (@readfd_spec rs src max _ [] C W (Nat.le_0_l _)) as H. fold StringWriter in H.
  destruct (readfd_loop rs src max StringWriter) as [[[w|] t]| | |]; auto.
  - destruct H as [i [-> D]]. cbn [app length Nat.add] in D. exists (wdata i). split; [reflexivity|].
    assert (X : wholds (WT_STRING i) (firstn max src) /\ (t = true <-> max < length src)).
    { destruct D as [[D1 [D2 D3]]|[D1 [D2 D3]]].
      - rewrite firstn_all2 by lia. split; [exact D2|]. subst. split; [discriminate|lia].
      - split; [exact D2|]. split; auto. }
    destruct X as [[X1 [X2 [r X3]]] X4]. cbn [StringWriterLength]. split; [rewrite X1; reflexivity|]. split; [|exact X4].
    split; [|exists r; exact X3]. intros I. apply C. rewrite <- (firstn_skipn max src). apply in_or_app. left. exact I.
  - apply H.
Qed.
(** A NUL byte in the file loses the rest of the chunk it came in: the result depends on how
    the kernel cut the file. *)
Definition text_of (r : res (option Writer * bool)) : res (list byte) :=
  let* ' (w, _) := r in match w with Some w => let* d := StringWriterData w in mstr d | None => Abort end.
Theorem C62_nul_refuted : let f := lit "ab" ++ [NUL] ++ lit "cd" in
  text_of (FileReadFromFd (mkIn f [Done 9; Done 9]) 100) = Ok (lit "ab") /\
  text_of (FileReadFromFd (mkIn f [Done 2; Done 9; Done 9]) 100) = Ok (lit "abcd").
Proof. split; vm_compute; reflexivity. Qed.
Example C62_example : text_of (FileReadFromFd (mkIn (lit "abcdef") [Done 2; Eintr; Done 9; Done 0]) 5) = Ok (lit "abcde").
Proof. vm_compute. reflexivity. Qed.

(** * C63 *)
Definition sparse (d : outfile) (done : list byte) (hole : bool) : Prop :=
  fpos d = length done /\ length (content d) <= length done /\ content d ++ zeros (length done - length (content d)) = done /\ (hole = false -> content d = done).

Lemma memcchr_nul (l : list byte) j : exists r, memcchr (map Some l ++ j) NUL (length l) = Ok r /\ (r = None -> l = zeros (length l)).
Proof.
  unfold memcchr. rewrite memcchr_loop_spec by lia. rewrite Nat.sub_0_r. eexists. split; [reflexivity|].
  destruct (find _ _) eqn:F; [discriminate|]. intros _. apply nth_ext_lt with (d := NUL); [rewrite zeros_length; reflexivity|].
  intros i Hi. pose proof (find_none _ _ F i) as X. cbn beta in X. apply negb_false_iff in X; [|apply in_seq; lia]. apply beq_true in X. rewrite X. unfold zeros. rewrite nth_repeat. reflexivity.
Qed.
Lemma zeros_app a b : zeros a ++ zeros b = zeros (a + b). Proof. symmetry. apply repeat_app. Qed.

Lemma sparse_write d done hole (l : list byte) j old : sparse d done hole -> l <> [] ->
  match FileSparseWrite d (map Some l ++ j) (length l) old with
  | Ok (d', true, h) => sparse d' (done ++ l) h /\ exists used, wanswers d = used ++ wanswers d' /\ progress used <= length l
  | Ok (d', false, h) => exists a, In a (wanswers d) /\ (a = Fail \/ a = Eintr)
  | Fuel => progress (wanswers d) < length l /\ ~ In Fail (wanswers d)
  | _ => False
  end.
Proof.
  intros [S1 [S2 [S3 S4]]] N. unfold FileSparseWrite. destruct (memcchr_nul l j) as [r [E Z]]. rewrite E. cbn [bind].
  assert (Ll : 0 < length l) by (destruct l; [congruence|cbn; lia]). destruct r as [q|].
  - unfold FullWrite. pose proof (write_loop_spec (wanswers d) (content d) (fpos d) [] l j 0) as H. cbn [app length Nat.add] in H.
    destruct (write_loop _ _ _ _ _ _ _) as [[f r]| | |]; cbn [bind]; [|auto|auto|destruct H; auto].
    destruct H as [[A [B [D [u [U1 U2]]]]]|[A [B _]]].
    + replace (r <? 0)%Z with false by (symmetry; apply Z.ltb_ge; lia).
      assert (X : content f = done ++ l).
      { rewrite B, overwrite_ne by exact N. rewrite S1, firstn_all2 by lia. rewrite skipn_all2 by lia. rewrite app_nil_r, app_assoc, S3. reflexivity. }
      split; [|eauto]. unfold sparse. rewrite X, D, S1, app_length. split; [reflexivity|]. split; [lia|]. split; [rewrite Nat.sub_diag; apply app_nil_r|auto].
    + rewrite A. cbn. eauto.
  - unfold sys_seek. destruct (wanswers d) as [|a ws] eqn:Ew; cbn [bind]; [split; [cbn; lia|intros []]|].
    destruct a as [n| |]; cbn [bind].
    + split.
      * unfold sparse. cbn [fpos content]. rewrite app_length. split; [lia|]. split; [lia|]. split; [|discriminate].
        replace (length done + length l - length (content d)) with (length done - length (content d) + length l) by lia.
        rewrite <- zeros_app, app_assoc, S3. f_equal. symmetry. apply Z. reflexivity.
      * exists [Done n]. cbn [wanswers]. split; [reflexivity|]. unfold progress. cbn [filter]. destruct (moving (Done n)); cbn [length]; lia.
    + exists Eintr. split; [left; reflexivity|auto].
    + exists Fail. split; [left; reflexivity|auto].
Qed.

Lemma sparse_loop_spec blk fuel : 0 < blk -> forall s d buf total hole done, length buf = blk -> length (left_ s) < fuel -> sparse d done hole -> length done = total ->
  match sparse_loop fuel s d buf blk total hole with
  | Ok (d', true, t, h) => sparse d' (done ++ left_ s) h /\ t = total + length (left_ s)
  | Ok (d', false, t, h) => In Fail (ranswers s) \/ exists a, In a (wanswers d) /\ (a = Fail \/ a = Eintr)
  | Fuel => progress (ranswers s) <= length (left_ s) + (if length (left_ s) =? 0 then 0 else 1) \/ progress (wanswers d) < length (left_ s)
  | _ => False
  end.
Proof.
  intros Hb. induction fuel as [|fuel IH]; intros s d buf total hole done Lb Lf S T; [lia|]. cbn [sparse_loop].
  unfold FullRead. pose proof (read_loop_spec (ranswers s) (left_ s) buf 0 blk 0 ltac:(lia)) as H.
  destruct (read_loop _ _ _ _ _ _) as [[[s' buf'] r]| | |]; cbn [bind]; auto; [|left; lia].
  destruct H as [k [u [K1 [K2 [K3 [K4 [K6 [[E1 E2]|[E1 E2]]]]]]]]].
  - cbn [Nat.add] in E1. subst r. replace (Z.of_nat k <? 0)%Z with false by (symmetry; apply Z.ltb_ge; lia).
    destruct (Z.eqb_spec (Z.of_nat k) 0) as [Z0|Z0].
    + assert (left_ s = []) as -> by (destruct (left_ s); [reflexivity|cbn [length] in E2; lia]). rewrite app_nil_r. cbn [length]. split; [exact S|lia].
    + rewrite Nat2Z.id. set (l := firstn k (left_ s)). assert (Ll : length l = k) by (unfold l; rewrite firstn_length; lia).
      assert (Nl : l <> []) by (intros X; rewrite X in Ll; cbn in Ll; lia).
      assert (Eb : buf' = map Some l ++ skipn (length l) buf) by exact K2.
      pose proof (@sparse_write d done hole l (skipn (length l) buf) hole S Nl) as Q. rewrite <- Eb in Q. rewrite Ll in Q.
      destruct (FileSparseWrite d buf' k hole) as [[[d' ok] h]| | |]; cbn [bind]; auto.
      * destruct ok; [|right; exact Q]. destruct Q as [Q1 [u' [Q2 Q3]]].
        specialize (IH s' d' buf' (total + k) h (done ++ l)). 
        assert (Lb' : length buf' = blk) by (rewrite Eb, app_length, map_length, skipn_length; lia).
        rewrite K3, skipn_length in IH. specialize (IH Lb' ltac:(lia) Q1 ltac:(rewrite app_length; lia)).
        rewrite <- app_assoc in IH. unfold l in IH. rewrite firstn_skipn in IH.
        destruct (sparse_loop fuel _ _ _ _ _ _) as [[[[d2 ok2] t2] h2]| | |]; auto.
        -- destruct ok2.
           ++ destruct IH as [I1 I2]. split; [exact I1|lia].
           ++ destruct IH as [I1|[a [I1 I2]]]; [left; rewrite K4; apply in_or_app; auto|right; exists a; split; [rewrite Q2; apply in_or_app; auto|exact I2]].
        -- rewrite K4, Q2. unfold progress in *. rewrite !filter_app, !app_length. destruct IH as [I1|I1].
           ++ left. destruct (Nat.ltb_spec k blk), (Nat.eqb_spec (length (left_ s) - k) 0), (Nat.eqb_spec (length (left_ s)) 0); lia.
           ++ right. lia.
      * right. lia.
  - subst r. cbn. left. rewrite K4. apply in_or_app. auto.
Qed.


(** A sparse copy to a new file, followed by the matching close: if both report success,
    the file has exactly the bytes of the source and the reported count is its size; if
    one of them reports failure, the kernel had failed. *)
Theorem C63_sparse_copy src rs ws blk : 0 < blk ->
  match FileSparseCopy (mkIn src rs) (mkOut [] 0 ws) blk with
  | Ok (d, true, total, hole) =>
      total = length src /\
      match FileSparseClose d total hole with
      | Ok (true, c) => c = src
      | Ok (false, _) => exists a, In a (wanswers d) /\ (a = Fail \/ a = Eintr)
      | Fuel => progress (wanswers d) <= 2
      | _ => False
      end
  | Ok (_, false, _, _) => In Fail rs \/ exists a, In a ws /\ (a = Fail \/ a = Eintr)
  | Fuel => progress rs <= S (length src) \/ progress ws < length src
  | _ => False
  end.
Proof.
  intros Hb. unfold FileSparseCopy. cbn [left_]. assert (S0 : sparse (mkOut [] 0 ws) [] false) by (unfold sparse; cbn; auto).
  pose proof (@sparse_loop_spec blk (S (length src)) Hb (mkIn src rs) _ (repeat None blk) 0 false [] (repeat_length _ _) (Nat.lt_succ_diag_r _) S0 eq_refl) as H.
  destruct (sparse_loop _ _ _ _ _ _ _) as [[[[d ok] total] hole]| | |]; auto.
  - destruct ok; [|exact H]. destruct H as [[H1 [H2 [H3 H4]]] H5]. cbn [left_ app length Nat.add] in *. subst total. split; [reflexivity|].
    assert (CL : forall f c, match sys_close f with Ok true => c = src -> c = src | Ok false => exists a, In a (wanswers f) /\ (a = Fail \/ a = Eintr) | Fuel => wanswers f = [] | _ => False end).
    { intros f c. unfold sys_close. destruct (wanswers f) as [|[n| |] l]; auto; eexists; (split; [left; reflexivity|auto]). }
    unfold FileSparseClose. destruct hole.
    + unfold FullWrite. pose proof (write_loop_spec (wanswers d) (content d) (fpos d) [] [NUL] [] 0) as W. cbn [app length Nat.add map] in W.
      change (block []) with [@Some byte NUL]. destruct (write_loop _ _ _ _ _ _ _) as [[f r]| | |]; cbn [bind]; auto; [|destruct W; lia].
      destruct W as [[W1 [W2 [W3 [u [W4 W5]]]]]|[W1 [W2 [b [b' [_ [_ [_ [_ [u [W4 W5]]]]]]]]]]].
      * rewrite W1. change (Z.of_nat 1 =? -1)%Z with false. cbn iota. unfold sys_truncate. rewrite W4.
        assert (X : content f = src ++ [NUL]).
        { rewrite W2, overwrite_cons, H1, firstn_all2 by lia. rewrite skipn_all2 by (cbn; lia). rewrite app_nil_r, app_assoc, H3. reflexivity. }
        assert (BAD : forall a l, wanswers f = a :: l -> a = Fail \/ a = Eintr -> exists a, In a (u ++ wanswers f) /\ (a = Fail \/ a = Eintr)).
        { intros a l Ea O. exists a. split; [rewrite Ea; apply in_or_app; right; left; reflexivity|exact O]. }
        destruct (wanswers f) as [|a l] eqn:Ef; cbn [bind].
        { rewrite app_nil_r. lia. }
        assert (P2 : l = [] -> progress (u ++ a :: l) <= 2) by (intros ->; unfold progress in *; rewrite filter_app, app_length; cbn [filter]; destruct (moving a); cbn [length]; lia).
        destruct a as [n| |]; cbn [bind].
        -- set (g := mkOut _ _ l). pose proof (CL g []) as Q. destruct (sys_close g) as [[]| | |]; cbn [bind andb]; auto.
           ++ unfold g. cbn [content]. rewrite X, firstn_app_le, firstn_all by lia. rewrite app_length. cbn [length].
              replace (length src - (length src + 1)) with 0 by lia. apply app_nil_r.
           ++ destruct Q as [a [Q1 Q2]]. exists a. split; [|exact Q2]. apply in_or_app. right. right. exact Q1.
        -- set (g := mkOut _ _ l). pose proof (CL g []) as Q. destruct (sys_close g) as [[]| | |]; cbn [bind andb]; auto; eapply BAD; eauto.
        -- set (g := mkOut _ _ l). pose proof (CL g []) as Q. destruct (sys_close g) as [[]| | |]; cbn [bind andb]; auto; eapply BAD; eauto.
      * rewrite W1. change (-1 =? -1)%Z with true. cbn [bind]. pose proof (CL f []) as Q. destruct (sys_close f) as [[]| | |]; cbn [bind andb]; auto; [eauto|eauto|].
        rewrite W4, Q, app_nil_r. cbn [length] in W5. lia.
    + cbn [bind]. pose proof (CL d []) as Q. destruct (sys_close d) as [[]| | |]; cbn [bind andb]; auto.
      rewrite Q. cbn. lia.
  - cbn [left_ ranswers wanswers] in H. destruct (length src =? 0); lia.
Qed.
(** With a block size of 0 nothing is copied and success is reported. *)
Theorem C63_zero_block_refuted src rs : FileSparseCopy (mkIn src rs) (mkOut [] 0 []) 0 = Ok (mkOut [] 0 [], true, 0, false).
Proof. unfold FileSparseCopy, FullRead. cbn [sparse_loop ranswers left_ repeat]. destruct rs; reflexivity. Qed.
(** Without the close, a hole at the end of the file is lost. *)
Theorem C63_close_needed_refuted : exists d, FileSparseCopy (mkIn (lit "ab" ++ zeros 2) [Done 9; Done 9; Done 9]) (mkOut [] 0 [Done 9; Done 9]) 2 = Ok (d, true, 4, true) /\ content d = lit "ab".
Proof. eexists. split; reflexivity. Qed.
(** On a file that already has content, holes keep the old bytes. *)
Theorem C63_old_content_refuted : exists d, FileSparseCopy (mkIn (zeros 2) [Done 9; Done 9]) (mkOut (lit "ab") 0 [Done 9]) 2 = Ok (d, true, 2, true) /\
  FileSparseClose (mkOut (content d) (fpos d) [Done 9; Done 9; Done 9]) 2 true = Ok (true, lit "ab").
Proof. eexists. split; reflexivity. Qed.
Example C63_example : exists d, FileSparseCopy (mkIn (lit "ab" ++ zeros 4 ++ lit "c") [Done 0; Eintr; Done 9; Done 9; Done 1; Done 9; Done 9]) (mkOut [] 0 [Done 0; Done 9; Done 9; Done 9; Done 9; Done 9]) 3 = Ok (d, true, 7, false) /\
  FileSparseClose d 7 false = Ok (true, lit "ab" ++ zeros 4 ++ lit "c").
Proof. eexists. split; reflexivity. Qed.
