From Verif Require Import Prelude PreludeFacts Str StrFacts Libc LibcFacts EditModel EditProofs EditProofs2 EditProofs3 WriterModel PropsWriter IoModel MemSpec BufProofs.
Set Implicit Arguments.

Lemma aread_mid (a : list (option byte)) (l : list byte) j n : n = length a -> aread (a ++ map Some l ++ j) n (length l) = Ok l.
Proof.
  revert a n. induction l as [|c l IH]; intros a n E; [reflexivity|]. cbn [length aread map app].
  assert (G : aget (a ++ Some c :: map Some l ++ j) n = Ok c).
  { unfold aget. rewrite nth_error_app2, E, Nat.sub_diag by lia. reflexivity. }
  rewrite G. cbn [bind]. specialize (IH (a ++ [Some c]) (S n)). rewrite <- app_assoc in IH. cbn [app] in IH. rewrite IH by (rewrite app_length; cbn; lia). reflexivity.
Qed.

Lemma zeros_length n : length (zeros n) = n. Proof. apply repeat_length. Qed.
Lemma overwrite_cons c p x bs : overwrite c p (x :: bs) = firstn p c ++ zeros (p - length c) ++ (x :: bs) ++ skipn (p + length (x :: bs)) c.
Proof. reflexivity. Qed.
Lemma overwrite_ne c p bs : bs <> [] -> overwrite c p bs = firstn p c ++ zeros (p - length c) ++ bs ++ skipn (p + length bs) c.
Proof. destruct bs; [congruence|reflexivity]. Qed.
Lemma overwrite_app c p a b : overwrite (overwrite c p a) (p + length a) b = overwrite c p (a ++ b).
Proof.
  destruct a as [|x a]; [cbn [length app overwrite]; rewrite Nat.add_0_r; reflexivity|].
  destruct b as [|y b]; [rewrite app_nil_r; reflexivity|].
  rewrite (@overwrite_ne _ _ (y :: b)) by discriminate. rewrite (@overwrite_ne _ _ ((x :: a) ++ y :: b)) by discriminate. rewrite (@overwrite_ne _ _ (x :: a)) by discriminate.
  set (A := x :: a). set (B := y :: b). set (h := firstn p c ++ zeros (p - length c)).
  assert (Lh : length h = p) by (unfold h; rewrite app_length, zeros_length, firstn_length; lia).
  replace (firstn p c ++ zeros (p - length c) ++ A ++ skipn (p + length A) c) with ((h ++ A) ++ skipn (p + length A) c) by (unfold h; rewrite <- !app_assoc; reflexivity).
  replace (firstn p c ++ zeros (p - length c) ++ (A ++ B) ++ skipn (p + length (A ++ B)) c) with ((h ++ A) ++ B ++ skipn (p + length A + length B) c)
    by (unfold h; rewrite app_length, Nat.add_assoc, <- !app_assoc; reflexivity).
  assert (LA : length (h ++ A) = p + length A) by (rewrite app_length; lia).
  rewrite firstn_app_le, firstn_all2 by lia. rewrite skipn_app_ge by lia. rewrite skipn_skipn, LA.
  replace (p + length A - length ((h ++ A) ++ skipn (p + length A) c)) with 0 by (rewrite app_length; lia). cbn [zeros repeat app].
  replace (p + length A + length B - (p + length A) + (p + length A)) with (p + length A + length B) by lia. reflexivity.
Qed.
Lemma overwrite_end c bs : overwrite c (length c) bs = c ++ bs.
Proof.
  destruct bs as [|x bs]; [rewrite app_nil_r; reflexivity|]. rewrite overwrite_cons, firstn_all, Nat.sub_diag, skipn_all2 by lia. cbn [zeros repeat app]. rewrite app_nil_r. reflexivity.
Qed.

(** answers that move at least one byte *)
Definition moving (a : answer) : bool := match a with Done (S _) => true | _ => false end.
Definition progress (l : list answer) : nat := length (filter moving l).

Lemma write_loop_spec ws : forall c p a bs j total,
  match write_loop ws c p (a ++ map Some bs ++ j) (length a) (length bs) total with
  | Ok (f, r) => (r = Z.of_nat (total + length bs) /\ content f = overwrite c p bs /\ fpos f = p + length bs /\ exists used, ws = used ++ wanswers f /\ progress used <= length bs) \/
                 (r = (-1)%Z /\ In Fail ws /\ exists b b', bs = b ++ b' /\ b' <> [] /\ content f = overwrite c p b /\ fpos f = p + length b /\ exists used, ws = used ++ wanswers f /\ progress used <= length bs)
  | Fuel => progress ws < length bs /\ ~ In Fail ws
  | _ => False
  end.
Proof.
  induction ws as [|w ws IH]; intros c p a bs j total.
  - cbn [write_loop]. destruct bs as [|x bs]; cbn [length]; [left; rewrite !Nat.add_0_r; cbn; repeat split; exists []; split; reflexivity|]. split; [cbn; lia|intros []].
  - cbn [write_loop]. destruct bs as [|x bs]; cbn [length]; [left; rewrite !Nat.add_0_r; cbn; repeat split; exists []; split; reflexivity|].
    change (S (length bs)) with (length (x :: bs)). set (B := x :: bs). destruct w as [n| |].
    + set (k := Nat.min n (length B)).
      assert (E : a ++ map Some B ++ j = a ++ map Some (firstn k B) ++ (map Some (skipn k B) ++ j)).
      { rewrite (app_assoc (map Some (firstn k B))), <- map_app, firstn_skipn. reflexivity. }
      assert (Lk : length (firstn k B) = k) by (rewrite firstn_length; lia).
      pose proof (@aread_mid a (firstn k B) (map Some (skipn k B) ++ j) (length a) eq_refl) as R. rewrite Lk, <- E in R.
      rewrite R. cbn [bind]. specialize (IH (overwrite c p (firstn k B)) (p + k) (a ++ map Some (firstn k B)) (skipn k B) j (total + k)).
      rewrite app_length, map_length, Lk, skipn_length in IH. rewrite <- !app_assoc in IH. rewrite <- E in IH.
      destruct (write_loop ws _ _ _ _ _ _) as [[f r]| | |]; [| | |]; auto.
      * destruct IH as [[A1 [A2 [A3 [u [A4 A5]]]]]|[A1 [A2 [b [b' [A3 [A4 [A5 [A6 [u [A7 A8]]]]]]]]]]].
        -- left. assert (k <= length B) by (unfold k; lia). split; [rewrite A1; f_equal; lia|]. rewrite A2. pose proof (overwrite_app c p (firstn k B) (skipn k B)) as O. rewrite Lk, firstn_skipn in O. rewrite O. split; [reflexivity|].
           split; [lia|]. exists (Done n :: u). rewrite A4. split; [reflexivity|]. unfold progress in *. cbn [filter]. destruct n as [|n]; cbn [moving length]; [lia|].
           assert (1 <= k) by (unfold k, B; cbn [length]; lia). lia.
        -- right. split; [exact A1|]. split; [right; exact A2|]. exists (firstn k B ++ b), b'. rewrite <- app_assoc, <- A3, firstn_skipn.
           split; [reflexivity|]. split; [exact A4|]. rewrite A5. pose proof (overwrite_app c p (firstn k B) b) as O. rewrite Lk in O. rewrite O. split; [reflexivity|]. split; [rewrite app_length; lia|]. exists (Done n :: u). rewrite A7. split; [reflexivity|]. unfold progress in *. cbn [filter]. destruct n as [|n]; cbn [moving length]; [lia|].
           assert (1 <= k) by (unfold k, B; cbn [length]; lia). lia.
      * destruct IH as [IH NF]. split; [|intros [X|X]; [discriminate|auto]]. unfold progress in *. cbn [filter moving]. destruct n as [|n]; cbn [length].
        -- unfold k in IH. cbn [Nat.min] in IH. lia.
        -- assert (1 <= k) by (unfold k, B; cbn [length]; lia). lia.
    + specialize (IH c p a B j total). destruct (write_loop ws _ _ _ _ _ _) as [[f r]| | |]; auto.
      * destruct IH as [[A1 [A2 [A3 [u [A4 A5]]]]]|[A1 [A2 A3]]]; [left|right].
        -- split; [exact A1|]. split; [exact A2|]. split; [exact A3|]. exists (Eintr :: u). rewrite A4. split; [reflexivity|exact A5].
        -- split; [exact A1|]. split; [right; exact A2|]. destruct A3 as [b [b' [B1 [B2 [B3 [B4 [u [B5 B6]]]]]]]]. exists b, b'. split; [exact B1|]. split; [exact B2|]. split; [exact B3|]. split; [exact B4|]. exists (Eintr :: u). rewrite B5. split; [reflexivity|exact B6].
      * destruct IH as [IH NF]. split; [|intros [X|X]; [discriminate|auto]]. exact IH.
    + right. split; [reflexivity|]. split; [left; reflexivity|]. exists [], B. split; [reflexivity|]. split; [discriminate|]. split; [reflexivity|]. split; [cbn; lia|]. exists [Fail]. split; [reflexivity|cbn; lia].
Qed.

(** [m] with [bs] at [ptr] *)
Definition stored (m : cells byte) (ptr : nat) (bs : list byte) : cells byte := firstn ptr m ++ map Some bs ++ skipn (ptr + length bs) m.
Lemma stored_nil m ptr : stored m ptr [] = m.
Proof. unfold stored. cbn. rewrite Nat.add_0_r. apply firstn_skipn. Qed.
Lemma stored_app m ptr a b : ptr <= length m -> stored (stored m ptr a) (ptr + length a) b = stored m ptr (a ++ b).
Proof.
  intros L. unfold stored. rewrite map_app, app_length.
  assert (LA : length (firstn ptr m ++ map Some a) = ptr + length a) by (rewrite app_length, map_length, firstn_length; lia).
  rewrite (app_assoc (firstn ptr m)). rewrite firstn_app_le, firstn_all2 by lia.
  rewrite skipn_app_ge by lia. rewrite skipn_skipn, LA, <- !app_assoc.
  replace (ptr + length a + length b - (ptr + length a) + (ptr + length a)) with (ptr + (length a + length b)) by lia. reflexivity.
Qed.
Lemma stored_length m ptr bs : ptr + length bs <= length m -> length (stored m ptr bs) = length m.
Proof. intros H. unfold stored. rewrite !app_length, map_length, firstn_length, skipn_length. lia. Qed.

Lemma firstn_own (A : Type) q (l : list A) : firstn q l = firstn (length (firstn q l)) l.
Proof.
  rewrite firstn_length. destruct (Nat.le_ge_cases q (length l)).
  - rewrite Nat.min_l by lia. reflexivity.
  - rewrite Nat.min_r by lia. rewrite !firstn_all2 by lia. reflexivity.
Qed.
Lemma read_loop_spec rs : forall src m ptr len total, ptr + len <= length m ->
  match read_loop rs src m ptr len total with
  | Ok (f, m', r) => exists k used, k <= Nat.min len (length src) /\ m' = stored m ptr (firstn k src) /\ left_ f = skipn k src /\ rs = used ++ ranswers f /\ progress used <= k + (if k <? len then 1 else 0) /\
       ((r = Z.of_nat (total + k) /\ k = Nat.min len (length src)) \/ (r = (-1)%Z /\ In Fail used))
  | Fuel => ~ In Fail rs /\ progress rs <= Nat.min len (length src)
  | _ => False
  end.
Proof.
  induction rs as [|a rs IH]; intros src m ptr len total L.
  - cbn [read_loop]. destruct len as [|len].
    + exists 0, []. cbn [firstn skipn left_ ranswers app]. rewrite stored_nil. split; [lia|]. split; [reflexivity|]. split; [reflexivity|]. split; [reflexivity|]. split; [cbn; lia|]. left. split; [f_equal; lia|lia].
    + split; [intros []|]. unfold progress. cbn [filter length]. lia.
  - cbn [read_loop]. destruct len as [|len].
    + exists 0, []. cbn [firstn skipn left_ ranswers app]. rewrite stored_nil. split; [lia|]. split; [reflexivity|]. split; [reflexivity|]. split; [reflexivity|]. split; [cbn; lia|]. left. split; [f_equal; lia|lia].
    + set (N := S len) in *. destruct a as [n| |].
      * set (bytes := firstn (Nat.min (S n) N) src). destruct (length bytes) as [|q] eqn:Lb.
        -- exists 0, [Done n]. cbn [firstn map skipn left_ ranswers]. rewrite stored_nil. split; [lia|]. split; [reflexivity|]. split; [reflexivity|]. split; [reflexivity|].
           split; [unfold N, progress; cbn [Nat.ltb Nat.leb filter]; destruct (moving (Done n)); cbn [length]; lia|]. left. unfold bytes in Lb. rewrite firstn_length in Lb. unfold N in *. split; [f_equal; lia|lia].
        -- rewrite <- Lb. assert (Le : length bytes <= N) by (unfold bytes; rewrite firstn_length; lia).
           assert (Es : bytes = firstn (length bytes) src) by apply firstn_own.
           rewrite acopy_Ok by (rewrite ?map_length; lia). cbn [bind skipn].
           replace (firstn ptr m ++ firstn (length bytes) (map Some bytes) ++ skipn (ptr + length bytes) m) with (stored m ptr bytes)
             by (unfold stored; rewrite (firstn_all2 (map Some bytes)) by (rewrite map_length; lia); reflexivity).
           assert (Ls : length bytes <= length src) by (rewrite Es, firstn_length; lia).
           specialize (IH (skipn (length bytes) src) (stored m ptr bytes) (ptr + length bytes) (N - length bytes) (total + length bytes)).
           rewrite stored_length in IH by lia. specialize (IH ltac:(lia)). rewrite skipn_length in IH.
           destruct (read_loop rs _ _ _ _ _) as [[[f m'] r]| | |]; auto.
           ++ destruct IH as [k [u [K1 [K2 [K3 [K4 [K6 K5]]]]]]]. exists (length bytes + k), (Done n :: u).
              assert (F : firstn (length bytes + k) src = bytes ++ firstn k (skipn (length bytes) src)).
              { rewrite Es at 2. rewrite <- (firstn_skipn (length bytes) src) at 1. rewrite firstn_app, firstn_firstn. rewrite firstn_length.
                replace (Nat.min (length bytes + k) (length bytes)) with (length bytes) by lia. f_equal. f_equal. lia. }
              split; [lia|]. split; [rewrite K2, F, stored_app by lia; reflexivity|]. split; [rewrite K3, skipn_skipn; f_equal; lia|].
              split; [rewrite K4; reflexivity|].
              split; [unfold progress in *; cbn [filter]; destruct (Nat.ltb_spec k (N - length bytes)), (Nat.ltb_spec (length bytes + k) N); destruct (moving (Done n)); cbn [length]; lia|]. destruct K5 as [[E1 E2]|[E1 E2]]; [left; split; [rewrite E1; f_equal; lia|lia]|right; split; [exact E1|right; exact E2]].
           ++ destruct IH as [I1 I2]. split; [intros [X|X]; [discriminate|auto]|]. unfold progress in *. cbn [filter]. destruct (moving (Done n)); cbn [length]; lia.
      * specialize (IH src m ptr N total L). destruct (read_loop rs _ _ _ _ _) as [[[f m'] r]| | |]; auto.
        -- destruct IH as [k [u [K1 [K2 [K3 [K4 [K6 K5]]]]]]]. exists k, (Eintr :: u). split; [exact K1|]. split; [exact K2|]. split; [exact K3|]. split; [rewrite K4; reflexivity|]. split; [exact K6|].
           destruct K5 as [K5|[E1 E2]]; [left; exact K5|right; split; [exact E1|right; exact E2]].
        -- destruct IH as [I1 I2]. split; [intros [X|X]; [discriminate|auto]|]. exact I2.
      * exists 0, [Fail]. cbn [firstn skipn left_ ranswers]. rewrite stored_nil. split; [lia|]. split; [reflexivity|]. split; [reflexivity|]. split; [reflexivity|]. split; [cbn; lia|]. right. split; [reflexivity|left; reflexivity].
Qed.
