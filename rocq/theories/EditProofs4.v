(** Proofs about the string editing functions (part 4: hex, escaping, replacing in
    place, substrings, tokens). *)
From Verif Require Import Prelude PreludeFacts Str StrFacts Libc LibcFacts MemSpec CmpModel EditModel EditSpec EditProofs EditProofs2 EditProofs3.
Set Implicit Arguments.

(** * hexadecimal *)
Lemma hex_hi b : chr hex_chars (N.to_nat (N.land (N.shiftr (code b) 4) 15)) = Ok (hexdigit (code b / 16)).
Proof. destruct b as [[] [] [] [] [] [] [] []]; reflexivity. Qed.
Lemma hex_lo b : chr hex_chars (N.to_nat (N.land (code b) 15)) = Ok (hexdigit (code b mod 16)).
Proof. destruct b as [[] [] [] [] [] [] [] []]; reflexivity. Qed.
Lemma hex_app a b : hex (a ++ b) = hex a ++ hex b.
Proof. unfold hex. apply flat_map_app. Qed.
Lemma hex_length s : length (hex s) = 2 * length s.
Proof. induction s as [|c s IH]; [reflexivity|]. cbn [hex flat_map length app]. fold (hex s). rewrite IH. lia. Qed.
Lemma hexdigit_inj n m : (n < 16)%N -> (m < 16)%N -> hexdigit n = hexdigit m -> n = m.
Proof.
  intros Hn Hm E. apply (f_equal code) in E. unfold hexdigit in E.
  destruct (N.ltb_spec n 10); destruct (N.ltb_spec m 10); rewrite !code_ascii in E by lia; lia.
Qed.
Lemma hex_inj a : forall b, hex a = hex b -> a = b.
Proof.
  induction a as [|x a IH]; intros [|y b] E; cbn in E; try discriminate; [reflexivity|].
  injection E as E1 E2 E3. pose proof (code_lt x). pose proof (code_lt y).
  apply hexdigit_inj in E1; [|apply N.div_lt_upper_bound; lia|apply N.div_lt_upper_bound; lia].
  apply hexdigit_inj in E2; [|apply N.mod_lt; lia|apply N.mod_lt; lia].
  f_equal; [|apply IH; exact E3]. apply code_inj. rewrite (N.div_mod (code x) 16), (N.div_mod (code y) 16) by lia. lia.
Qed.
Lemma hex_cstr s : is_cstr (hex s).
Proof.
  unfold hex. intros I. apply in_flat_map in I as [c [_ [E|[E|[]]]]].
  - apply (f_equal code) in E. pose proof (code_lt c). unfold hexdigit in E. assert (code c / 16 < 16)%N by (apply N.div_lt_upper_bound; lia).
    change (code NUL) with 0%N in E. destruct (N.ltb_spec (code c / 16) 10); rewrite code_ascii in E; lia.
  - apply (f_equal code) in E. unfold hexdigit in E. assert (code c mod 16 < 16)%N by (apply N.mod_lt; lia).
    change (code NUL) with 0%N in E. destruct (N.ltb_spec (code c mod 16) 10); rewrite code_ascii in E; lia.
Qed.

Lemma hex_loop_spec fuel : forall a b r dst_size, length b < fuel -> dst_size <= 2 * length a + length r -> 2 * length a < dst_size ->
  let k := Nat.min (length b) ((dst_size - 1) / 2 - length a) in
  hex_loop fuel (length a) (map Some (hex a) ++ r) dst_size (a ++ b) (length (a ++ b))
   = Ok (map Some (hex (a ++ firstn k b)) ++ Some NUL :: skipn (S (2 * k)) r, 2 * (length a + k)).
Proof.
  induction fuel as [|g IH]; intros a b r ds L R Lt k; [lia|]. cbn [hex_loop]. rewrite app_length.
  assert (DIV : (ds - 1) / 2 * 2 <= ds - 1 < (ds - 1) / 2 * 2 + 2).
  { pose proof (Nat.div_mod (ds - 1) 2 ltac:(lia)). pose proof (Nat.mod_upper_bound (ds - 1) 2 ltac:(lia)). lia. }
  destruct ((length a <? length a + length b) && (length a * 2 + 2 <? ds)) eqn:G.
  - apply andb_true_iff in G as [G1 G2]. apply Nat.ltb_lt in G1, G2.
    destruct b as [|c b]; [cbn in G1; lia|]. rewrite nth_error_app2, Nat.sub_diag by lia. cbn [nth_error bind].
    rewrite hex_hi. cbn [bind]. rewrite write_at by (rewrite ?hex_length; lia). cbn [bind].
    rewrite hex_lo. cbn [bind]. rewrite write_at by (rewrite ?app_length, ?hex_length, ?skipn_length; cbn [length]; lia). cbn [bind].
    rewrite <- app_assoc. cbn [app]. cbn [length] in *.
    specialize (IH (a ++ [c]) b (skipn 2 r) ds). rewrite !app_length, skipn_length, hex_app in IH. cbn [length] in IH.
    rewrite !Nat.add_1_r, <- !app_assoc in IH. cbn [app hex flat_map] in IH.
    specialize (IH ltac:(lia) ltac:(lia) ltac:(lia)). cbv zeta in IH.
    match type of IH with ?L = _ => transitivity L; [|rewrite IH; clear IH] end.
    { f_equal; [|lia]. rewrite !map_app, skipn_skipn, <- !app_assoc. reflexivity. }
    assert (K : k = S (Nat.min (length b) ((ds - 1) / 2 - S (length a)))) by (unfold k; cbn [length]; lia).
    rewrite K. cbn [firstn]. rewrite skipn_skipn. f_equal. f_equal; [|lia]. do 3 f_equal. lia.
  - assert (K : k = 0).
    { unfold k. apply andb_false_iff in G as [G|G]; apply Nat.ltb_ge in G; lia. }
    rewrite K. destruct (Nat.ltb_spec (2 * length a) ds); [|lia]. cbn [massert].
    rewrite write_end by (rewrite ?hex_length; lia). cbn [bind firstn]. rewrite app_nil_r, Nat.add_0_r. reflexivity.
Qed.

Lemma StringBytesToHex_spec m dst_size src src_len : 0 < dst_size <= length m -> src_len <= length src ->
  let k := Nat.min src_len ((dst_size - 1) / 2) in
  StringBytesToHex m dst_size src src_len = Ok (put m (hex (firstn k src)), 2 * k).
Proof.
  intros [P L] SL k. unfold StringBytesToHex.
  assert (G : forall fuel i mm, hex_loop fuel i mm dst_size src src_len = hex_loop fuel i mm dst_size (firstn src_len src) src_len).
  { induction fuel as [|g IH]; intros i mm; [reflexivity|]. cbn [hex_loop].
    destruct ((i <? src_len) && (i * 2 + 2 <? dst_size)) eqn:E; [|reflexivity].
    apply andb_true_iff in E as [E _]. apply Nat.ltb_lt in E.
    assert (N : nth_error (firstn src_len src) i = nth_error src i).
    { rewrite (nth_error_nth' src NUL) by lia. rewrite (nth_error_nth' (firstn src_len src) NUL) by (rewrite firstn_length; lia).
      rewrite nth_firstn by lia. reflexivity. }
    rewrite N. destruct (nth_error src i) as [b|]; cbn [bind]; [|reflexivity]. rewrite hex_hi, hex_lo. cbn [bind].
    destruct (aset mm (2 * i) _); cbn [bind]; try reflexivity. destruct (aset a (2 * i + 1) _); cbn [bind]; try reflexivity. apply IH. }
  rewrite G. pose proof (@hex_loop_spec (S src_len) [] (firstn src_len src) m dst_size) as X.
  cbn [app length map hex flat_map Nat.mul Nat.add] in X. rewrite firstn_length, Nat.min_l in X by lia.
  specialize (X ltac:(lia) ltac:(lia) ltac:(lia)). rewrite X, Nat.sub_0_r. fold k.
  rewrite firstn_firstn, Nat.min_l by (unfold k; lia). 
  fold (hex (firstn k src)).
  assert (KL : length (hex (firstn k src)) = 2 * k) by (rewrite hex_length, firstn_length; unfold k; lia).
  change (k + (k + 0)) with (2 * k). rewrite <- KL at 1. reflexivity.
Qed.


(** * CountChar and EscapeCharCopy *)
Fixpoint cntf (sep : byte) (s : list byte) : nat :=
  match s with
  | [] => 0
  | c :: t => match t with
              | d :: t' => if beq c "\"%char && beq d sep then cntf sep t' else (if beq c sep then 1 else 0) + cntf sep t
              | [] => if beq c sep then 1 else 0
              end
  end.
Definition occ (sep : byte) (s : list byte) : nat := count_occ ascii_dec s sep.

Lemma count_loop_spec sep fuel : sep <> NUL -> forall a b n, is_cstr b -> length b < fuel ->
  count_loop fuel (length a) (a ++ b) sep n = Ok (n + cntf sep b).
Proof.
  intros NS. induction fuel as [|g IH]; intros a b n C L; [lia|]. cbn [count_loop]. destruct b as [|c b].
  - rewrite chr_app_end. cbn [bind]. rewrite beq_refl. cbn. f_equal. lia.
  - rewrite chr_app_mid. cbn [bind]. apply is_cstr_cons in C as [N C]. apply beq_false in N. rewrite N.
    assert (STEP : forall k, count_loop g (S (length a)) (a ++ c :: b) sep k = Ok (k + cntf sep b)).
    { intros k. specialize (IH (a ++ [c]) b k C). rewrite app_length, <- app_assoc in IH. cbn [length app] in IH, L. rewrite Nat.add_1_r in IH. apply IH. lia. }
    assert (ND : chr (a ++ c :: b) (S (length a)) = Ok (hd NUL b)).
    { replace (a ++ c :: b) with ((a ++ [c]) ++ b) by (rewrite <- app_assoc; reflexivity).
      replace (S (length a)) with (length (a ++ [c])) by (rewrite app_length; cbn; lia).
      destruct b; [apply chr_app_end|apply chr_app_mid]. }
    assert (EE : (if beq c "\"%char then let* d := chr (a ++ c :: b) (S (length a)) in Ok (beq d sep) else Ok false) = Ok (beq c "\"%char && beq (hd NUL b) sep)).
    { rewrite ND. destruct (beq c "\"%char); reflexivity. }
    rewrite EE. cbn [bind]. destruct b as [|d b].
    + cbn [hd]. assert (Z : beq NUL sep = false) by (apply beq_false; congruence). rewrite Z, andb_false_r. cbn [cntf].
      destruct (beq c sep); rewrite STEP; cbn [cntf]; f_equal; lia.
    + cbn [hd]. change (cntf sep (c :: d :: b)) with (if beq c "\"%char && beq d sep then cntf sep b else (if beq c sep then 1 else 0) + cntf sep (d :: b)).
      destruct (beq c "\"%char && beq d sep).
      * specialize (IH (a ++ [c; d]) b n). rewrite app_length, <- app_assoc in IH. cbn [length app] in IH, L.
        replace (length a + 2) with (S (S (length a))) in IH by lia. apply is_cstr_cons in C as [_ C]. apply IH; auto; lia.
      * destruct (beq c sep); rewrite STEP; f_equal; lia.
Qed.

Lemma CountChar_spec sep s : sep <> NUL -> is_cstr s -> CountChar (Some s) sep = Ok (cntf sep s).
Proof.
  intros N C. unfold CountChar. destruct s as [|c s]; [reflexivity|]. cbn [length Nat.eqb].
  exact (@count_loop_spec sep (S (S (length s))) N [] (c :: s) 0 C ltac:(cbn; lia)).
Qed.

(** a backslash directly before the character makes CountChar miss it *)
Definition has_pair (sep : byte) (s : list byte) : Prop := exists a b, s = a ++ "\"%char :: sep :: b.

Lemma occ_cons sep c s : occ sep (c :: s) = (if beq c sep then 1 else 0) + occ sep s.
Proof. unfold occ. cbn. destruct (ascii_dec c sep) as [->|N]; [rewrite beq_refl; reflexivity|]. apply beq_false in N. rewrite N. reflexivity. Qed.

Lemma cntf_le sep n : forall s, length s < n -> cntf sep s <= occ sep s /\ (cntf sep s = occ sep s <-> ~ has_pair sep s).
Proof.
  induction n as [|n IH]; intros s L; [lia|]. destruct s as [|c [|d s]].
  - cbn. split; [lia|]. split; [|reflexivity]. intros _ [a [b E]]. destruct a; discriminate.
  - cbn [cntf]. rewrite occ_cons. cbn. split; [lia|]. split; [|lia]. intros _ [a [b E]]. destruct a as [|x [|]]; discriminate.
  - change (cntf sep (c :: d :: s)) with (if beq c "\"%char && beq d sep then cntf sep s else (if beq c sep then 1 else 0) + cntf sep (d :: s)).
    rewrite occ_cons. destruct (beq c "\"%char && beq d sep) eqn:G.
    + apply andb_true_iff in G as [G1 G2]. apply beq_true in G1, G2. subst c d. rewrite occ_cons, beq_refl.
      destruct (IH s) as [I1 I2]; [cbn in L; lia|]. split; [lia|]. split; [lia|]. intros NP. exfalso. apply NP. exists [], s. reflexivity.
    + destruct (IH (d :: s)) as [I1 I2]; [cbn in *; lia|]. split; [lia|].
      assert (X : has_pair sep (c :: d :: s) <-> has_pair sep (d :: s)).
      { split.
        - intros [a [b E]]. destruct a as [|x a].
          + cbn in E. injection E as -> -> _. rewrite !beq_refl in G. discriminate.
          + cbn in E. injection E as -> E. exists a, b. exact E.
        - intros [a [b E]]. exists (c :: a), b. rewrite E. reflexivity. }
      rewrite X, <- I2. lia.
Qed.

Lemma escaped_length t e s : length (escaped t e s) = length s + occ t s.
Proof.
  induction s as [|c s IH]; [reflexivity|]. cbn [escaped]. rewrite occ_cons. destruct (beq c t); cbn [length]; lia.
Qed.

Lemma escape_loop_spec t e fuel : forall a b o r, is_cstr b -> length b < fuel ->
  escape_loop fuel (length a) (length o) (map Some o ++ r) (a ++ b) t e =
   if length (escaped t e b) <=? length r then Ok (map Some (o ++ escaped t e b) ++ skipn (length (escaped t e b)) r) else UB.
Proof.
  induction fuel as [|g IH]; intros a b o r C L; [lia|]. cbn [escape_loop]. destruct b as [|c b].
  - rewrite chr_app_end. cbn [bind]. rewrite beq_refl. cbn. rewrite app_nil_r. reflexivity.
  - rewrite chr_app_mid. cbn [bind]. apply is_cstr_cons in C as [N C]. apply beq_false in N. rewrite N.
    cbn [escaped length] in *.
    assert (STEP : forall x y q, escape_loop g (S (length a)) (S (length x)) (map Some (x ++ [y]) ++ q) (a ++ c :: b) t e =
       if length (escaped t e b) <=? length q then Ok (map Some ((x ++ [y]) ++ escaped t e b) ++ skipn (length (escaped t e b)) q) else UB).
    { intros x y q. specialize (IH (a ++ [c]) b (x ++ [y]) q C). rewrite !app_length, <- app_assoc in IH. cbn [length app] in IH.
      rewrite !Nat.add_1_r in IH. apply IH. lia. }
    destruct (beq_spec c t) as [->|NT].
    + destruct r as [|x r].
      { cbn [length]. unfold aset at 1. rewrite app_length, map_length. cbn [length].
        replace (length o <? length o + 0) with false by (symmetry; apply Nat.ltb_ge; lia). reflexivity. }
      rewrite write_at by (cbn; lia). cbn [bind skipn]. destruct r as [|y r].
      { unfold aset at 1. rewrite app_nil_r, map_length, app_length. cbn [length].
        replace (S (length o) <? length o + 1) with false by (symmetry; apply Nat.ltb_ge; lia). reflexivity. }
      rewrite write_at by (rewrite ?app_length; cbn [length]; lia). cbn [bind skipn].
      specialize (STEP (o ++ [e]) t r). rewrite app_length in STEP. cbn [length] in STEP. rewrite Nat.add_1_r in STEP. rewrite STEP.
      cbn [length Nat.leb skipn]. rewrite <- !app_assoc. reflexivity.
    + cbn [bind]. destruct r as [|x r].
      { cbn [length]. unfold aset at 1. rewrite app_length, map_length. cbn [length].
        replace (length o <? length o + 0) with false by (symmetry; apply Nat.ltb_ge; lia). reflexivity. }
      rewrite write_at by (cbn; lia). cbn [bind skipn]. rewrite STEP. cbn [length Nat.leb skipn]. rewrite <- !app_assoc. reflexivity.
Qed.

Lemma EscapeCharCopy_eq s t e : is_cstr s -> t <> NUL -> (N.of_nat (length s) <= SIZE_MAX / 2 - 1)%N ->
  EscapeCharCopy s t e =
   if length s + occ t s <=? length s + cntf t s + 1
   then Ok (map Some (escaped t e s) ++ repeat (Some NUL) (length s + cntf t s + 1 - (length s + occ t s))) else UB.
Proof.
  intros C N B. unfold EscapeCharCopy. destruct (N.ltb_spec (SIZE_MAX / 2 - 1) (N.of_nat (length s))); [lia|].
  rewrite CountChar_spec by auto. cbn [bind].
  pose proof (@escape_loop_spec t e (S (length s)) [] s [] (calloc (length s + cntf t s + 1)) C ltac:(lia)) as X.
  cbn [length app map] in X. rewrite X. unfold calloc. rewrite repeat_length, escaped_length. clear X.
  destruct (length s + occ t s <=? length s + cntf t s + 1); [|reflexivity]. do 2 f_equal.
  assert (G : forall k i, skipn k (repeat (Some NUL) i) = repeat (Some NUL) (i - k)) by (induction k as [|k IH]; intros [|i]; cbn; auto). apply G.
Qed.

Lemma escaped_cstr t e s : is_cstr s -> e <> NUL -> is_cstr (escaped t e s).
Proof.
  intros C N. induction s as [|c s IH]; [exact C|]. apply is_cstr_cons in C as [X C]. cbn [escaped].
  destruct (beq c t); [apply is_cstr_cons; split; [exact N|]|]; apply is_cstr_cons; auto.
Qed.

Lemma unescape_escaped t e s : unescape t e (escaped t e s) = s.
Proof.
  induction s as [|c s IH]; [reflexivity|]. cbn [escaped]. destruct (beq_spec c t) as [->|N].
  - cbn [unescape]. rewrite !beq_refl. cbn [andb]. f_equal. exact IH.
  - destruct s as [|d s]; [reflexivity|]. cbn [escaped] in IH |- *. destruct (beq_spec d t) as [->|ND].
    + assert (G : beq c e && beq e t = false).
      { destruct (beq_spec c e) as [->|]; [|reflexivity]. cbn. apply beq_false. congruence. }
      change (unescape t e (c :: e :: t :: escaped t e s)) with
        (if beq c e && beq e t then t :: unescape t e (t :: escaped t e s) else c :: unescape t e (e :: t :: escaped t e s)).
      rewrite G. f_equal. exact IH.
    + assert (G : beq c e && beq d t = false) by (apply beq_false in ND; rewrite ND; apply andb_false_r).
      change (unescape t e (c :: d :: escaped t e s)) with
        (if beq c e && beq d t then t :: unescape t e (escaped t e s) else c :: unescape t e (d :: escaped t e s)).
      rewrite G. f_equal. exact IH.
Qed.

(** * StringReplace *)
Lemma firstn_skipn_hold m s i n : holds m s -> i + n <= length s -> firstn n (skipn i m) = map Some (firstn n (skipn i s)).
Proof.
  intros [_ [r ->]] L. rewrite skipn_app_le by (rewrite map_length; lia).
  rewrite firstn_app_le by (rewrite skipn_length, map_length; lia). rewrite skipn_map, firstn_map. reflexivity.
Qed.

Lemma copy_hold_at m s (a : list byte) (r : cells byte) i n : holds m s -> n <= length r -> i + n <= length s ->
  acopy (map Some a ++ r) (length a) m i n = Ok (map Some (a ++ firstn n (skipn i s)) ++ skipn n r).
Proof.
  intros H L1 L2. pose proof (holds_length H). rewrite acopy_Ok; [|rewrite app_length, map_length; lia|lia].
  rewrite (@firstn_skipn_hold m s) by auto. rewrite firstn_app_le, (firstn_all2 (map Some a)) by (rewrite map_length; lia).
  rewrite skipn_app_ge, map_length by (rewrite map_length; lia). replace (length a + n - length a) with n by lia.
  rewrite map_app, <- app_assoc. reflexivity.
Qed.

Lemma replace_loop_spec m s size find rep fuel : holds m s -> find <> [] -> forall out q bi j,
  strstr (skipn bi s) find = Some j -> bi <= length s -> length s - bi < fuel -> length out + length q = size ->
  exists R, replaced find rep (skipn bi s) R /\
  ((replace_loop fuel m (map Some out ++ q) s size (length out) bi (bi + j) find rep = Ok None /\ size <= length out + length R) \/
   exists out' q' bi', replace_loop fuel m (map Some out ++ q) s size (length out) bi (bi + j) find rep = Ok (Some (map Some out' ++ q', length out', bi')) /\
     bi' <= length s /\ length out' + length q' = size /\ out ++ R = out' ++ skipn bi' s /\ length out' < size).
Proof.
  intros H NF. induction fuel as [|g IH]; intros out q bi j ES LB LF LQ; [lia|].
  pose proof (strstr_Some _ _ ES) as FO. pose proof FO as [[a [b [Eab La]]] _].
  assert (Lsk : length s - bi = j + length find + length b).
  { rewrite <- skipn_length, Eab, !app_length. lia. }
  assert (NL : 0 < length find) by (destruct find; [congruence|cbn; lia]).
  assert (Ej : firstn j (skipn bi s) = a) by (rewrite Eab, <- La, firstn_app_le, firstn_all by lia; reflexivity).
  assert (Enext : skipn (bi + j + length find) s = b).
  { replace (bi + j + length find) with ((j + length find) + bi) by lia. rewrite <- skipn_skipn, Eab, skipn_app_ge by lia.
    rewrite La. replace (j + length find - j) with (length find) by lia. rewrite skipn_app_ge, Nat.sub_diag by lia. reflexivity. }
  assert (Enext2 : skipn (j + length find) (skipn bi s) = b) by (rewrite skipn_skipn; rewrite <- Enext; f_equal; lia).
  cbn [replace_loop]. replace (bi + j - bi) with j by lia.
  destruct (strstr b find) as [k|] eqn:EB.
  - destruct (Nat.leb_spec size (length out + j + length rep)) as [OV|OK].
    + (* overflow now *)
      assert (HR : exists R, replaced find rep b R).
      { destruct (@sar_loop_spec (S (length b)) b find rep [] NF ltac:(lia)) as [R [_ HR]]. eauto. }
      destruct HR as [R HR]. exists (a ++ rep ++ R). split.
      * rewrite <- Ej. apply rep_next; [exact FO|]. rewrite Enext2. exact HR.
      * left. split; [reflexivity|]. rewrite !app_length. lia.
    + rewrite (@copy_hold_at m s) by (auto; lia). cbn [bind]. rewrite Ej.
      rewrite copy_at; [|rewrite app_length; lia|rewrite skipn_length; lia|lia]. cbn [bind]. rewrite firstn_all.
      rewrite Enext, EB.
      specialize (IH ((out ++ a) ++ rep) (skipn (length rep) (skipn j q)) (bi + j + length find) k).
      rewrite Enext in IH. rewrite !app_length, !skipn_length in IH.
      destruct (IH EB) as [R [HR HD]]; [lia|lia|lia|]. exists (a ++ rep ++ R). split.
      * rewrite <- Ej. apply rep_next; [exact FO|]. rewrite Enext2. exact HR.
      * rewrite La in *. destruct HD as [[E O]|[out' [q' [bi' [E [B1 [B2 [B3 B4]]]]]]]].
        -- left. split; [exact E|]. rewrite !app_length. lia.
        -- right. exists out', q', bi'. split; [exact E|]. split; [exact B1|]. split; [exact B2|]. split; [|exact B4]. rewrite <- B3, <- !app_assoc. reflexivity.
  - assert (HR : replaced find rep b b) by (apply rep_none, strstr_None, EB).
    exists (a ++ rep ++ b). split.
    + rewrite <- Ej. apply rep_next; [exact FO|]. rewrite Enext2. exact HR.
    + destruct (Nat.leb_spec size (length out + j + length rep)) as [OV|OK].
      * left. split; [reflexivity|]. rewrite !app_length. lia.
      * right. rewrite (@copy_hold_at m s) by (auto; lia). cbn [bind]. rewrite Ej.
        rewrite copy_at; [|rewrite app_length; lia|rewrite skipn_length; lia|lia]. cbn [bind]. rewrite firstn_all.
        rewrite Enext, EB. exists ((out ++ a) ++ rep), (skipn (length rep) (skipn j q)), (bi + j + length find).
        split; [|split; [lia|split; [rewrite !app_length, !skipn_length; lia|split; [rewrite Enext, <- !app_assoc; reflexivity|rewrite !app_length; lia]]]].
        rewrite !app_length, La. reflexivity.
Qed.

Lemma replaced_absent find rep s R : replaced find rep s R -> absent find s -> R = s.
Proof. intros H A. inversion H; subst; [reflexivity|]. destruct H0 as [O _]. destruct (A _ O). Qed.

Lemma StringReplace_spec m s size find rep : holds m s -> find <> [] -> is_cstr find -> is_cstr rep -> length s < size <= length m ->
  forall R, replaced find rep s R ->
  (absent find s /\ StringReplace m size find rep = Ok (m, 0%Z)) \/
  (~ absent find s /\ size <= length R /\ StringReplace m size find rep = Ok (m, (-1)%Z)) \/
  (~ absent find s /\ length R < size /\ exists m', StringReplace m size find rep = Ok (m', Z.of_nat (length R)) /\
     holds m' R /\ same_from size m m').
Proof.
  intros H NF Cf Cr [L1 L2] R HR. pose proof (holds_length H) as HL.
  unfold StringReplace. rewrite (proj2 (mstr_holds _ _) H).
  destruct find as [|f0 f']; [congruence|]. set (find := f0 :: f') in *.
  assert (E0 : chr find 0 = Ok f0) by reflexivity. rewrite E0. cbn [bind].
  assert (N0 : beq f0 NUL = false) by (apply beq_false; intros ->; apply Cf; left; reflexivity). rewrite N0. cbn [negb massert].
  destruct (strstr s find) as [p|] eqn:ES.
  2:{ left. split; [apply strstr_None, ES|reflexivity]. }
  right. assert (NA : ~ absent find s) by (intros A; rewrite (strstr_absent A) in ES; discriminate).
  destruct (@replace_loop_spec m s size find rep (S (length s)) H NF [] (repeat None size) 0 p) as [R' [HR' HD]]; auto; try lia.
  { rewrite repeat_length. reflexivity. }
  cbn [skipn] in HR'. assert (R' = R) by (eapply replaced_unique; eauto). subst R'.
  cbn [map app length Nat.add] in HD. destruct HD as [[E O]|[out' [q' [bi' [E [B1 [B2 [B3 B4]]]]]]]].
  - left. rewrite E. cbn [bind]. split; [exact NA|]. split; [lia|reflexivity].
  - rewrite E. cbn [bind]. assert (LR : length R = length out' + (length s - bi')) by (rewrite B3, app_length, skipn_length; lia).
    destruct (Nat.leb_spec size (length out' + (length s - bi'))) as [OV|OK].
    + left. split; [exact NA|]. split; [lia|reflexivity].
    + right. split; [exact NA|]. split; [lia|].
      assert (CP : acopy (map Some out' ++ q') (length out') m bi' (length s - bi' + 1)
         = Ok (map Some R ++ Some NUL :: skipn (length s - bi' + 1) q')).
      { pose proof H as [C [r Em]]. rewrite acopy_Ok; [|rewrite app_length, map_length; lia|lia].
        rewrite firstn_app_le, (firstn_all2 (map Some out')) by (rewrite map_length; lia).
        assert (X : firstn (length s - bi' + 1) (skipn bi' m) = map Some (skipn bi' s) ++ [Some NUL]).
        { rewrite Em, skipn_app_le by (rewrite map_length; lia). rewrite firstn_app_ge by (rewrite skipn_length, map_length; lia).
          rewrite skipn_map, map_length, skipn_length. replace (length s - bi' + 1 - (length s - bi')) with 1 by lia. reflexivity. }
        rewrite X. rewrite skipn_app_ge, map_length by (rewrite map_length; lia).
        replace (length out' + (length s - bi' + 1) - length out') with (length s - bi' + 1) by lia.
        rewrite B3, map_app, <- !app_assoc. reflexivity. }
      rewrite CP. cbn [bind].
      rewrite acopy_Ok; [|lia|rewrite app_length, map_length; cbn [length]; rewrite skipn_length; lia].
      cbn [bind firstn skipn app Nat.add]. rewrite <- LR.
      assert (X : firstn (length R + 1) (map Some R ++ Some NUL :: skipn (length s - bi' + 1) q') = map Some R ++ [Some NUL]).
      { rewrite firstn_app_ge by (rewrite map_length; lia). rewrite map_length. replace (length R + 1 - length R) with 1 by lia. reflexivity. }
      rewrite X. rewrite <- app_assoc. cbn [app].
      assert (CR' : is_cstr R).
      { pose proof H as [C _]. clear -C Cr HR. induction HR as [s A|s i out F HR IH]; [exact C|].
        apply is_cstr_app. split; [apply is_cstr_firstn, C|]. apply is_cstr_app. split; [exact Cr|]. apply IH.
        intros I. apply C. rewrite <- (firstn_skipn (i + length find) s). apply in_or_app; auto. }
      eexists. split; [reflexivity|]. split; [split; [exact CR'|eexists; reflexivity]|]. split.
      * rewrite app_length, map_length. cbn [length]. rewrite skipn_length. lia.
      * rewrite skipn_app_ge by (rewrite map_length; lia). rewrite map_length.
        replace (size - length R) with (S (size - length R - 1)) by lia. cbn [skipn]. rewrite skipn_skipn. f_equal. lia.
Qed.

(** * tokens *)
Fixpoint cnt_tok (sep : byte -> bool) (b : list byte) (in_token : bool) : nat :=
  match b with
  | [] => 0
  | c :: b' => if sep c then cnt_tok sep b' false else (if in_token then 0 else 1) + cnt_tok sep b' true
  end.

Lemma count_tokens_loop_spec seps fuel : forall a b j n it, length b < fuel ->
  count_tokens_loop fuel (length a) (map Some (a ++ b) ++ j) (length (a ++ b)) seps n it = Ok (n + cnt_tok (is_sep seps) b it).
Proof.
  induction fuel as [|g IH]; intros a b j n it L; [lia|]. cbn [count_tokens_loop]. rewrite app_length. destruct b as [|c b].
  - cbn [length]. destruct (Nat.ltb_spec (length a) (length a + 0)); [lia|]. cbn. f_equal. lia.
  - cbn [length]. destruct (Nat.ltb_spec (length a) (length a + S (length b))); [|lia].
    rewrite map_app, <- app_assoc. cbn [map app]. rewrite aget_mid by reflexivity. cbn [bind cnt_tok].
    assert (STEP : forall n it, count_tokens_loop g (S (length a)) (map Some a ++ Some c :: map Some b ++ j) (length a + S (length b)) seps n it
        = Ok (n + cnt_tok (is_sep seps) b it)).
    { intros n' it'. specialize (IH (a ++ [c]) b j n' it'). rewrite !app_length, !map_app, <- !app_assoc in IH. cbn [length map app] in IH, L.
      rewrite Nat.add_1_r in IH. rewrite Nat.add_succ_r. apply IH. lia. }
    destruct (is_sep seps c); rewrite STEP; [reflexivity|]. destruct it; cbn [negb]; f_equal; lia.
Qed.

Lemma cnt_tok_app sep t s : (forall c, In c t -> sep c = false) -> cnt_tok sep (t ++ s) true = cnt_tok sep s true.
Proof.
  induction t as [|c t IH]; intros A; [reflexivity|]. cbn. rewrite (A c) by (left; reflexivity). apply IH. intros x I. apply A. right. exact I.
Qed.

Lemma runs_count sep off s ts : runs sep off s ts -> cnt_tok sep s false = length ts.
Proof.
  induction 1 as [off|off c s ts S R IH|off t s ts N A B R IH].
  - reflexivity.
  - cbn. rewrite S. exact IH.
  - destruct t as [|c t]; [congruence|]. cbn. rewrite (A c) by (left; reflexivity). rewrite cnt_tok_app by (intros x I; apply A; right; exact I).
    rewrite <- IH. destruct B as [->|[d [s' [-> D]]]]; [reflexivity|]. cbn. rewrite D. reflexivity.
Qed.

Fixpoint nt (sep : byte -> bool) (off : nat) (b : list byte) (found : option nat) : option (nat * nat) :=
  match b with
  | [] => match found with Some st => Some (st, off - st) | None => None end
  | c :: b' => if sep c then match found with Some st => Some (st, off - st) | None => nt sep (S off) b' None end
               else nt sep (S off) b' (match found with None => Some off | x => x end)
  end.

Lemma next_token_loop_spec seps fuel : forall a b j found, length b < fuel ->
  (match found with Some st => st < length a | None => True end) ->
  next_token_loop fuel (length a) (map Some (a ++ b) ++ j) (length (a ++ b)) seps found = Ok (nt (is_sep seps) (length a) b found).
Proof.
  induction fuel as [|g IH]; intros a b j found L F; [lia|]. cbn [next_token_loop]. rewrite app_length. destruct b as [|c b].
  - cbn [length]. destruct (Nat.ltb_spec (length a) (length a + 0)); [lia|]. cbn. rewrite Nat.add_0_r. reflexivity.
  - cbn [length]. destruct (Nat.ltb_spec (length a) (length a + S (length b))); [|lia].
    rewrite map_app, <- app_assoc. cbn [map app]. rewrite aget_mid by reflexivity. cbn [bind nt].
    assert (STEP : forall fd, (match fd with Some st => st < S (length a) | None => True end) ->
       next_token_loop g (S (length a)) (map Some a ++ Some c :: map Some b ++ j) (length a + S (length b)) seps fd
        = Ok (nt (is_sep seps) (S (length a)) b fd)).
    { intros fd Ffd. specialize (IH (a ++ [c]) b j fd). rewrite !app_length, !map_app, <- !app_assoc in IH. cbn [length map app] in IH, L.
      rewrite Nat.add_1_r in IH. rewrite Nat.add_succ_r. apply IH; [lia|exact Ffd]. }
    destruct (is_sep seps c).
    + destruct found as [st|]; [|apply STEP; auto]. destruct (Nat.ltb_spec 0 (length a)); [reflexivity|lia].
    + apply STEP. destruct found; lia.
Qed.

Lemma nt_tok sep st t s : (forall c, In c t -> sep c = false) -> (s = [] \/ exists c s', s = c :: s' /\ sep c = true) ->
  forall off, nt sep off (t ++ s) (Some st) = Some (st, off + length t - st).
Proof.
  intros A B. induction t as [|c t IH]; intros off; cbn [app length].
  - rewrite Nat.add_0_r. destruct B as [->|[d [s' [-> D]]]]; cbn; [reflexivity|]. rewrite D. reflexivity.
  - cbn [nt]. rewrite (A c) by (left; reflexivity). rewrite IH by (intros x I; apply A; right; exact I). do 2 f_equal. lia.
Qed.

Definition tokref (p : nat * list byte) : nat * nat := (fst p, length (snd p)).

Lemma runs_nt sep off s ts : runs sep off s ts -> nt sep off s None = option_map tokref (hd_error ts).
Proof.
  induction 1 as [off|off c s ts S R IH|off t s ts N A B R IH].
  - reflexivity.
  - cbn. rewrite S. exact IH.
  - destruct t as [|c t]; [congruence|]. cbn [app nt]. rewrite (A c) by (left; reflexivity).
    rewrite nt_tok by (auto; intros x I; apply A; right; exact I). cbn [option_map hd_error]. unfold tokref. cbn [fst snd length].
    replace (S off + length t - off) with (S (length t)) by lia. reflexivity.
Qed.

Definition shift (k : nat) (p : nat * list byte) : nat * list byte := (k + fst p, snd p).
Lemma runs_shift sep k off s ts : runs sep off s ts -> runs sep (k + off) s (map (shift k) ts).
Proof.
  induction 1 as [off|off c s ts S R IH|off t s ts N A B R IH]; cbn [map].
  - constructor.
  - apply runs_sep; [exact S|]. rewrite <- Nat.add_succ_r. exact IH.
  - change (shift k (off, t)) with (k + off, t). apply runs_tok; auto. rewrite <- Nat.add_assoc. exact IH.
Qed.
Lemma runs_exists sep n : forall off s, length s < n -> exists ts, runs sep off s ts.
Proof.
  induction n as [|n IH]; intros off s L; [lia|]. destruct s as [|c s]; [exists []; constructor|].
  destruct (sep c) eqn:E.
  - destruct (IH (S off) s) as [ts H]; [cbn in L; lia|]. exists ts. apply runs_sep; auto.
  - destruct (span (fun x => negb (sep x)) (c :: s)) as [a b] eqn:ES. apply span_eq in ES as [Es [F B]].
    assert (NA : a <> []). { intros ->. cbn in Es. rewrite <- Es in B. rewrite E in B. discriminate. }
    destruct (IH (off + length a) b) as [ts H].
    { apply (f_equal (@length _)) in Es. rewrite app_length in Es. cbn in Es, L. destruct a; [congruence|]. cbn in Es. lia. }
    exists ((off, a) :: ts). rewrite Es. apply runs_tok; auto.
    + intros x I. apply forallb_forall with (x := x) in F; [|exact I]. destruct (sep x); [discriminate|reflexivity].
    + destruct b as [|d b]; [auto|]. right. exists d, b. split; [reflexivity|]. destruct (sep d); [reflexivity|discriminate].
Qed.

Lemma runs_unique sep off s ts : runs sep off s ts -> forall ts', runs sep off s ts' -> ts = ts'.
Proof.
  assert (SPL : forall (t1 s1 t2 s2 : list byte), t1 ++ s1 = t2 ++ s2 -> (forall c, In c t1 -> sep c = false) -> (forall c, In c t2 -> sep c = false) ->
     (s1 = [] \/ exists c s', s1 = c :: s' /\ sep c = true) -> (s2 = [] \/ exists c s', s2 = c :: s' /\ sep c = true) -> t1 = t2 /\ s1 = s2).
  { induction t1 as [|x t1 IH]; intros s1 t2 s2 E A1 A2 B1 B2; destruct t2 as [|y t2]; cbn in E.
    - auto.
    - subst s1. destruct B1 as [X|[c [s' [X C]]]]; [discriminate|]. injection X as -> _. rewrite (A2 c) in C by (left; reflexivity). discriminate.
    - subst s2. destruct B2 as [X|[c [s' [X C]]]]; [discriminate|]. injection X as -> _. rewrite (A1 c) in C by (left; reflexivity). discriminate.
    - injection E as -> E. destruct (IH s1 t2 s2 E) as [-> ->]; auto; intros c I; [apply A1|apply A2]; right; exact I. }
  induction 1 as [off|off c s ts S R IH|off t s ts N A B R IH]; intros ts' H'.
  - inversion H' as [| |? t0 s0 ? N0 A0 B0 R0]; subst; [reflexivity|]. destruct t0; [congruence|discriminate].
  - inversion H' as [|? ? ? ? S0 R0|? t0 s0 ? N0 A0 B0 R0]; subst; [auto|].
    destruct t0 as [|y t0]; [congruence|]. match goal with X : _ = c :: s |- _ => cbn in X; injection X as -> _ end. rewrite (A0 c) in S by (left; reflexivity). discriminate.
  - inversion H' as [|? c s0 ? S0 R0|? t0 s0 ? N0 A0 B0 R0]; subst.
    + destruct t as [|? ?]; [congruence|discriminate].
    + destruct t as [|y t]; [congruence|]. match goal with X : c :: s0 = _ |- _ => cbn in X; injection X as -> -> end. rewrite (A y) in S0 by (left; reflexivity). discriminate.
    + match goal with X : t0 ++ s0 = t ++ s |- _ => destruct (SPL _ _ _ _ X A0 A B0 B) as [-> ->] end. f_equal. auto.
Qed.

Lemma StringNextToken_spec seps s j ts : runs (is_sep seps) 0 s ts ->
  StringNextToken (map Some s ++ j) (length s) seps = Ok (option_map tokref (hd_error ts)).
Proof.
  intros R. unfold StringNextToken. rewrite <- (runs_nt R).
  exact (@next_token_loop_spec seps (S (length s)) [] s j None ltac:(lia) Logic.I).
Qed.

Lemma runs_head sep off s o t ts : runs sep off s ((o, t) :: ts) -> exists v w, s = v ++ t ++ w /\ o = off + length v /\ runs sep (o + length t) w ts.
Proof.
  remember ((o, t) :: ts) as l eqn:E. intros R. revert o t ts E.
  induction R as [off|off c s l Sc R IH|off t0 s l N A B R IH]; intros o t ts E; try discriminate.
  - destruct (IH _ _ _ E) as [v [w [-> [-> H]]]]. exists (c :: v), w. split; [reflexivity|]. split; [cbn; lia|].
    replace (off + length (c :: v)) with (S off + length v) by (cbn; lia). exact H.
  - injection E as -> -> ->. exists [], s. split; [reflexivity|]. split; [cbn; lia|]. exact R.
Qed.

Lemma get_token_loop_spec seps str j : forall index off s ts, str = map Some s ++ j ->
  off <= length s -> runs (is_sep seps) off (skipn off s) ts ->
  get_token_loop index str off (length s - off) seps (option_map tokref (hd_error (map (fun p => (fst p - off, snd p)) ts)))
   = Ok (option_map tokref (nth_error ts index)).
Proof.
  induction index as [|k IH]; intros off s ts ES LO R; cbn [get_token_loop].
  - destruct ts as [|[o t] ts]; [reflexivity|]. cbn. destruct (runs_head R) as [v [w [_ [-> _]]]]. unfold tokref. cbn. do 3 f_equal. lia.
  - destruct ts as [|[o t] ts]; [reflexivity|]. cbn [hd_error map option_map tokref fst snd].
    destruct (runs_head R) as [v [w [Ev [Eo Rw]]]].
    assert (Lv : length s - off = length v + (length t + length w)) by (rewrite <- skipn_length, Ev, !app_length; lia).
    replace (off + (o - off) + length t) with (o + length t) by lia.
    assert (LW : o + length t <= length s) by lia.
    assert (Ew : skipn (o + length t) s = w).
    { replace (o + length t) with ((length v + length t) + off) by lia. rewrite <- skipn_skipn, Ev, app_assoc, skipn_app_ge by (rewrite app_length; lia).
      rewrite app_length, Nat.sub_diag. reflexivity. }
    replace (length s - off - (o - off + length t)) with (length s - (o + length t)) by lia.
    assert (R0 : exists ts0, runs (is_sep seps) 0 w ts0) by (apply (@runs_exists (is_sep seps) (S (length w))); lia).
    destruct R0 as [ts0 R0]. pose proof (runs_shift (o + length t) R0) as R1. rewrite Nat.add_0_r in R1.
    assert (ETS : ts = map (shift (o + length t)) ts0) by (eapply runs_unique; eauto).
    assert (NTK : StringNextToken (skipn (o + length t) str) (length s - (o + length t)) seps = Ok (option_map tokref (hd_error ts0))).
    { rewrite ES, skipn_app_le by (rewrite map_length; lia). rewrite skipn_map, Ew. replace (length s - (o + length t)) with (length w) by (rewrite <- Ew, skipn_length; lia).
      apply StringNextToken_spec, R0. }
    rewrite NTK. cbn [bind nth_error]. rewrite <- (IH (o + length t) s ts ES LW ltac:(rewrite Ew; exact Rw)). f_equal.
    rewrite ETS, map_map. destruct ts0 as [|[o0 t0] ts0]; [reflexivity|]. cbn. unfold tokref. cbn. do 2 f_equal. lia.
Qed.

Lemma StringGetToken_spec seps s j ts index : runs (is_sep seps) 0 s ts ->
  StringGetToken (map Some s ++ j) (length s) index seps = Ok (option_map tokref (nth_error ts index)).
Proof.
  intros R. unfold StringGetToken. rewrite (StringNextToken_spec j R). cbn [bind].
  pose proof (@get_token_loop_spec seps (map Some s ++ j) j index 0 s ts eq_refl ltac:(lia) R) as X. rewrite Nat.sub_0_r in X. rewrite <- X.
  f_equal. destruct ts as [|[o t] ts]; [reflexivity|]. cbn. rewrite Nat.sub_0_r. reflexivity.
Qed.

(** is_sep: NUL always separates *)
Lemma is_sep_spec seps c : is_cstr seps -> (is_sep seps c = true <-> c = NUL \/ In c seps).
Proof.
  intros C. unfold is_sep. induction seps as [|x seps IH]; cbn.
  - destruct (beq_spec c NUL); split; auto; try discriminate. intros [|[]]; congruence.
  - apply is_cstr_cons in C as [N C]. destruct (beq_spec x c) as [->|NE]; [split; auto|].
    specialize (IH C). destruct (strchr seps c); cbn; split; intros H; try discriminate.
    + destruct IH as [IH _]. destruct (IH eq_refl); auto.
    + reflexivity.
    + destruct IH as [_ IH]. destruct H as [->|[->|H]]; [|congruence|]; exfalso; assert (false = true) by (apply IH; auto); discriminate.
Qed.

(** * String2StringArray *)
Lemma s2a_loop_spec sep fuel : sep <> NUL -> forall sp (done : list (option (cells byte))) n, is_cstr sp -> length sp < fuel ->
  exists ps, pieces_of sep sp ps /\ length ps = S (count_sep sp sep) /\
   (length ps <= n ->
    s2a_loop fuel (length done) (map Some done ++ repeat (Some None) n) sp sep
      = Ok (map Some (done ++ map (fun p => Some (block p)) ps) ++ repeat (Some None) (n - length ps))).
Proof.
  intros NS. induction fuel as [|g IH]; intros sp done n C L; [lia|]. cbn [s2a_loop].
  assert (COPY : forall k, k <= length sp -> acopy (calloc (k + 1)) 0 (block sp) 0 k = Ok (block (firstn k sp))).
  { intros k K. pose proof (@copy_at [] sp (calloc (k + 1)) 0 k eq_refl) as X. cbn [map app] in X. unfold calloc in *.
    rewrite repeat_length in X. rewrite X by lia. rewrite block_eq. do 2 f_equal.
    assert (G : forall k i, skipn k (repeat (Some NUL) i) = repeat (Some NUL) (i - k)) by (induction k0 as [|k0 IHk]; intros [|i]; cbn; auto).
    rewrite G. replace (k + 1 - k) with 1 by lia. reflexivity. }
  assert (SET : forall p n, 0 < n -> aset (map Some done ++ repeat (Some None) n) (length done) (Some (block p))
      = Ok (map Some (done ++ [Some (block p)]) ++ repeat (Some None) (n - 1))).
  { intros p k K. destruct k as [|k]; [lia|]. cbn [repeat]. rewrite aset_rep_end. replace (S k - 1) with k by lia. reflexivity. }
  pose proof (strchr_cases C NS) as SC. destruct (strchr sp sep) as [j|].
  - destruct SC as [a [b [Es [La NI]]]]. assert (Cb : is_cstr b) by (rewrite Es in C; apply is_cstr_app in C as [_ C]; apply is_cstr_cons in C; apply C).
    assert (Lb : length sp = j + S (length b)) by (rewrite Es, app_length, La; reflexivity).
    destruct (IH b (done ++ [Some (block a)]) (n - 1) Cb ltac:(lia)) as [ps [[P1 [P2 P3]] [P4 P5]]].
    exists (a :: ps). split; [|split].
    + split; [discriminate|]. split.
      * rewrite Es, <- P2. destruct ps; [congruence|]. reflexivity.
      * intros p [<-|I]; [exact NI|]. apply P3, I.
    + cbn [length]. rewrite P4. f_equal. rewrite Es. clear -NI. induction a as [|x a IHa]; cbn.
      * rewrite beq_refl. reflexivity.
      * assert (X : beq x sep = false) by (apply beq_false; intros ->; apply NI; left; reflexivity). rewrite X. cbn. apply IHa. intros I. apply NI. right. exact I.
    + cbn [length]. intros LN. rewrite COPY by lia. cbn [bind]. rewrite SET by lia. cbn [bind].
      destruct (Nat.ltb_spec j (length sp)); [|lia].
      assert (E1 : firstn j sp = a) by (rewrite Es, <- La, firstn_app_le, firstn_all by lia; reflexivity).
      assert (E2 : skipn (j + 1) sp = b).
      { rewrite Es, skipn_app_ge by lia. rewrite La. replace (j + 1 - j) with 1 by lia. reflexivity. }
      rewrite E1, E2. rewrite app_length in P5. cbn [length] in P5. rewrite Nat.add_1_r in P5. rewrite P5 by lia.
      cbn [map]. rewrite <- app_assoc. cbn [app]. do 3 f_equal. lia.
  - exists [sp]. split; [|split].
    + split; [discriminate|]. split; [reflexivity|]. intros p [<-|[]]. exact SC.
    + cbn. f_equal. clear -SC. induction sp as [|x a IHa]; cbn; [reflexivity|].
      assert (X : beq x sep = false) by (apply beq_false; intros ->; apply SC; left; reflexivity). rewrite X. cbn. apply IHa. intros I. apply SC. right. exact I.
    + cbn [length]. intros LN. rewrite COPY by lia. cbn [bind]. rewrite SET by lia. cbn [bind]. rewrite firstn_all. reflexivity.
Qed.

Lemma pieces_unique c s p1 : forall p2, pieces_of c s p1 -> pieces_of c s p2 -> p1 = p2.
Proof.
  assert (SPL : forall (a b x y : list byte), ~ In c a -> ~ In c b -> a ++ c :: x = b ++ c :: y -> a = b /\ x = y).
  { induction a as [|u a IH]; intros [|v b] x y NA NB E; cbn in E.
    - injection E as ->. auto.
    - injection E as -> _. exfalso. apply NB. left. reflexivity.
    - injection E as -> _. exfalso. apply NA. left. reflexivity.
    - injection E as -> E. destruct (IH b x y) as [-> ->]; auto; intros I; [apply NA|apply NB]; right; exact I. }
  revert s. induction p1 as [|a p1 IH]; intros s p2 [N1 [J1 F1]] [N2 [J2 F2]]; [congruence|]. destruct p2 as [|b p2]; [congruence|].
  destruct p1 as [|a' p1], p2 as [|b' p2].
  - cbn in J1, J2. congruence.
  - exfalso. cbn [join] in J1, J2. apply (F1 a); [left; reflexivity|]. rewrite J1, <- J2. apply in_or_app. right. apply in_or_app. left. left. reflexivity.
  - exfalso. cbn [join] in J1, J2. apply (F2 b); [left; reflexivity|]. rewrite J2, <- J1. apply in_or_app. right. apply in_or_app. left. left. reflexivity.
  - change (join [c] (a :: a' :: p1)) with (a ++ c :: join [c] (a' :: p1)) in J1.
    change (join [c] (b :: b' :: p2)) with (b ++ c :: join [c] (b' :: p2)) in J2.
    rewrite <- J2 in J1. apply SPL in J1 as [-> E]; [|apply F1; left; reflexivity|apply F2; left; reflexivity].
    f_equal. apply (IH (join [c] (b' :: p2))); (split; [discriminate|]); (split; [auto|]); intros p I; [apply F1|apply F2]; right; exact I.
Qed.

(** * ScanPastChars *)
Lemma scan_past_spec set fuel : forall a b, is_cstr b -> length b < fuel ->
  exists v w, b = v ++ w /\ scan_past fuel (length a) set (a ++ b) = Ok (length a + length v) /\
    (forall c, In c v -> is_sep set c = true) /\ match w with [] => True | c :: _ => is_sep set c = false end.
Proof.
  induction fuel as [|g IH]; intros a b C L; [lia|]. cbn [scan_past]. destruct b as [|c b].
  - exists [], []. rewrite chr_app_end. cbn [bind]. rewrite beq_refl. cbn. rewrite Nat.add_0_r. split; [reflexivity|]. split; [reflexivity|]. split; [intros c []|exact Logic.I].
  - rewrite chr_app_mid. cbn [bind]. apply is_cstr_cons in C as [N C]. apply beq_false in N. rewrite N.
    destruct (is_sep set c) eqn:S1.
    + destruct (IH (a ++ [c]) b C) as [v [w [-> [E [A W]]]]]; [cbn in L; lia|].
      exists (c :: v), w. split; [reflexivity|]. rewrite app_length, <- app_assoc in E. cbn [length app] in E. rewrite Nat.add_1_r in E.
      split; [cbn [app]; rewrite E; f_equal; cbn; lia|]. split; [|exact W]. intros x [<-|I]; auto.
    + exists [], (c :: b). split; [reflexivity|]. split; [cbn; f_equal; lia|]. split; [intros x []|exact S1].
Qed.
