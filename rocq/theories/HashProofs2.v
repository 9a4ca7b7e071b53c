(** Proofs about hash.c (part 2: copies, printing, truncating with a hash). *)
From Verif Require Import Prelude PreludeFacts Str StrFacts Libc LibcFacts MemSpec CmpModel EditModel EditSpec EditProofs EditProofs2 EditProofs4
  BufModel IoModel CompatModel CompatProofs PropsCompat HashModel HashSpec HashProofs.
Set Implicit Arguments.

Lemma HashCopy_spec h m d : rep_hash h m d -> exists h', HashCopy h = Ok h' /\ rep_hash h' m d.
Proof.
  intros (A & B & (r & C) & L64 & L256 & H). unfold HashCopy, EVP_MAX_MD_SIZE.
  rewrite C in *. rewrite app_length, map_length in L64.
  rewrite acopy_Ok by (rewrite ?repeat_length, ?app_length, ?map_length; lia). cbn [firstn app skipn bind].
  rewrite B. rewrite firstn_app_le by (rewrite map_length; lia). rewrite firstn_all2 by (rewrite map_length; lia).
  rewrite (proj2 (mstr_holds (printable h) (type_prefix m ++ hex d)) H). cbn [bind].
  assert (LT : length (type_prefix m) = 4) by (destruct m; reflexivity).
  assert (LH : length (type_prefix m ++ hex d) < 256) by (rewrite app_length, hex_length; lia).
  rewrite strlcpy_spec; [|apply H|rewrite repeat_length; lia].
  change (64 * 4 =? 0) with false. cbv iota. cbn [bind].
  eexists; split; [reflexivity|]. unfold rep_hash. cbn [digest printable hmethod hsize].
  split; [exact A|]. split; [reflexivity|]. split; [eexists; reflexivity|].
  split; [rewrite app_length, map_length, skipn_length, repeat_length; lia|].
  rewrite firstn_all2 by lia.
  split; [rewrite put_length; rewrite ?repeat_length; lia|]. apply put_holds. apply H.
Qed.

Lemma HashEqual_spec a b m1 m2 d1 d2 : rep_hash a m1 d1 -> rep_hash b m2 d2 -> (m1 = m2 -> length d1 = length d2) ->
  exists r, HashEqual (Some a) (Some b) = Ok r /\ (r = true <-> m1 = m2 /\ d1 = d2).
Proof.
  intros (A1 & B1 & (r1 & C1) & _) (A2 & B2 & (r2 & C2) & _) LL. unfold HashEqual. rewrite A1, A2.
  destruct (method_eqb m1 m2) eqn:E; cbn [negb].
  - assert (EM : m1 = m2) by (destruct m1, m2; try discriminate E; reflexivity). specialize (LL EM).
    rewrite B1, C1, C2. pose proof (@equal_loop_spec d1 d2 0 r1 r2 [] [] eq_refl eq_refl LL) as X. cbn [app] in X. rewrite X.
    eexists; split; [reflexivity|]. rewrite bytes_eqb_eq. intuition.
  - exists false. split; [reflexivity|]. split; [discriminate|]. intros [-> _]. destruct m2; discriminate E.
Qed.

Lemma lookup_spec x : forall b a r rd, 2 * length b <= length r ->
  lookup_loop (length b) (length a) (map Some (a ++ b) ++ rd) (map Some (x ++ hex a) ++ r) (length x)
  = Ok (map Some (x ++ hex (a ++ b)) ++ skipn (2 * length b) r).
Proof.
  induction b as [|c b IH]; intros a r rd L.
  - rewrite app_nil_r. reflexivity.
  - cbn [length lookup_loop]. cbn [length] in L. rewrite (map_app Some a), <- app_assoc. cbn [map app]. rewrite aget_map. cbn [bind].
    assert (HI : chr hex_chars (N.to_nat (N.shiftr (code c) 4)) = Ok (hexdigit (code c / 16))).
    { destruct c as [[] [] [] [] [] [] [] []]; reflexivity. }
    rewrite HI. cbn [bind]. rewrite write_at by (rewrite ?app_length, ?hex_length; lia). cbn [bind].
    rewrite hex_lo. cbn [bind]. rewrite write_at by (rewrite ?app_length, ?hex_length, ?skipn_length; cbn [length]; lia). cbn [bind].
    rewrite skipn_skipn.
    specialize (IH (a ++ [c]) (skipn 2 r) rd). rewrite <- app_assoc in IH. cbn [app] in IH. rewrite app_length in IH. cbn [length] in IH.
    rewrite hex_app in IH. cbn [hex flat_map app] in IH. fold (hex a) in IH. 
    replace (S (length a)) with (length a + 1) by lia.
    transitivity (lookup_loop (length b) (length a + 1) (map Some (a ++ c :: b) ++ rd)
       (map Some (x ++ hex a ++ [hexdigit (code c / 16); hexdigit (code c mod 16)]) ++ skipn 2 r) (length x)).
    { f_equal; [rewrite map_app, <- app_assoc; reflexivity|]. rewrite <- !app_assoc. reflexivity. }
    rewrite IH by (rewrite skipn_length; lia). f_equal. f_equal. rewrite skipn_skipn. f_equal. lia.
Qed.

Section DB.
  Variable db : list byte -> option (list byte -> list byte).
  Hypothesis DB : openssl db.

  (** the MD5 digest, zeros when MD5 is not available *)
  Definition md5_or_zero (s : list byte) : list byte :=
    match db (lit "md5") with Some f => f s | None => repeat NUL 16 end.
  Lemma md5_length s : length (md5_or_zero s) = 16.
  Proof.
    unfold md5_or_zero. destruct (db (lit "md5")) as [f|] eqn:G; [|reflexivity].
    exact (proj1 DB HASH_METHOD_MD5 _ _ f eq_refl G s).
  Qed.
  Lemma md5_array s : is_cstr s -> exists r, HashString db (block s) (length s) (repeat None 65) HASH_METHOD_MD5 = Ok (map Some (md5_or_zero s) ++ r).
  Proof.
    intros C. rewrite block_eq. destruct (db (lit "md5")) as [f|] eqn:G.
    - assert (P : provides db HASH_METHOD_MD5 f) by (exists (lit "md5"), 16; auto).
      rewrite (@HashString_spec db DB s [Some NUL] (repeat None 65) HASH_METHOD_MD5 f eq_refl P).
      unfold md5_or_zero. rewrite G. eexists. reflexivity.
    - assert (ID : HashDigestFromId db HASH_METHOD_MD5 = Ok None) by (cbn; cbn in G; rewrite G; reflexivity).
      unfold HashString. change (method_eqb HASH_METHOD_MD5 HASH_METHOD_CRYPT) with false. cbn [negb massert].
      rewrite cleared_spec by reflexivity. cbn [bind]. rewrite ID. cbn [bind].
      unfold md5_or_zero. rewrite G. exists (repeat (Some NUL) 49). reflexivity.
  Qed.

  Lemma truncate_fits src dst n : is_cstr src -> 37 < n <= length dst -> length src < n ->
    exists dst', StringCopyTruncateAndHashIfNecessary db src dst n = Ok (dst', length src) /\ holds dst' src /\ same_from n dst dst'.
  Proof.
    intros C [N L] F. unfold StringCopyTruncateAndHashIfNecessary. destruct (Nat.ltb_spec (32 + 5) n); [|lia]. cbn [massert].
    destruct (@StringCopy_spec src dst n C ltac:(lia)) as (m' & E & H1 & H2). rewrite E. cbn [bind].
    destruct (Nat.ltb_spec (length src) n); [|lia]. destruct (Nat.ltb_spec (length src) n); [|lia].
    rewrite firstn_all2 in H1 by lia. exists m'. auto.
  Qed.

  Lemma truncate_long src dst n : is_cstr src -> 37 < n <= length dst -> n <= length src ->
    exists dst', StringCopyTruncateAndHashIfNecessary db src dst n = Ok (dst', n) /\
      holds dst' (firstn (n - 38) src ++ lit "#MD5=" ++ hex (md5_or_zero src)) /\ same_from n dst dst'.
  Proof.
    intros C [N L] F. unfold StringCopyTruncateAndHashIfNecessary. destruct (Nat.ltb_spec (32 + 5) n); [|lia]. cbn [massert].
    destruct (@StringCopy_spec src dst n C ltac:(lia)) as (m' & E & (CX & q & H1) & LEN & H2). rewrite E. cbn [bind].
    destruct (Nat.ltb_spec (length src) n); [lia|]. rewrite Nat.ltb_irrefl, Nat.eqb_refl. cbn [massert].
    change (length (lit "#MD5=")) with 5. cbn [Nat.add]. replace (37 <? n) with true by (symmetry; apply Nat.ltb_lt; lia). cbn [massert].
    destruct (md5_array C) as [rd HS]. unfold EVP_MAX_MD_SIZE. change (64 + 1) with 65. rewrite HS. cbn [bind].
    assert (LF : length (firstn (n - 1) src) = n - 1) by (rewrite firstn_length; lia).
    rewrite H1. pose proof (aget_map (firstn (n - 1) src) NUL q) as AG. rewrite LF in AG. rewrite AG. cbn [bind].
    replace (37 <=? n - 1) with true by (symmetry; apply Nat.leb_le; lia).
    change (beq NUL NUL) with true. cbn [andb massert].
    assert (SPL : firstn (n - 1) src = firstn (n - 38) src ++ firstn 37 (skipn (n - 38) src)).
    { replace (n - 1) with ((n - 38) + 37) by lia. rewrite <- (firstn_skipn (n - 38) src) at 1.
      rewrite firstn_app_ge by (rewrite firstn_length; lia). f_equal. f_equal. rewrite firstn_length. lia. }
    assert (LA : length (firstn (n - 38) src) = n - 38) by (rewrite firstn_length; lia).
    assert (LB : length (firstn 37 (skipn (n - 38) src)) = 37) by (rewrite firstn_length, skipn_length; lia).
    set (A := firstn (n - 38) src) in *. set (B := firstn 37 (skipn (n - 38) src)) in *.
    rewrite SPL, map_app, <- app_assoc.
    rewrite acopy_at; [|lia|rewrite app_length, map_length; lia|rewrite length_block; cbn; lia].
    cbn [bind]. change (firstn 5 (block (lit "#MD5="))) with (map (@Some byte) (lit "#MD5=")).
    rewrite skipn_app_le by (rewrite map_length; lia). 
    pose proof (@lookup_spec (A ++ lit "#MD5=") (md5_or_zero src) [] (skipn 5 (map Some B) ++ Some NUL :: q) rd) as X.
    rewrite md5_length in X. cbn [length app hex flat_map] in X. rewrite app_nil_r in X.
    rewrite app_length, skipn_length, map_length, LB in X. 
    rewrite app_length, LA in X. change (length (lit "#MD5=")) with 5 in X.
    change (32 / 2) with 16. replace (n - 1 - 37 + 5) with (n - 38 + 5) by lia.
    rewrite app_assoc, <- map_app. rewrite X by (cbn [length]; lia). clear X. cbn [bind].
    fold (hex (md5_or_zero src)).
    rewrite skipn_app_ge by (rewrite skipn_length, map_length; lia). rewrite skipn_length, map_length, LB.
    change (2 * 16 - (37 - 5)) with 0. cbn [skipn].
    assert (LX : length ((A ++ lit "#MD5=") ++ hex (md5_or_zero src)) = n - 1).
    { rewrite !app_length, hex_length, md5_length, LA. change (length (lit "#MD5=")) with 5. lia. }
    pose proof (aget_map ((A ++ lit "#MD5=") ++ hex (md5_or_zero src)) NUL q) as AG2. rewrite LX in AG2.
    replace (n - 1) with (n - 38 + 5 + 32) in AG2 by lia. rewrite AG2. cbn [bind]. change (beq NUL NUL) with true.
    replace (n - 38 + 5 + 32 =? n - 1) with true by (symmetry; apply Nat.eqb_eq; lia). cbn [andb massert].
    eexists; split; [reflexivity|]. rewrite <- app_assoc in *.
    split; [split|split].
    - intros I. apply in_app_or in I as [I|I].
      + apply C. unfold A in I. rewrite <- (firstn_skipn (n - 38) src). apply in_or_app. left. exact I.
      + apply in_app_or in I as [I|I]; [revert I; unfold NUL; cbn; intuition discriminate|exact (@hex_cstr _ I)].
    - eexists; reflexivity.
    - rewrite <- LEN, H1. rewrite !app_length, !map_length. cbn [length]. lia.
    - rewrite <- H2, H1. rewrite !skipn_app_ge by (rewrite map_length; lia). rewrite !map_length. do 2 f_equal. lia.
  Qed.
End DB.

Lemma HashPrintSafe_spec dst n (d : list byte) r m (use_prefix : bool) size : HashSizeFromId m = Ok size -> length d = size ->
  let prefix := if use_prefix then type_prefix m else [] in
  length prefix + 2 * size + 1 <= n <= length dst ->
  HashPrintSafe dst n (map Some d ++ r) m use_prefix = Ok (put dst (prefix ++ hex d)).
Proof.
  intros HS LD prefix [L1 L2]. unfold HashPrintSafe.
  fold (type_prefix m). fold prefix.
  assert (DL : Nat.min (predw n) (length prefix) = length prefix) by (destruct n; [lia|cbn [predw]; lia]).
  rewrite DL. rewrite acopy_Ok by (rewrite ?length_block; lia). cbn [firstn app skipn bind].
  rewrite firstn_block by lia. rewrite firstn_all. rewrite HS. cbn [bind].
  replace (length prefix + size * 2 + 1 <=? n) with true by (symmetry; apply Nat.leb_le; lia). cbn [massert].
  rewrite <- LD, read_map. cbn [bind].
  rewrite skipn_app_ge by (rewrite map_length; lia). rewrite map_length, Nat.sub_diag. cbn [skipn Nat.add].
  rewrite StringBytesToHex_spec; [|rewrite skipn_length; lia|lia].
  cbn [bind]. rewrite Nat.min_l by (apply Nat.div_le_lower_bound; lia). rewrite Nat.eqb_refl. cbn [massert].
  rewrite firstn_all. rewrite firstn_app_le by (rewrite map_length; lia). rewrite firstn_all2 by (rewrite map_length; lia).
  do 2 f_equal. unfold put. rewrite map_app, app_length, <- app_assoc. do 3 f_equal. rewrite skipn_skipn. replace (S (length (hex d)) + length prefix) with (S (length prefix + length (hex d))) by lia. reflexivity.
Qed.
