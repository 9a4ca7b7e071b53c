(** C113, C114, C115: copying a file, reading a stream, listing files, umask and close-on-exec. *)
From Verif Require Import Prelude PreludeFacts Str StrFacts Libc LibcFacts MemSpec EditModel EditSpec CmpModel PathModel
  MapModel MapSpec MapProofs SetModel SetProofs EditProofs PropsCmp PropsPath PropsEdit FilesModel.
Set Implicit Arguments.

(** ** File_Copy *)
Lemma fwrite_all_ok d ws out ws' : fwrite_all d ws = (out, false, ws') -> out = d.
Proof.
  revert d out ws'. induction ws as [|[k e] ws IH]; intros d out ws' E; cbn [fwrite_all] in E.
  - destruct d; congruence.
  - destruct d as [|c d]; [congruence|]. destruct e; [discriminate|].
    destruct (length (firstn k (c :: d)) <? length (c :: d)) eqn:L.
    + destruct (fwrite_all (skipn k (c :: d)) ws) as [[more e] ws1] eqn:F.
      assert (e = false) by congruence. subst e. apply IH in F. subst more.
      assert (out = firstn k (c :: d) ++ skipn k (c :: d)) by congruence. rewrite firstn_skipn in H. exact H.
    + apply Nat.ltb_ge in L. assert (out = firstn k (c :: d)) by congruence. subst out.
      rewrite firstn_length in L. apply firstn_all2. lia.
Qed.
Lemma fwrite_all_noerr d ws : Forall (fun x => snd x = false) ws ->
  exists ws', fwrite_all d ws = (d, false, ws') /\ Forall (fun x => snd x = false) ws'.
Proof.
  intros F. revert d. induction F as [|[k e] ws H F IH]; intros d; cbn [fwrite_all].
  - destruct d; eauto.
  - destruct d as [|c d]; [eauto|]. cbn in H. subst e.
    destruct (length (firstn k (c :: d)) <? length (c :: d)) eqn:L.
    + destruct (IH (skipn k (c :: d))) as [ws' [E F']]. rewrite E. exists ws'. split; [|exact F']. rewrite firstn_skipn. reflexivity.
    + exists ws. split; [|exact F]. apply Nat.ltb_ge in L. rewrite firstn_length in L. rewrite firstn_all2 by lia. reflexivity.
Qed.
(** a round with something to write uses at least one outcome *)
Lemma fwrite_all_uses d ws out ws' n k : d <> [] -> fwrite_all d ws = (out, false, ws') ->
  nth_error ws n = Some (k, true) -> exists m, n = S m /\ exists m', m' <= m /\ nth_error ws' m' = Some (k, true).
Proof.
  revert d out ws' n. induction ws as [|[k1 e] ws IH]; intros d out ws' n NE E H.
  - destruct n; discriminate.
  - destruct d as [|c d]; [congruence|]. cbn [fwrite_all] in E. destruct e; [discriminate|].
    destruct n as [|n]; [discriminate|]. cbn [nth_error] in H. exists n. split; [reflexivity|].
    destruct (length (firstn k1 (c :: d)) <? length (c :: d)) eqn:L.
    + destruct (fwrite_all (skipn k1 (c :: d)) ws) as [[more e] ws1] eqn:F. assert (e = false) by congruence. subst e.
      assert (ws1 = ws') by congruence. subst ws1.
      assert (NE2 : skipn k1 (c :: d) <> []).
      { intros Z. apply Nat.ltb_lt in L. rewrite firstn_length in L.
        pose proof (skipn_length k1 (c :: d)) as SL. rewrite Z in SL. cbn [length] in *. lia. }
      destruct (IH _ _ _ _ NE2 F H) as [m [-> [m' [M N]]]]. exists m'. split; [lia|exact N].
    + assert (ws' = ws) by congruence. subst ws'. exists n. auto.
Qed.

Opaque COPY_BUFSIZE.
Lemma COPY_pos : 0 < COPY_BUFSIZE.
Proof. vm_compute. lia. Qed.

Lemma fread_None n f : fread n None f = (firstn n (rest f), mkStream (skipn n (rest f)) (eof f || (length (rest f) <? n)) (err f)).
Proof. reflexivity. Qed.

Definition fine (x : list byte * stream * bool * bool) : Prop :=
  let '(_, f, e, same) := x in err f = false /\ e = false /\ same = true.

Lemma div_step (r : list byte) : COPY_BUFSIZE <= length r -> length r / COPY_BUFSIZE = S (length (skipn COPY_BUFSIZE r) / COPY_BUFSIZE).
Proof.
  intros L. pose proof COPY_pos. rewrite skipn_length.
  replace (length r) with (1 * COPY_BUFSIZE + (length r - COPY_BUFSIZE)) at 1 by lia.
  rewrite Nat.div_add_l by lia. reflexivity.
Qed.

(** everything about the loop *)
Lemma copy_loop_spec fuel : forall r rs ws done, length r / COPY_BUFSIZE < fuel ->
  exists out f e same, copy_loop fuel (mkStream r false false) rs ws done = Ok (out, f, e, same) /\
    (err f = false -> e = false -> out = done ++ r) /\
    (e = false -> same = true) /\
    (Forall (eq None) rs -> Forall (fun x => snd x = false) ws -> err f = false /\ e = false) /\
    (forall n k, n <= length r / COPY_BUFSIZE -> nth_error rs n = Some (Some k) -> err f = true \/ e = true) /\
    (forall n k, n * COPY_BUFSIZE < length r -> nth_error ws n = Some (k, true) -> err f = true \/ e = true).
Proof.
  induction fuel as [|fuel IH]; intros r rs ws done L; [inversion L|]. cbn [copy_loop].
  destruct (hd None rs) as [k0|] eqn:HD.
  - cbn [fread rest eof err]. set (k := Nat.min k0 (Nat.pred COPY_BUFSIZE)).
    destruct (fwrite_all (firstn k r) ws) as [[out e] ws'] eqn:F. cbn [negb andb eof err].
    eexists _, _, _, _. split; [reflexivity|]. cbn [err]. split; [discriminate|]. split; [|split].
    + intros ->. apply fwrite_all_ok in F. subst out. apply Nat.eqb_refl.
    + intros FN. destruct rs as [|x rs]; [discriminate|]. inversion FN; subst. discriminate.
    + auto.
  - rewrite fread_None. cbn [rest eof err orb].
    destruct (fwrite_all (firstn COPY_BUFSIZE r) ws) as [[out e] ws'] eqn:F. cbn [eof err negb].
    destruct (length r <? COPY_BUFSIZE) eqn:SH; cbn [negb andb].
    + apply Nat.ltb_lt in SH. eexists _, _, _, _. split; [reflexivity|]. cbn [err].
      assert (D0 : length r / COPY_BUFSIZE = 0) by (apply Nat.div_small; exact SH).
      split; [|split; [|split; [|split]]].
      * intros _ ->. apply fwrite_all_ok in F. rewrite firstn_all2 in F by lia. subst out. reflexivity.
      * intros ->. apply fwrite_all_ok in F. subst out. apply Nat.eqb_refl.
      * intros _ FW. destruct (fwrite_all_noerr (firstn COPY_BUFSIZE r) FW) as [ws2 [E2 _]]. split; [reflexivity|congruence].
      * intros n k N H. assert (n = 0) by lia. subst n. destruct rs as [|x rs]; [discriminate|]. cbn in HD, H. congruence.
      * intros n k N H. right. destruct e; [reflexivity|].
        assert (NE : firstn COPY_BUFSIZE r <> []).
        { rewrite firstn_all2 by lia. intros ->. cbn [length] in N. lia. }
        destruct (@fwrite_all_uses _ _ _ _ _ _ NE F H) as [m [-> _]]. cbn in N. lia.
    + apply Nat.ltb_ge in SH. pose proof COPY_pos as CP. pose proof (div_step r SH) as DS.
      assert (NE : firstn COPY_BUFSIZE r <> []).
      { intros Z. pose proof (firstn_length COPY_BUFSIZE r) as FL. rewrite Z in FL. cbn [length] in FL. lia. }
      destruct e; cbn [negb andb].
      * eexists _, _, _, _. split; [reflexivity|]. split; [discriminate|]. split; [discriminate|]. split; [|auto].
        intros _ FW. destruct (fwrite_all_noerr (firstn COPY_BUFSIZE r) FW) as [ws2 [E2 _]]. congruence.
      * pose proof (fwrite_all_ok _ _ F) as EO. subst out. rewrite Nat.eqb_refl.
        destruct (IH (skipn COPY_BUFSIZE r) (tl rs) ws' (done ++ firstn COPY_BUFSIZE r) ltac:(lia)) as [out [f [e [same [E [H1 [H2 [H3 [H4 H5]]]]]]]]].
        exists out, f, e, same. split; [exact E|]. split; [|split; [exact H2|split; [|split]]].
        -- intros A B. rewrite (H1 A B), <- app_assoc, firstn_skipn. reflexivity.
        -- intros FR FW. apply H3.
           ++ destruct FR; [constructor|assumption].
           ++ destruct (fwrite_all_noerr (firstn COPY_BUFSIZE r) FW) as [ws2 [E2 F2]]. congruence.
        -- intros n k N H. destruct n as [|n].
           ++ destruct rs as [|x rs]; [discriminate|]. cbn in HD, H. congruence.
           ++ apply (H4 n k); [lia|]. destruct rs; [discriminate|exact H].
        -- intros n k N H. destruct (@fwrite_all_uses _ _ _ _ _ _ NE F H) as [m [-> [m' [M X]]]].
           apply (H5 m' k); [|exact X]. rewrite skipn_length. nia.
Qed.
Transparent COPY_BUFSIZE.

Lemma File_Copy_inv o w src dst i j : open_read o src = Some i -> open_write o dst = Some j ->
  exists b w', File_Copy o w src dst = Ok (b, w') /\ (forall x, x <> j -> w' x = w x) /\
    let r := if i =? j then [] else w i in
    (b = true -> w' j = r) /\
    (Forall (eq None) (reads o) -> Forall (fun x => snd x = false) (writes o) -> close_in o = true -> close_out o = true -> b = true) /\
    (close_in o = false \/ close_out o = false \/
     (exists n k, n <= length r / COPY_BUFSIZE /\ nth_error (reads o) n = Some (Some k)) \/
     (exists n k, n * COPY_BUFSIZE < length r /\ nth_error (writes o) n = Some (k, true)) -> b = false).
Proof.
  intros OR OW. unfold File_Copy. rewrite OR, OW. cbv zeta.
  assert (WI : write_to w j [] i = if i =? j then [] else w i) by reflexivity.
  rewrite WI. set (r := if i =? j then [] else w i).
  destruct (@copy_loop_spec (length r / COPY_BUFSIZE + 1) r (reads o) (writes o) [] ltac:(lia))
    as [out [f [e [same [E [H1 [H2 [H3 [H4 H5]]]]]]]]].
  rewrite E. cbn [bind]. eexists _, _. split; [reflexivity|]. split; [|split; [|split]].
  - intros x NX. unfold write_to. apply Nat.eqb_neq in NX. rewrite NX. reflexivity.
  - intros B. destruct (close_out o); [|discriminate]. destruct (close_in o); [|discriminate].
    destruct (err f) eqn:EF; [discriminate|]. destruct e; [discriminate|]. cbn [orb negb].
    unfold write_to. rewrite Nat.eqb_refl. rewrite (H1 eq_refl eq_refl). reflexivity.
  - intros A B C D. rewrite C, D. destruct (H3 A B) as [-> Ee]. rewrite Ee. rewrite (H2 Ee). reflexivity.
  - intros [C|[C|[[n [k [N X]]]|[n [k [N X]]]]]].
    + rewrite C. destruct (close_out o); reflexivity.
    + rewrite C. reflexivity.
    + destruct (H4 n k N X) as [Z|Z]; rewrite Z; destruct (err f), (close_in o), (close_out o); reflexivity.
    + destruct (H5 n k N X) as [Z|Z]; rewrite Z; destruct (err f), (close_in o), (close_out o); reflexivity.
Qed.

(** the outcome is defined whatever fails, and no file but the destination changes; nothing changes if an open fails *)
Theorem C113_copy_frame o w src dst : exists b w', File_Copy o w src dst = Ok (b, w') /\
  (forall x, open_write o dst <> Some x -> w' x = w x) /\
  (open_read o src = None \/ open_write o dst = None -> b = false /\ w' = w).
Proof.
  destruct (open_read o src) as [i|] eqn:OR.
  - destruct (open_write o dst) as [j|] eqn:OW.
    + destruct (@File_Copy_inv o w src dst i j OR OW) as [b [w' [E [H _]]]]. exists b, w'. split; [exact E|]. split.
      * intros x N. apply H. congruence.
      * intros [C|C]; discriminate.
    + exists false, w. unfold File_Copy. rewrite OR, OW. auto.
  - exists false, w. unfold File_Copy. rewrite OR. auto.
Qed.

(** true means the destination is a copy of the source, as it was before the call *)
Theorem C113_copy_true o w src dst w' : File_Copy o w src dst = Ok (true, w') ->
  exists i j, open_read o src = Some i /\ open_write o dst = Some j /\ (i <> j -> w' j = w i /\ w' i = w i).
Proof.
  intros E. destruct (open_read o src) as [i|] eqn:OR; [|unfold File_Copy in E; rewrite OR in E; discriminate].
  destruct (open_write o dst) as [j|] eqn:OW; [|unfold File_Copy in E; rewrite OR, OW in E; discriminate].
  destruct (@File_Copy_inv o w src dst i j OR OW) as [b [w1 [E1 [H [T _]]]]].
  exists i, j. split; [reflexivity|]. split; [reflexivity|]. intros N. assert (b = true /\ w1 = w') as [-> ->] by (split; congruence).
  split; [|apply H; exact N]. rewrite (T eq_refl). apply Nat.eqb_neq in N. rewrite N. reflexivity.
Qed.

(** it succeeds if nothing fails, however little each fwrite takes *)
Theorem C113_copy_succeeds o w src dst i j : open_read o src = Some i -> open_write o dst = Some j ->
  Forall (eq None) (reads o) -> Forall (fun x => snd x = false) (writes o) -> close_in o = true -> close_out o = true ->
  exists w', File_Copy o w src dst = Ok (true, w').
Proof.
  intros OR OW A B C D. destruct (@File_Copy_inv o w src dst i j OR OW) as [b [w1 [E1 [_ [_ [T _]]]]]].
  exists w1. rewrite E1, (T A B C D). reflexivity.
Qed.

(** a read error met before the end of the source was seen (the reads are of 1024 bytes), an error of one of the writes
    that cannot be avoided, or of closing either file, is reported *)
Theorem C113_copy_reports o w src dst i j : open_read o src = Some i -> open_write o dst = Some j -> i <> j ->
  close_in o = false \/ close_out o = false \/
  (exists n k, n <= length (w i) / N.to_nat 1024 /\ nth_error (reads o) n = Some (Some k)) \/
  (exists n k, n * N.to_nat 1024 < length (w i) /\ nth_error (writes o) n = Some (k, true)) ->
  exists w', File_Copy o w src dst = Ok (false, w').
Proof.
  intros OR OW N H. destruct (@File_Copy_inv o w src dst i j OR OW) as [b [w1 [E1 [_ [_ [_ T]]]]]].
  exists w1. rewrite E1. apply Nat.eqb_neq in N. rewrite N in T. rewrite (T H). reflexivity.
Qed.

(** a file copied to itself (by another name, or the same) is emptied, and that counts as a success *)
Theorem C113_copy_to_itself_refuted o w src dst i : open_read o src = Some i -> open_write o dst = Some i ->
  Forall (eq None) (reads o) -> Forall (fun x => snd x = false) (writes o) -> close_in o = true -> close_out o = true ->
  exists w', File_Copy o w src dst = Ok (true, w') /\ w' i = [].
Proof.
  intros OR OW A B C D. destruct (@File_Copy_inv o w src dst i i OR OW) as [b [w1 [E1 [_ [T [S _]]]]]].
  exists w1. rewrite (S A B C D) in *. split; [exact E1|]. rewrite (T eq_refl), Nat.eqb_refl. reflexivity.
Qed.

(** File_CopyToDir copies to the base name in the directory, whose name must end with a separator; nothing happens if the
    source has no base name or the path of the destination does not fit PATH_MAX *)
Theorem C113_copy_to_dir o w dir leaf dst_dir : ~ In "/"%char leaf -> is_cstr leaf ->
  forall src, src = leaf \/ src = dir ++ "/"%char :: leaf ->
  ((forall d, dst_dir <> d ++ ["/"%char]) -> File_CopyToDir o w src dst_dir = Abort) /\
  (forall d, dst_dir = d ++ ["/"%char] ->
    (leaf = [] \/ N.to_nat 4096 <= length (dst_dir ++ leaf) -> File_CopyToDir o w src dst_dir = Ok (false, w)) /\
    (leaf <> [] -> length (dst_dir ++ leaf) < N.to_nat 4096 -> File_CopyToDir o w src dst_dir = File_Copy o w src (dst_dir ++ leaf))).
Proof.
  intros NI C src SRC. unfold File_CopyToDir. destruct (C58_StringEndsWith dst_dir (lit "/")) as [b [E H]]. rewrite E. cbn [bind].
  split.
  - intros N. destruct b; [|reflexivity]. exfalso. destruct (proj1 H eq_refl) as [p P]. apply (N p). exact P.
  - intros d Ed. replace b with true by (symmetry; apply H; exists d; exact Ed). cbn [massert].
    destruct (C37_basename dir NI C) as [B1 B2].
    assert (X : Path_Basename src = Ok (match leaf with [] => None | _ => Some (length src - length leaf) end) /\ skipn (length src - length leaf) src = leaf).
    { destruct SRC as [->| ->].
      - rewrite B1, Nat.sub_diag. split; [destruct leaf; reflexivity|reflexivity].
      - rewrite B2. rewrite app_length. cbn [length]. replace (length dir + S (length leaf) - length leaf) with (length dir + 1) by lia.
        split; [destruct leaf; reflexivity|].
        replace (dir ++ "/"%char :: leaf) with ((dir ++ ["/"%char]) ++ leaf) by (rewrite <- app_assoc; reflexivity).
        rewrite skipn_app_ge by (rewrite app_length; cbn; lia). rewrite app_length. cbn [length]. rewrite Nat.sub_diag. reflexivity. }
    destruct X as [X1 X2]. rewrite X1. cbn [bind]. split.
    + intros [->|L]; [reflexivity|]. destruct leaf; [reflexivity|]. rewrite X2. fold PATH_MAX in L. apply Nat.leb_le in L. rewrite L. reflexivity.
    + intros NE L. destruct leaf as [|c leaf]; [congruence|]. rewrite X2. fold PATH_MAX in L. apply Nat.leb_gt in L. rewrite L.
      destruct (C113_copy_frame o w src (dst_dir ++ c :: leaf)) as [b1 [w1 [E1 _]]]. rewrite E1. cbn [bind]. destruct b1; reflexivity.
Qed.

Example C113_nonvacuous :
  let w : contents := fun i => if i =? 7 then lit "hello" else if i =? 8 then lit "old contents" else [] in
  let src := lit "/a/file" in let dst := lit "/b/file" in
  let rd p := if bytes_eqb p src then Some 7 else None in
  let wr p := if bytes_eqb p dst then Some 8 else None in
  (exists w', File_CopyToDir (mkOutside rd wr [] [(2, false); (0, false)] true true []) w src (lit "/b/") = Ok (true, w') /\ w' 8 = lit "hello") /\
  (exists w', File_Copy (mkOutside rd wr [Some 3] [] true true []) w src dst = Ok (false, w') /\ w' 8 = lit "hel") /\
  (exists w', File_Copy (mkOutside rd wr [] [(2, false); (1, true)] true true (lit "xx")) w src dst = Ok (false, w') /\ w' 8 = lit "xx").
Proof. vm_compute. repeat split; eexists; split; reflexivity. Qed.
Print Assumptions C113_copy_frame.
Print Assumptions C113_copy_true.
Print Assumptions C113_copy_succeeds.
Print Assumptions C113_copy_reports.
Print Assumptions C113_copy_to_itself_refuted.
Print Assumptions C113_copy_to_dir.

(** ** ReadFileStreamToBuffer *)
Definition prefixed (buf : cells byte) (d : list byte) : cells byte := map Some d ++ skipn (length d) buf.

Lemma acopy_at buf pre d : length pre + length d <= length buf ->
  acopy (prefixed buf pre) (length pre) (map Some d) 0 (length d) = Ok (prefixed buf (pre ++ d)).
Proof.
  intros L. unfold acopy, prefixed. rewrite app_length, skipn_length, !map_length.
  replace (length pre + length d <=? length pre + (length buf - length pre)) with true by (symmetry; apply Nat.leb_le; lia).
  replace (0 + length d <=? length d) with true by (symmetry; apply Nat.leb_le; lia). cbn [andb skipn].
  rewrite firstn_app_le by (rewrite map_length; lia). rewrite firstn_all2 by (rewrite map_length; lia).
  rewrite (firstn_all2 (map Some d)) by (rewrite map_length; lia).
  rewrite skipn_app_ge by (rewrite map_length; lia). rewrite map_length, skipn_skipn, map_app, <- app_assoc, app_length.
  replace (length pre + (length pre + length d - length pre)) with (length pre + length d) by lia. 
  replace ((length pre + length d - length pre) + length pre) with (length pre + length d) by lia. reflexivity.
Qed.

(** what was read is at the start of the buffer and nothing else of it changed; the result is -1, or the whole stream or as
    much as asked for was read.  It is -1 if the first read fails, and never if none fails. *)
Theorem C113_read_stream r es max_bytes buf : max_bytes <= length buf ->
  exists z n f, ReadFileStreamToBuffer (mkStream r false false) es max_bytes buf = Ok (z, map Some (firstn n r) ++ skipn n buf, f) /\
    n <= max_bytes /\ n <= length r /\ rest f = skipn n r /\
    (z = (-1)%Z \/ z = Z.of_nat n /\ n = Nat.min max_bytes (length r)) /\
    (Forall (eq None) es -> z <> (-1)%Z) /\
    (0 < max_bytes -> hd None es <> None -> z = (-1)%Z) /\
    (length r < max_bytes -> r <> [] -> nth 1 es None <> None -> z = (-1)%Z).
Proof.
  intros LB. unfold ReadFileStreamToBuffer. rewrite Nat.add_1_r. cbn [stream_loop].
  assert (P0 : buf = prefixed buf []) by reflexivity.
  destruct (Nat.ltb_spec 0 max_bytes) as [MP|MP].
  2:{ exists 0%Z, 0, (mkStream r false false). cbn [err rest firstn skipn map app]. repeat split; try lia; try (right; split; [reflexivity|lia]). }
  rewrite Nat.sub_0_r. destruct (hd None es) as [k|] eqn:HD.
  - cbn [fread rest eof err]. set (m := Nat.min k (Nat.pred max_bytes)).
    assert (LM : length (firstn m r) <= m) by (rewrite firstn_length; lia).
    pose proof (@acopy_at buf [] (firstn m r)) as AC. cbn [length app] in AC. change (prefixed buf []) with buf in AC. rewrite AC by lia. cbn [bind negb andb].
    exists (-1)%Z, (length (firstn m r)), (mkStream (skipn m r) false true). cbn [rest].
    assert (F2 : firstn (length (firstn m r)) r = firstn m r).
    { rewrite firstn_length. destruct (Nat.le_gt_cases m (length r)); [rewrite Nat.min_l by lia; reflexivity|].
      rewrite Nat.min_r by lia. rewrite !firstn_all2 by lia. reflexivity. }
    rewrite F2. split; [reflexivity|]. split; [lia|]. split; [rewrite firstn_length; lia|]. split.
    { rewrite firstn_length. destruct (Nat.le_gt_cases m (length r)); [rewrite Nat.min_l by lia; reflexivity|].
      rewrite Nat.min_r by lia. rewrite !skipn_all2 by lia. reflexivity. }
    split; [auto|]. split; [|auto]. intros F. destruct es; [discriminate|]. inversion F; subst. discriminate.
  - rewrite fread_None. cbn [rest eof err orb].
    pose proof (firstn_length max_bytes r) as FL.
    pose proof (@acopy_at buf [] (firstn max_bytes r)) as AC. cbn [length app] in AC. change (prefixed buf []) with buf in AC. rewrite AC by lia. cbn [bind negb andb].
    destruct (Nat.eqb_spec (length (firstn max_bytes r)) 0) as [Z|NZ].
    + assert (r = []) by (destruct r; [reflexivity|cbn [length] in FL; lia]). subst r.
      exists 0%Z, 0, (mkStream (skipn max_bytes []) (length (@nil byte) <? max_bytes) false). rewrite firstn_nil, skipn_nil. cbn [rest].
      split; [reflexivity|]. split; [lia|]. split; [cbn; lia|]. split; [reflexivity|]. split; [right; cbn; split; lia|].
      split; [discriminate|]. split; [congruence|]. intros _ NR. congruence.
    + destruct max_bytes as [|mb]; [lia|]. cbn [stream_loop]. clear AC. remember (S mb) as M eqn:EM.
      cbn [Nat.add]. destruct (Nat.ltb_spec (length (firstn M r)) M) as [LT|GE].
      * assert (RM : length r < M) by lia. rewrite (firstn_all2 r) by lia. rewrite (skipn_all2 r) by lia.
        replace (length r <? M) with true by (symmetry; apply Nat.ltb_lt; lia).
        pose proof (@acopy_at buf r []) as AC. cbn [map length] in AC. rewrite app_nil_r, Nat.add_0_r in AC.
        destruct (hd None (tl es)) as [k|] eqn:HD2; cbn [fread rest eof err orb].
        -- rewrite firstn_nil, skipn_nil. cbn [map length]. rewrite AC by lia. cbn [bind negb andb Nat.eqb].
           exists (-1)%Z, (length r), (mkStream [] true true). rewrite firstn_all, skipn_all. cbn [rest].
           split; [reflexivity|]. split; [lia|]. split; [lia|]. split; [reflexivity|]. split; [auto|]. split; [|auto].
           intros F. destruct es as [|x [|y es]]; try discriminate. inversion F as [|? ? ? F2]; inversion F2; subst. discriminate.
        -- rewrite firstn_nil, skipn_nil. cbn [map length]. rewrite AC by lia. cbn [bind negb andb Nat.eqb].
           exists (Z.of_nat (length r)), (length r), (mkStream [] true false). rewrite firstn_all, skipn_all. cbn [rest].
           split; [reflexivity|]. split; [lia|]. split; [lia|]. split; [reflexivity|]. split; [right; split; [reflexivity|lia]|].
           split; [intros _; lia|]. split; [congruence|]. intros _ _ N1. exfalso. apply N1. destruct es as [|x [|y es]]; [reflexivity|reflexivity|]. exact HD2.
      * assert (RM : M <= length r) by lia.
        exists (Z.of_nat M), M, (mkStream (skipn M r) (length r <? M) false). cbn [rest err].
        assert (LF : length (firstn M r) = M) by lia. unfold prefixed. rewrite LF.
        split; [reflexivity|]. split; [lia|]. split; [lia|]. split; [reflexivity|]. split; [right; split; [reflexivity|lia]|].
        split; [intros _; lia|]. split; [congruence|]. intros; lia.
Qed.
Example C113_read_nonvacuous :
  ReadFileStreamToBuffer (mkStream (lit "abcdef") false false) [] 4 (map Some (lit "123456"))
    = Ok (4%Z, map Some (lit "abcd56"), mkStream (lit "ef") false false) /\
  ReadFileStreamToBuffer (mkStream (lit "ab") false false) [] 4 (map Some (lit "123456"))
    = Ok (2%Z, map Some (lit "ab3456"), mkStream [] true false) /\
  ReadFileStreamToBuffer (mkStream (lit "abcdef") false false) [Some 1] 4 (map Some (lit "123456"))
    = Ok ((-1)%Z, map Some (lit "a23456"), mkStream (lit "bcdef") false true).
Proof. vm_compute. auto. Qed.
Print Assumptions C113_read_stream.

(** ** ListDir *)
(** the names that end with the extension (whatever the case of letters), in their order *)
Definition ends_with (n : list byte) (e : option (list byte)) : Prop :=
  match e with None => True | Some e => exists p t, n = p ++ t /\ map tolower t = map tolower e end.
Inductive selects (e : option (list byte)) : list (list byte) -> list (list byte) -> Prop :=
| sel_nil : selects e [] []
| sel_take n ns l : ends_with n e -> selects e ns l -> selects e (n :: ns) (n :: l)
| sel_skip n ns l : ~ ends_with n e -> selects e ns l -> selects e (n :: ns) l.

Theorem C114_listdir dir ext : is_cstr dir -> forall pre,
  (exists d, dir = d ++ ["/"%char]) /\ pre = dir \/ (forall d, dir <> d ++ ["/"%char]) /\ pre = dir ++ ["/"%char] ->
  forall names, Forall is_cstr names ->
  exists l, ListDir (Some names) dir ext = Ok (Some (map (fun n => block (pre ++ n)) l)) /\ selects ext names l.
Proof.
  intros CD pre PRE names CN. unfold ListDir.
  assert (X : forall acc, exists l, list_loop dir ext names acc = Ok (acc ++ map (fun n => block (pre ++ n)) l) /\ selects ext names l).
  { induction CN as [|n ns C CN IH]; intros acc; cbn [list_loop].
    - exists []. rewrite app_nil_r. split; [reflexivity|constructor].
    - assert (T : exists b, (match ext with None => Ok true | Some e => StringEndsWithCase n e true end) = Ok b /\ (b = true <-> ends_with n ext)).
      { destruct ext as [e|]; [apply C58_StringEndsWithCase|exists true; split; [reflexivity|]; cbn; intuition]. }
      destruct T as [b [E H]]. rewrite E. cbn [bind]. destruct b.
      + assert (J : Path_JoinAlloc dir n = Ok (Some (block (pre ++ n)))).
        { destruct (C37_join CD C) as [J1 J2]. destruct PRE as [[[d Ed] ->]|[ND ->]].
          - rewrite (J1 d Ed), Ed, <- app_assoc. reflexivity.
          - rewrite (J2 ND), <- app_assoc. reflexivity. }
        rewrite J. cbn [bind]. destruct (IH (acc ++ [block (pre ++ n)])) as [l [E1 S1]]. exists (n :: l). split.
        * rewrite E1, <- app_assoc. reflexivity.
        * constructor; [apply H; reflexivity|exact S1].
      + destruct (IH acc) as [l [E1 S1]]. exists l. split; [exact E1|]. constructor; [|exact S1].
        intros Z. apply H in Z. discriminate. }
  destruct (X []) as [l [E S]]. rewrite E. exists l. auto.
Qed.
(** no list if the directory cannot be opened *)
Theorem C114_listdir_fails dir ext : ListDir None dir ext = Ok None.
Proof. reflexivity. Qed.
(** without an extension the list has the directory itself and its parent *)
Theorem C114_listdir_children_refuted :
  ListDir (Some [lit "."; lit ".."; lit "f"]) (lit "/d") None = Ok (Some [block (lit "/d/."); block (lit "/d/.."); block (lit "/d/f")]).
Proof. vm_compute. reflexivity. Qed.
Example C114_listdir_nonvacuous :
  ListDir (Some [lit "."; lit ".."; lit "a.JSON"; lit "b.cf"; lit "c.json"]) (lit "/d/") (Some (lit ".json"))
    = Ok (Some [block (lit "/d/a.JSON"); block (lit "/d/c.json")]).
Proof. vm_compute. reflexivity. Qed.
Print Assumptions C114_listdir.

(** ** GlobFileList *)
(** [stars k]: k components that are an asterisk *)
Definition stars (k : nat) : list byte := join (lit "/") (repeat (lit "*") k).

Section GlobP.
  Variable glob : list byte -> option (list (list byte)).
  Variable shash : list byte -> N.
  Notation EQ := (bytes_equal_ok shash).

  Lemma add_all_rep l : forall s P, srep bytes_eqb shash s P -> exists s',
    add_all shash s l = Ok s' /\ srep bytes_eqb shash s' (fun k => P k || existsb (fun e => bytes_eqb e k) l).
  Proof.
    induction l as [|e t IH]; intros s P R; cbn [add_all existsb].
    - eexists; split; eauto. eapply srep_ext; [eauto|]. intros; rewrite orb_false_r; auto.
    - destruct (srep_add EQ e R) as (s1 & a & E1 & R1). rewrite E1. cbn [bind].
      destruct (IH s1 _ R1) as (s2 & E2 & R2). eexists; split; eauto.
      eapply srep_ext; [exact R2|]. intros k. simpl. rewrite !orb_assoc. f_equal. apply orb_comm.
  Qed.
  Definition found (p : list byte) (k : list byte) : bool :=
    match glob p with Some l => existsb (fun e => bytes_eqb e k) l | None => false end.
  Lemma round_rep p : forall s P, srep bytes_eqb shash s P -> exists s',
    glob_round glob shash s p = Ok s' /\ srep bytes_eqb shash s' (fun k => P k || found p k).
  Proof.
    intros s P R. unfold glob_round, found. destruct (glob p) as [l|].
    - apply add_all_rep. exact R.
    - eexists; split; [reflexivity|]. eapply srep_ext; [exact R|]. intros; rewrite orb_false_r; auto.
  Qed.
  Lemma loop_rep pattern cs : forall s P, srep bytes_eqb shash s P -> exists s' rs,
    glob_loop glob shash s pattern cs = Ok s' /\ Forall2 (fun c r => replaced (lit "**") c pattern r) cs rs /\
    srep bytes_eqb shash s' (fun k => P k || existsb (fun r => found r k) rs).
  Proof.
    induction cs as [|c cs IH]; intros s P R; cbn [glob_loop].
    - exists s, []. split; [reflexivity|]. split; [constructor|]. eapply srep_ext; [exact R|]. intros; cbn; rewrite orb_false_r; auto.
    - destruct (@C30_SearchAndReplace pattern (lit "**") c ltac:(discriminate)) as [r [E [RP _]]]. rewrite E. cbn [bind].
      destruct (round_rep r R) as [s1 [E1 R1]]. rewrite E1. cbn [bind].
      destruct (IH s1 _ R1) as [s2 [rs [E2 [F2 R2]]]]. exists s2, (r :: rs). split; [exact E2|]. split; [constructor; assumption|].
      eapply srep_ext; [exact R2|]. intros k. cbn [existsb]. rewrite orb_assoc. reflexivity.
  Qed.
  Lemma found_spec p k : found p k = true <-> exists l, glob p = Some l /\ In k l.
  Proof.
    unfold found. destruct (glob p) as [l|].
    - rewrite existsb_exists. split.
      + intros [x [I E]]. apply bytes_eqb_eq in E. subst. eauto.
      + intros [l' [E I]]. exists k. replace l with l' by congruence. split; [exact I|apply bytes_eqb_refl].
    - split; [discriminate|]. intros [l [E _]]. discriminate.
  Qed.

  (** the set has what glob finds for the pattern; if two asterisks occur in it, what it finds for the pattern with each
      such pair replaced by one to six components, as many for all the pairs *)
  Theorem C114_glob pattern : exists st, GlobFileList glob shash pattern = Ok st /\
    forall p, SetContains bytes_eqb shash st p = Ok true <->
      absent (lit "**") pattern /\ (exists l, glob pattern = Some l /\ In p l) \/
      ~ absent (lit "**") pattern /\ exists k r l, 1 <= k <= 6 /\ replaced (lit "**") (stars k) pattern r /\ glob r = Some l /\ In p l.
  Proof.
    unfold GlobFileList. destruct (strstr pattern (lit "**")) as [i|] eqn:ST.
    - assert (NA : ~ absent (lit "**") pattern) by (intros A; apply strstr_absent in A; congruence).
      destruct (@loop_rep pattern r_candidates _ _ (srep_new bytes_eqb shash)) as [s [rs [E [F R]]]].
      exists s. split; [exact E|]. intros p. rewrite (srep_contains EQ p R). cbn [orb].
      assert (X : existsb (fun r => found r p) rs = true <->
        exists k r l, 1 <= k <= 6 /\ replaced (lit "**") (stars k) pattern r /\ glob r = Some l /\ In p l).
      { change r_candidates with (map stars (seq 1 6)) in F. rewrite existsb_exists. split.
        - intros [r [I FO]]. apply found_spec in FO as [l [G IL]].
          assert (Y : exists c, In c (map stars (seq 1 6)) /\ replaced (lit "**") c pattern r).
          { clear -F I. induction F as [|c r' cs rs H F IH]; [destruct I|]. destruct I as [->|I]; [exists c; split; [left; reflexivity|exact H]|].
            destruct (IH I) as [c' [I' H']]. exists c'. split; [right; exact I'|exact H']. }
          destruct Y as [c [IC RP]]. apply in_map_iff in IC as [k [<- IK]]. apply in_seq in IK. exists k, r, l. repeat split; auto; lia.
        - intros [k [r [l [K [RP [G IL]]]]]]. exists r. split; [|apply found_spec; eauto].
          assert (IK : In (stars k) (map stars (seq 1 6))) by (apply in_map, in_seq; lia).
          clear -F IK RP. induction F as [|c r' cs rs H F IH]; [destruct IK|]. destruct IK as [->|IK]; [left|right; apply IH; exact IK].
          eapply replaced_unique; eauto. }
      split.
      + intros E1. right. split; [exact NA|]. apply X. congruence.
      + intros [[A _]|[_ H]]; [destruct (NA A)|]. f_equal. apply X. exact H.
    - assert (A : absent (lit "**") pattern) by (apply strstr_None; exact ST).
      destruct (@round_rep pattern _ _ (srep_new bytes_eqb shash)) as [s [E R]]. exists s. split; [exact E|].
      intros p. rewrite (srep_contains EQ p R). cbn [orb]. split.
      + intros E1. left. split; [exact A|]. apply found_spec. congruence.
      + intros [[_ H]|[N _]]; [|destruct (N A)]. f_equal. apply found_spec. exact H.
  Qed.
End GlobP.
(** hence two asterisks are not "any number of directories": no directory at all is not matched, nor are more than five, and
    two of them in a pattern must match equally many *)
Definition only (g : list byte) (p : list byte) (pat : list byte) : option (list (list byte)) := if bytes_eqb pat g then Some [p] else None.
Theorem C114_glob_any_depth_refuted h :
  (exists st, GlobFileList (only (lit "a/b") (lit "a/b")) h (lit "a/**/b") = Ok st /\ SetContains bytes_eqb h st (lit "a/b") = Ok false) /\
  (exists st, GlobFileList (only (lit "*/*/*/*/*/*/*") (lit "1/2/3/4/5/6/7")) h (lit "**") = Ok st /\
     SetContains bytes_eqb h st (lit "1/2/3/4/5/6/7") = Ok false) /\
  (exists st, GlobFileList (only (lit "a/*/b/*/*") (lit "a/x/b/y/z")) h (lit "a/**/b/**") = Ok st /\
     SetContains bytes_eqb h st (lit "a/x/b/y/z") = Ok false).
Proof. repeat split; eexists; split; vm_compute; reflexivity. Qed.
Example C114_glob_nonvacuous :
  exists st, GlobFileList (only (lit "a/*/*/b") (lit "a/x/y/b")) (fun _ => 0%N) (lit "a/**/b") = Ok st /\
     SetContains bytes_eqb (fun _ => 0%N) st (lit "a/x/y/b") = Ok true.
Proof. eexists; split; vm_compute; reflexivity. Qed.
Print Assumptions C114_glob.
Print Assumptions C114_glob_any_depth_refuted.

(** ** umask and FD_CLOEXEC *)
(** SetUmask returns the former mask, and RestoreUmask of it brings that back, whatever was between; nothing else changes *)
Theorem C115_umask p m q : (mask p < 512)%N -> (m < 512)%N ->
  let '(old, p1) := SetUmask p m in
  old = mask p /\ mask p1 = m /\ fdflags p1 = fdflags p /\
  mask (RestoreUmask q old) = mask p /\ fdflags (RestoreUmask q old) = fdflags q.
Proof.
  intros H M. cbn. assert (X : forall x, (x < 512)%N -> N.land x 511 = x).
  { intros x L. change 511%N with (N.ones 9). rewrite N.land_ones. apply N.mod_small. exact L. }
  rewrite !X by assumption. auto.
Qed.

(** SetCloseOnExec succeeds exactly for an open descriptor; then its flag is the one asked for and no other descriptor changes *)
Theorem C115_close_on_exec p fd enable :
  let '(ok, p') := SetCloseOnExec p fd enable in
  (ok = true <-> fdflags p fd <> None) /\ (ok = false -> p' = p) /\
  (ok = true -> fdflags p' fd = Some (if enable then 1%N else 0%N)) /\
  (forall x, x <> fd -> fdflags p' x = fdflags p x) /\ mask p' = mask p.
Proof.
  unfold SetCloseOnExec, getfd, setfd. destruct (fdflags p fd) as [b|] eqn:E.
  - cbn [fdflags mask]. split; [intuition discriminate|]. split; [discriminate|]. split; [|split; [|reflexivity]].
    + intros _. rewrite Z.eqb_refl. f_equal. destruct enable.
      * rewrite N.land_lor_distr_l. apply N.bits_inj. intros k. rewrite N.lor_spec, !N.land_spec.
        change FD_CLOEXEC with 1%N. destruct (N.testbit 1 k), (N.testbit b k); reflexivity.
      * rewrite <- N.land_assoc. replace (N.land (4294967295 - FD_CLOEXEC) FD_CLOEXEC) with 0%N by reflexivity. apply N.land_0_r.
    + intros x N. apply Z.eqb_neq in N. rewrite N. reflexivity.
  - cbn [fdflags mask]. rewrite E. intuition congruence.
Qed.
Example C115_nonvacuous :
  let p := mkProcess 18 (fun fd => if (fd <? 3)%Z then Some 0%N else None) in
  SetUmask p 63 = (18%N, mkProcess 63 (fdflags p)) /\
  fst (SetCloseOnExec p 1 true) = true /\ fdflags (snd (SetCloseOnExec p 1 true)) 1%Z = Some 1%N /\
  fdflags (snd (SetCloseOnExec (snd (SetCloseOnExec p 1 true)) 1 false)) 1%Z = Some 0%N /\ fst (SetCloseOnExec p 3 true) = false.
Proof. vm_compute. auto. Qed.
Print Assumptions C115_umask.
Print Assumptions C115_close_on_exec.
