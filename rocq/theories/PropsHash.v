(** C83-C85: hash.h. *)
From Verif Require Import Prelude PreludeFacts Str StrFacts Libc LibcFacts MemSpec CmpModel EditModel EditSpec EditProofs EditProofs4
  BufModel IoModel CompatModel HashModel HashSpec HashProofs HashProofs2.
Set Implicit Arguments.

(** an OpenSSL for the examples: it provides md5 and sha1 only *)
Definition toy (n : nat) (data : list byte) : list byte := firstn n (data ++ repeat "k"%char n).
Definition toy_db (name : list byte) : option (list byte -> list byte) :=
  if bytes_eqb name (lit "md5") then Some (toy 16) else if bytes_eqb name (lit "sha1") then Some (toy 20) else None.
Example toy_openssl : openssl toy_db.
Proof.
  assert (T : forall n data, length (toy n data) = n) by (intros; unfold toy; rewrite firstn_length, app_length, repeat_length; lia).
  split; [|split; reflexivity]. intros m name size f A G data.
  destruct m; inversion A; subst; cbn in G; inversion G; apply T.
Qed.
Example toy_provides : provides toy_db HASH_METHOD_SHA1 (toy 20).
Proof. exists (lit "sha1"), 20. split; reflexivity. Qed.

Section C83.
  Variable db : list byte -> option (list byte -> list byte).
  Hypothesis OPENSSL : openssl db.

  (** HashNew: the hash of the bytes given, whatever lies behind them *)
  Theorem C83_HashNew data rest m f : data <> [] -> provides db m f ->
    exists h, HashNew db (Some (map Some data ++ rest)) (length data) m = Ok (Some h) /\ is_hash h m (f data).
  Proof.
    intros NE P. destruct (@HashNew_spec db OPENSSL data rest m f NE P) as (h & E & R). exists h. split; [exact E|]. apply rep_is_hash. exact R.
  Qed.
  (** and NULL for no data or a method OpenSSL does not provide *)
  Theorem C83_HashNew_null data len m : data = None \/ len = 0 \/ (forall f, ~ provides db m f) -> HashNew db data len m = Ok None.
  Proof.
    intros [->|[->|P]]; [reflexivity|destruct data; reflexivity|]. apply HashNew_null; assumption.
  Qed.

  (** HashNewFromDescriptor: if no read(2) fails, the hash of all that is left in the file,
      however the reads are chopped up; it returns once the end of file is reported *)
  Theorem C83_HashNewFromDescriptor src rs m f : served rs -> provides db m f ->
    HashNewFromDescriptor db (Some (mkIn src rs)) m = Fuel \/
    exists h, HashNewFromDescriptor db (Some (mkIn src rs)) m = Ok (Some h) /\ is_hash h m (f src).
  Proof.
    intros SV P. unfold HashNewFromDescriptor. destruct (provides_type P) as (name & _ & _ & ID & IX & _).
    rewrite IX, ID. cbn [bind ranswers left_]. destruct (descriptor_spec src [] SV) as [E|E]; rewrite E; [left; reflexivity|right].
    cbn [bind app]. destruct (@finish_spec db OPENSSL f src m P) as (h & F & R). exists h. split; [exact F|]. apply rep_is_hash. exact R.
  Qed.
  Theorem C83_HashNewFromDescriptor_returns src rs m f : served rs -> length src < length rs -> provides db m f ->
    exists h, HashNewFromDescriptor db (Some (mkIn src rs)) m = Ok (Some h) /\ is_hash h m (f src).
  Proof.
    intros SV L P. destruct (@C83_HashNewFromDescriptor src rs m f SV P) as [E|H]; [|exact H]. exfalso.
    unfold HashNewFromDescriptor in E. destruct (provides_type P) as (name & _ & _ & ID & IX & _).
    rewrite IX, ID in E. cbn [bind ranswers left_] in E. destruct (@descriptor_done src [] rs SV L) as [d D]. rewrite D in E. cbn [bind] in E.
    destruct (@finish_spec db OPENSSL f d m P) as (h & F & _). rewrite F in E. discriminate E.
  Qed.
  (** but a failed or interrupted read is taken as a count of bytes: undefined behaviour *)
  Theorem C83_HashNewFromDescriptor_failed_read_refuted src rs a rs' m f : provides db m f -> served rs -> length rs <= length src ->
    (forall n, In (Done n) rs -> n = 0) -> a = Eintr \/ a = Fail ->
    HashNewFromDescriptor db (Some (mkIn src (rs ++ a :: rs'))) m = UB.
  Proof.
    intros P SV L ONE AA. unfold HashNewFromDescriptor. destruct (provides_type P) as (name & _ & _ & ID & IX & _).
    rewrite IX, ID. cbn [bind ranswers left_].
    assert (X : forall rs src c, served rs -> length rs <= length src -> (forall n, In (Done n) rs -> n = 0) -> descriptor_loop (rs ++ a :: rs') src c = UB).
    { clear -AA. induction rs as [|b rs IH]; intros src c SV L ONE; [destruct AA as [-> | ->]; reflexivity|].
      inversion SV as [|? ? [n ->] SV']; subst. cbn [app descriptor_loop].
      assert (n = 0) by (apply ONE; left; reflexivity). subst n. destruct src as [|x src]; [cbn in L; lia|].
      change (firstn (Nat.min 1 1024) (x :: src)) with [x].
      rewrite fresh_read by (cbn; lia). cbn [bind]. rewrite update_spec. cbn [bind]. change (0 <? length [x]) with true. cbv iota.
      change (skipn (length [x]) (x :: src)) with src. apply IH; [exact SV'|cbn [length] in L; lia|intros k I; apply ONE; right; exact I]. }
    rewrite X by assumption. reflexivity.
  Qed.

  (** HashNewFromKey: modulus, then exponent *)
  Theorem C83_HashNewFromKey n e m f : n <> [] \/ e <> [] -> provides db m f ->
    exists h, HashNewFromKey db (Some (mkRSA (Some n) (Some e))) m = Ok (Some h) /\ is_hash h m (f (n ++ e)).
  Proof.
    intros NE P. unfold HashNewFromKey. destruct (provides_type P) as (name & T & G & _ & IX & _). rewrite IX. cbn [rsa_n rsa_e BN_num_bytes].
    destruct (Nat.eqb_spec (Nat.max (length n) (length e)) 0) as [Z|_].
    { destruct NE as [NE|NE]; [destruct n|destruct e]; try congruence; cbn [length] in Z; lia. }
    rewrite T. cbn [bind]. rewrite G, key_spec by exact NE. cbn [bind].
    destruct (@finish_spec db OPENSSL f (n ++ e) m P) as (h & F & R). exists h. split; [exact F|]. apply rep_is_hash. exact R.
  Qed.

  (** the hash objects a program can have: made by a constructor, or copies *)
  Inductive obtained : Hash -> HashMethod -> list byte -> Prop :=
  | by_data data rest m f h : provides db m f -> data <> [] -> HashNew db (Some (map Some data ++ rest)) (length data) m = Ok (Some h) -> obtained h m (f data)
  | by_descriptor src rs m f h : provides db m f -> served rs -> HashNewFromDescriptor db (Some (mkIn src rs)) m = Ok (Some h) -> obtained h m (f src)
  | by_key n e m f h : provides db m f -> n <> [] \/ e <> [] -> HashNewFromKey db (Some (mkRSA (Some n) (Some e))) m = Ok (Some h) -> obtained h m (f (n ++ e))
  | by_copy h m d h' : obtained h m d -> HashCopy h = Ok h' -> obtained h' m d.

  Lemma obtained_rep h m d : obtained h m d -> rep_hash h m d /\ exists f x, provides db m f /\ d = f x.
  Proof.
    induction 1 as [data rest m f h P NE E|src rs m f h P SV E|n e m f h P NE E|h m d h' O [R X] E].
    - destruct (@HashNew_spec db OPENSSL data rest m f NE P) as (g & F & R). rewrite E in F. inversion F; subst. split; [exact R|eauto].
    - split; [|eauto]. unfold HashNewFromDescriptor in E. destruct (provides_type P) as (name & _ & _ & ID & IX & _).
      rewrite IX, ID in E. cbn [bind ranswers left_] in E. destruct (descriptor_spec src [] SV) as [D|D]; rewrite D in E; [discriminate E|].
      cbn [bind app] in E. destruct (@finish_spec db OPENSSL f src m P) as (g & F & R). rewrite E in F. inversion F; subst. exact R.
    - split; [|eauto]. unfold HashNewFromKey in E. destruct (provides_type P) as (name & T & G & _ & IX & _). rewrite IX in E. cbn [rsa_n rsa_e BN_num_bytes] in E.
      destruct (Nat.eqb_spec (Nat.max (length n) (length e)) 0) as [Z|_]; [discriminate E|].
      rewrite T in E. cbn [bind] in E. rewrite G, key_spec in E by exact NE. cbn [bind] in E.
      destruct (@finish_spec db OPENSSL f (n ++ e) m P) as (g & F & R). rewrite E in F. inversion F; subst. exact R.
    - split; [|exact X]. destruct (HashCopy_spec R) as (g & F & R'). rewrite E in F. inversion F; subst. exact R'.
  Qed.

  (** a copy can be made of every one, and says the same as the original *)
  Theorem C83_HashCopy h m d : obtained h m d -> exists h', HashCopy h = Ok h' /\ is_hash h m d /\ is_hash h' m d.
  Proof.
    intros O. destruct (obtained_rep O) as [R _]. destruct (HashCopy_spec R) as (h' & E & R'). exists h'.
    split; [exact E|]. split; apply rep_is_hash; assumption.
  Qed.
  (** HashEqual: same method, same digest *)
  Theorem C83_HashEqual a b m1 m2 d1 d2 : obtained a m1 d1 -> obtained b m2 d2 ->
    exists r, HashEqual (Some a) (Some b) = Ok r /\ (r = true <-> m1 = m2 /\ d1 = d2).
  Proof.
    intros A B. destruct (obtained_rep A) as [RA (f & x & P & ->)]. destruct (obtained_rep B) as [RB (g & y & Q & ->)].
    apply HashEqual_spec; [exact RA|exact RB|]. intros ->.
    destruct P as (n1 & s1 & A1 & D1). destruct Q as (n2 & s2 & A2 & D2). rewrite A1 in A2. inversion A2; subst.
    rewrite (proj1 OPENSSL _ _ _ _ A1 D1), (proj1 OPENSSL _ _ _ _ A1 D2). reflexivity.
  Qed.
  (** the printable forms of two hashes are the same only if the digests are *)
  Theorem C83_printable_injective a b m1 m2 d1 d2 t : obtained a m1 d1 -> obtained b m2 d2 ->
    holds (printable a) t -> holds (printable b) t -> d1 = d2.
  Proof.
    intros A B HA HB. destruct (obtained_rep A) as [(_ & _ & _ & _ & _ & PA) _]. destruct (obtained_rep B) as [(_ & _ & _ & _ & _ & PB) _].
    assert (E : type_prefix m1 ++ hex d1 = type_prefix m2 ++ hex d2).
    { apply (proj2 (mstr_holds _ _)) in HA, HB, PA, PB. congruence. }
    assert (L : length (type_prefix m1) = length (type_prefix m2)) by (destruct m1, m2; reflexivity).
    apply hex_inj. apply (f_equal (skipn (length (type_prefix m1)))) in E.
    rewrite skipn_app_ge in E by lia. rewrite Nat.sub_diag in E. rewrite L in E. rewrite skipn_app_ge in E by lia. rewrite Nat.sub_diag in E. exact E.
  Qed.
End C83.
Example C83_example : exists h, HashNew toy_db (Some (map Some (lit "abc"))) 3 HASH_METHOD_SHA1 = Ok (Some h) /\
  holds (printable h) (lit "SHA=6162636b6b6b6b6b6b6b6b6b6b6b6b6b6b6b6b6b") /\ obtained toy_db h HASH_METHOD_SHA1 (toy 20 (lit "abc")).
Proof.
  assert (NE : lit "abc" <> []) by discriminate.
  destruct (@C83_HashNew toy_db toy_openssl (lit "abc") [] HASH_METHOD_SHA1 _ NE toy_provides) as (h & E & R).
  rewrite app_nil_r in E. change (length (lit "abc")) with 3 in E. exists h. split; [exact E|]. split; [apply R|].
  apply (@by_data toy_db (lit "abc") [] HASH_METHOD_SHA1 (toy 20) h toy_provides NE). exact E.
Qed.
Example C83_short_reads : served [Done 0; Done 7; Done 2; Done 0] /\ length (lit "abc") < length [Done 0; Done 7; Done 2; Done 0].
Proof. split; [repeat constructor; eexists; reflexivity|cbn; lia]. Qed.

(** the names of the methods: every name is that of exactly one method *)
Theorem C83_names m : exists r, HashNameFromId m = Ok r /\ HashIdFromName r = m.
Proof. destruct m; eexists; split; reflexivity. Qed.
Theorem C83_unknown_name name : HashIdFromName (Some name) = HASH_METHOD_NONE \/ HashNameFromId (HashIdFromName (Some name)) = Ok (Some name).
Proof.
  assert (L : forall t, bytes_eqb name t = true -> name = t) by (intros t E; apply bytes_eqb_eq; exact E).
  unfold HashIdFromName, CF_DIGEST_TYPES. cbn [id_loop].
  repeat match goal with |- context [bytes_eqb name ?t] => destruct (bytes_eqb name t) eqn:?; [right; rewrite (L _ ltac:(eassumption)); reflexivity|] end.
  left. reflexivity.
Qed.
Theorem C83_sizes m name size : algorithm m = Some (name, size) -> HashNameFromId m = Ok (Some name) /\ HashSizeFromId m = Ok size.
Proof. destruct m; intros E; inversion E; split; reflexivity. Qed.

Section C84.
  Variable db : list byte -> option (list byte -> list byte).
  Hypothesis OPENSSL : openssl db.
  (** the digest in the 65-byte array, filled up with zeros *)
  Definition in_array (d : list byte) (a : cells byte) : Prop := a = map Some d ++ repeat (Some NUL) (65 - length d).

  Theorem C84_HashString data rest d m f : length d = 65 -> provides db m f ->
    exists a, HashString db (map Some data ++ rest) (length data) d m = Ok a /\ in_array (f data) a.
  Proof. intros L P. rewrite (@HashString_spec db OPENSSL data rest d m f L P). eexists; split; reflexivity. Qed.
  (** HashFile: files of every size; all zeros for one that cannot be opened *)
  Theorem C84_HashFile src d m f : length d = 65 -> provides db m f ->
    exists a, HashFile db (Some src) d m = Ok a /\ in_array (f src) a.
  Proof.
    intros L P. unfold HashFile, HashFile_Stream. rewrite cleared_spec by exact L. cbn [bind].
    destruct (provides_type P) as (name & _ & _ & ID & _). rewrite ID. cbn [bind]. rewrite stream_spec by lia. cbn [bind app].
    rewrite (@final_spec db OPENSSL f src m P). eexists; split; reflexivity.
  Qed.
  Theorem C84_HashFile_missing d m : length d = 65 -> HashFile db None d m = Ok (repeat (Some NUL) 65).
  Proof. intros L. unfold HashFile. rewrite cleared_spec by exact L. reflexivity. Qed.
  Theorem C84_HashPubKey n e d m f : length d = 65 -> n <> [] \/ e <> [] -> provides db m f ->
    exists a, HashPubKey db (mkRSA (Some n) (Some e)) d m = Ok a /\ in_array (f (n ++ e)) a.
  Proof.
    intros L NE P. unfold HashPubKey. destruct (provides_type P) as (name & _ & _ & ID & _ & CR). rewrite CR. cbn [negb massert].
    rewrite cleared_spec by exact L. cbn [bind]. rewrite ID. cbn [bind]. rewrite key_spec by exact NE. cbn [bind].
    rewrite (@final_spec db OPENSSL f (n ++ e) m P). eexists; split; reflexivity.
  Qed.
  (** HashesMatch compares the digests, and nothing behind them *)
  Theorem C84_HashesMatch m name size d1 d2 r1 r2 : algorithm m = Some (name, size) -> length d1 = size -> length d2 = size ->
    exists r, HashesMatch (map Some d1 ++ r1) (map Some d2 ++ r2) m = Ok r /\ (r = true <-> d1 = d2).
  Proof.
    intros A L1 L2. unfold HashesMatch. rewrite (proj2 (@C83_sizes m name size A)). cbn [bind].
    destruct (Nat.leb_spec size 0) as [Z|_]; [destruct m; inversion A; lia|].
    pose proof (@equal_loop_spec d1 d2 0 r1 r2 [] [] eq_refl eq_refl ltac:(lia)) as X. cbn [app] in X. rewrite L1 in X. rewrite X.
    eexists; split; [reflexivity|]. apply bytes_eqb_eq.
  Qed.
  Theorem C84_HashesMatch_unusable m d1 d2 : m = HASH_METHOD_BEST \/ m = HASH_METHOD_NONE -> HashesMatch d1 d2 m = Ok false.
  Proof. intros [-> | ->]; reflexivity. Qed.
  (** HashPrintSafe: prefix and hexadecimal digest, nothing else of the destination touched *)
  Theorem C84_HashPrintSafe dst n d rest m name size (use_prefix : bool) : algorithm m = Some (name, size) -> length d = size ->
    (if use_prefix then 4 else 0) + 2 * size + 1 <= n <= length dst ->
    exists dst', HashPrintSafe dst n (map Some d ++ rest) m use_prefix = Ok dst' /\
      holds dst' ((if use_prefix then type_prefix m else []) ++ hex d) /\ same_from n dst dst'.
  Proof.
    intros A L R. pose proof (proj2 (@C83_sizes m name size A)) as S1.
    assert (LP : length (if use_prefix then type_prefix m else []) = if use_prefix then 4 else 0) by (destruct use_prefix; [destruct m|]; reflexivity).
    assert (C : is_cstr ((if use_prefix then type_prefix m else []) ++ hex d)).
    { intros I. apply in_app_or in I as [I|I]; [|exact (@hex_cstr _ I)].
      destruct use_prefix; [|destruct I]. destruct m; revert I; unfold NUL; cbn; intuition discriminate. }
    eexists. split; [apply (@HashPrintSafe_spec dst n d rest m use_prefix size S1 L); rewrite LP; lia|].
    split; [apply put_holds; exact C|]. apply put_same_from; rewrite app_length, hex_length, LP; destruct use_prefix; lia.
  Qed.
  (** SkipHashType finds the digest again *)
  Theorem C84_SkipHashType m d (use_prefix : bool) :
    skipn (SkipHashType ((if use_prefix then type_prefix m else []) ++ hex d)) ((if use_prefix then type_prefix m else []) ++ hex d) = hex d.
  Proof.
    destruct use_prefix; [destruct m; reflexivity|]. cbn [app]. unfold SkipHashType.
    replace (prefixb (lit "MD5=") (hex d) || prefixb (lit "SHA=") (hex d)) with false; [reflexivity|].
    destruct d as [|c d]; [reflexivity|]. cbn [hex flat_map app]. destruct c as [[] [] [] [] [] [] [] []]; reflexivity.
  Qed.
End C84.
Example C84_example : HashPrintSafe (repeat None 40) 38 (map Some (toy 16 (lit "abc"))) HASH_METHOD_MD5 true
  = Ok (block (lit "MD5=6162636b6b6b6b6b6b6b6b6b6b6b6b6b") ++ repeat None 3).
Proof. vm_compute. reflexivity. Qed.

Section C85.
  Variable db : list byte -> option (list byte -> list byte).
  Hypothesis OPENSSL : openssl db.
  (** a string that fits is copied; of a longer one the end is replaced so that the MD5 of the
      whole string stands at the end, the buffer is filled exactly, and the size is returned *)
  Theorem C85_StringCopyTruncateAndHashIfNecessary src dst n : is_cstr src -> 37 < n <= length dst ->
    exists dst', StringCopyTruncateAndHashIfNecessary db src dst n = Ok (dst', if length src <? n then length src else n) /\
      holds dst' (if length src <? n then src else firstn (n - 38) src ++ lit "#MD5=" ++ hex (md5_or_zero db src)) /\ same_from n dst dst'.
  Proof.
    intros C R. destruct (Nat.ltb_spec (length src) n) as [Lt|Ge].
    - apply truncate_fits; auto.
    - apply truncate_long; auto.
  Qed.
  (** hence different strings too long for the buffer stay different unless MD5 collides *)
  Theorem C85_distinct s1 s2 dst1 dst2 n r1 r2 t : is_cstr s1 -> is_cstr s2 -> 37 < n <= length dst1 -> n <= length dst2 ->
    n <= length s1 -> n <= length s2 ->
    StringCopyTruncateAndHashIfNecessary db s1 dst1 n = Ok (r1, n) -> StringCopyTruncateAndHashIfNecessary db s2 dst2 n = Ok (r2, n) ->
    holds r1 t -> holds r2 t -> md5_or_zero db s1 = md5_or_zero db s2.
  Proof.
    intros C1 C2 R1 R2 L1 L2 E1 E2 H1 H2.
    destruct (@truncate_long db OPENSSL s1 dst1 n C1 R1 L1) as (q1 & F1 & G1 & _). rewrite E1 in F1. inversion F1; subst q1.
    destruct (@truncate_long db OPENSSL s2 dst2 n C2 ltac:(lia) L2) as (q2 & F2 & G2 & _). rewrite E2 in F2. inversion F2; subst q2.
    apply (proj2 (mstr_holds _ _)) in H1, H2, G1, G2. 
    assert (X2 : firstn (n - 38) s1 ++ lit "#MD5=" ++ hex (md5_or_zero db s1) = firstn (n - 38) s2 ++ lit "#MD5=" ++ hex (md5_or_zero db s2)) by congruence.
    apply (f_equal (skipn (n - 38 + 5))) in X2. rewrite !app_assoc in X2.
    assert (LX : forall s, n <= length s -> length (firstn (n - 38) s ++ lit "#MD5=") = n - 38 + 5) by (intros s Ls; rewrite app_length, firstn_length; change (length (lit "#MD5=")) with 5; lia).
    rewrite skipn_app_ge in X2 by (rewrite LX by assumption; lia). rewrite LX, Nat.sub_diag in X2 by assumption.
    rewrite skipn_app_ge in X2 by (rewrite LX by assumption; lia). rewrite LX, Nat.sub_diag in X2 by assumption.
    apply hex_inj. exact X2.
  Qed.
  (** if MD5 is not available (as in FIPS mode) the digest is the same for all: two different
      strings give the same result *)
  Theorem C85_no_md5_refuted (NOMD5 : db (lit "md5") = None) a b n :
    let s1 := a ++ lit "x" in let s2 := a ++ lit "y" in
    is_cstr a -> 37 < n -> n <= length a ->
    exists r, StringCopyTruncateAndHashIfNecessary db s1 (repeat b n) n = Ok (r, n) /\ StringCopyTruncateAndHashIfNecessary db s2 (repeat b n) n = Ok (r, n).
  Proof.
    intros s1 s2 C N L.
    assert (CS : forall c, c <> NUL -> is_cstr (a ++ [c])) by (intros c NE I; apply in_app_or in I as [I|[I|[]]]; [exact (C I)|congruence]).
    assert (C1 : is_cstr s1) by (apply CS; discriminate). assert (C2 : is_cstr s2) by (apply CS; discriminate).
    assert (RL : 37 < n <= length (repeat b n)) by (rewrite repeat_length; lia).
    assert (LS : forall c : byte, n <= length (a ++ [c])) by (intros c; rewrite app_length; cbn [length]; lia).
    destruct (@truncate_long db OPENSSL s1 (repeat b n) n C1 RL (LS _)) as (q1 & F1 & G1 & S1).
    destruct (@truncate_long db OPENSSL s2 (repeat b n) n C2 RL (LS _)) as (q2 & F2 & G2 & S2).
    exists q1. split; [exact F1|]. rewrite F2. do 2 f_equal.
    unfold md5_or_zero in G1, G2. rewrite NOMD5 in G1, G2. unfold s1, s2 in G1, G2.
    rewrite firstn_app_le in G1 by lia. rewrite firstn_app_le in G2 by lia.
    destruct G1 as [_ [x1 G1]]. destruct G2 as [_ [x2 G2]]. destruct S1 as [S1 _]. destruct S2 as [S2 _].
    set (T := firstn (n - 38) a ++ lit "#MD5=" ++ hex (repeat NUL 16)) in *.
    assert (LT : length T = n - 1).
    { unfold T. rewrite !app_length, firstn_length, hex_length, repeat_length. change (length (lit "#MD5=")) with 5. lia. }
    rewrite G1 in S1. rewrite G2 in S2. rewrite app_length, map_length, repeat_length, LT in S1, S2. cbn [length] in S1, S2.
    destruct x1; [|cbn [length] in S1; lia]. destruct x2; [|cbn [length] in S2; lia]. rewrite G1, G2. reflexivity.
  Qed.
End C85.
Example C85_example : exists r, StringCopyTruncateAndHashIfNecessary toy_db (repeat "a"%char 50) (repeat None 40) 40 = Ok (r, 40) /\
  mstr r = Ok (lit "aa#MD5=61616161616161616161616161616161").
Proof. eexists. split; vm_compute; reflexivity. Qed.

Print Assumptions C83_HashNew.
Print Assumptions C83_HashNew_null.
Print Assumptions C83_HashNewFromDescriptor.
Print Assumptions C83_HashNewFromDescriptor_returns.
Print Assumptions C83_HashNewFromDescriptor_failed_read_refuted.
Print Assumptions C83_HashNewFromKey.
Print Assumptions C83_HashCopy.
Print Assumptions C83_HashEqual.
Print Assumptions C83_printable_injective.
Print Assumptions C83_names.
Print Assumptions C83_unknown_name.
Print Assumptions C84_HashString.
Print Assumptions C84_HashFile.
Print Assumptions C84_HashPubKey.
Print Assumptions C84_HashesMatch.
Print Assumptions C84_HashPrintSafe.
Print Assumptions C84_SkipHashType.
Print Assumptions C85_StringCopyTruncateAndHashIfNecessary.
Print Assumptions C85_distinct.
Print Assumptions C85_no_md5_refuted.
