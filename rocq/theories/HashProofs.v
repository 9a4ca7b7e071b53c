(** Proofs about hash.c. *)
From Verif Require Import Prelude PreludeFacts Str StrFacts Libc LibcFacts MemSpec CmpModel EditModel EditSpec EditProofs EditProofs2 EditProofs4
  BufModel IoModel CompatModel CompatProofs PropsCompat EnvProofs HashModel HashSpec.
Set Implicit Arguments.

(** the state of a hash object *)
Definition rep_hash (h : Hash) (m : HashMethod) (d : list byte) : Prop :=
  hmethod h = m /\ hsize h = length d /\ (exists r, digest h = map Some d ++ r) /\
  length (digest h) = 64 /\ length (printable h) = 256 /\ holds (printable h) (type_prefix m ++ hex d).

Lemma read_map d r : read_cells (length d) (map Some d ++ r) = Ok d.
Proof. induction d as [|c d IH]; [reflexivity|]. cbn [length map app read_cells]. rewrite IH. reflexivity. Qed.
Lemma rep_is_hash h m d : rep_hash h m d -> is_hash h m d.
Proof.
  intros (A & B & (r & C) & _ & _ & D). unfold is_hash. cbn [HashType HashLength HashData].
  rewrite B, C, read_map. cbn [bind]. split; [exact A|]. split; [reflexivity|]. split; [reflexivity|exact D].
Qed.

Lemma hex2_hex b : hex2 b = hex [b].
Proof. destruct b as [[] [] [] [] [] [] [] []]; reflexivity. Qed.

Lemma acopy_at (a : list byte) (r s : cells byte) i n : i = length a -> n <= length r -> n <= length s ->
  acopy (map Some a ++ r) i s 0 n = Ok (map Some a ++ firstn n s ++ skipn n r).
Proof.
  intros -> R Q. rewrite acopy_Ok by (rewrite ?app_length, ?map_length; lia). cbn [skipn].
  rewrite firstn_app_le by (rewrite map_length; lia). rewrite firstn_all2 by (rewrite map_length; lia).
  rewrite skipn_app_ge by (rewrite map_length; lia). rewrite map_length. do 3 f_equal. f_equal. lia.
Qed.

Lemma aget_map (a : list byte) x t : aget (map Some a ++ Some x :: t) (length a) = Ok x.
Proof. rewrite <- (map_length Some a). apply aget_at. Qed.

Lemma printable_loop_spec pre : length pre = 4 -> forall fuel a b r q, length b < fuel -> 2 * length b <= length q ->
  4 + 2 * length a + 1 + length q = 256 ->
  printable_loop fuel (length a) (map Some (a ++ b) ++ r) (map Some (pre ++ hex a) ++ Some NUL :: q) (length (a ++ b))
  = Ok (map Some (pre ++ hex (a ++ b)) ++ Some NUL :: skipn (2 * length b) q).
Proof.
  intros P. induction fuel as [|f IH]; intros a b r q F Q T; [lia|]. cbn [printable_loop].
  destruct b as [|c b].
  - rewrite app_nil_r. rewrite Nat.ltb_irrefl. cbn [length Nat.mul skipn]. reflexivity.
  - rewrite app_length. cbn [length]. replace (length a <? length a + S (length b)) with true by (symmetry; apply Nat.ltb_lt; lia).
    rewrite map_app, <- app_assoc. cbn [map app]. rewrite aget_map. cbn [bind]. rewrite hex2_hex.
    unfold mvsnprintf at 1. unfold EVP_MAX_MD_SIZE.
    assert (L2 : length (hex [c]) = 2) by reflexivity.
    cbn [length] in Q, F.
    destruct (Nat.eqb_spec (64 * 4 - (4 + 2 * length a)) 0); [lia|].
    rewrite firstn_all2 by lia. rewrite L2.
    rewrite acopy_at; [|rewrite app_length, hex_length; lia|cbn [length]; lia|rewrite length_block; lia].
    cbn [bind]. rewrite block_eq.
    change (firstn 3 (map Some (hex [c]) ++ [Some NUL])) with (map Some (hex [c]) ++ [Some NUL]).
    cbn [skipn].
    specialize (IH (a ++ [c]) b r (skipn 2 q)). rewrite <- app_assoc in IH. cbn [app] in IH.
    rewrite !app_length in IH. cbn [length] in IH. rewrite hex_app in IH.
    replace (length a + S (length b)) with (length (a ++ c :: b)) in * by (rewrite app_length; reflexivity).
    replace (S (length a)) with (length a + 1) by lia.
    transitivity (printable_loop f (length a + 1) (map Some (a ++ c :: b) ++ r)
       (map Some (pre ++ hex a ++ hex [c]) ++ Some NUL :: skipn 2 q) (length (a ++ c :: b))).
    { f_equal; [rewrite map_app, <- app_assoc; reflexivity|].
      rewrite !map_app, <- !app_assoc. cbn [app]. reflexivity. }
    rewrite IH by (rewrite ?skipn_length; lia). f_equal. f_equal. f_equal.
    rewrite skipn_skipn. f_equal. cbn [length]. lia.
Qed.

Lemma repeat_split A (x : A) n k : k <= n -> repeat x n = repeat x k ++ repeat x (n - k).
Proof. intros L. rewrite <- repeat_app. f_equal. lia. Qed.

Lemma skipn_repeat A (x : A) n k : skipn k (repeat x n) = repeat x (n - k).
Proof.
  destruct (le_lt_dec k n) as [L|L].
  - rewrite (@repeat_split _ x n k L). rewrite skipn_app_ge by (rewrite repeat_length; lia). rewrite repeat_length, Nat.sub_diag. reflexivity.
  - rewrite skipn_all2 by (rewrite repeat_length; lia). replace (n - k) with 0 by lia. reflexivity.
Qed.

Lemma skipn_taken A (l : list A) k : skipn (length (firstn k l)) l = skipn k l.
Proof.
  rewrite firstn_length. destruct (le_lt_dec k (length l)).
  - rewrite Nat.min_l by lia. reflexivity.
  - rewrite Nat.min_r by lia. rewrite !skipn_all2 by lia. reflexivity.
Qed.

Section DB.
  Variable db : list byte -> option (list byte -> list byte).
  Hypothesis DB : openssl db.

  Lemma finish_spec f c m : provides db m f ->
    exists h, finish f c m = Ok (Some h) /\ rep_hash h m (f c).
  Proof.
    intros (name & size & AL & G). pose proof (proj1 DB m name size f AL G c) as LEN.
    assert (SZ : digest_size m = Ok size /\ size <= 64 /\ method_index m <= 6).
    { destruct m; inversion AL; subst; (split; [reflexivity|]; split; [lia|cbn; lia]). }
    destruct SZ as (SZ & S64 & IDX).
    unfold finish, HashBasicInit. rewrite SZ. cbn [bind digest printable hmethod hsize].
    unfold final. rewrite acopy_Ok by (unfold calloc; rewrite ?repeat_length, ?map_length; unfold EVP_MAX_MD_SIZE; lia).
    cbn [bind firstn app skipn]. rewrite firstn_all2 by (rewrite map_length; lia).
    unfold calloc, EVP_MAX_MD_SIZE. rewrite skipn_repeat, LEN. cbn [Nat.add].
    unfold HashCalculatePrintableRepresentation. cbn [digest printable hmethod hsize].
    assert (PX : match m with
      | HASH_METHOD_MD5 => lit "MD5="
      | HASH_METHOD_SHA224 | HASH_METHOD_SHA256 | HASH_METHOD_SHA384 | HASH_METHOD_SHA512 | HASH_METHOD_SHA | HASH_METHOD_SHA1 => lit "SHA="
      | _ => lit "UNK=" end = type_prefix m) by (destruct m; inversion AL; reflexivity).
    rewrite PX. assert (PL : length (type_prefix m) = 4) by (destruct m; reflexivity).
    assert (PC : is_cstr (type_prefix m)).
    { destruct m; unfold is_cstr, NUL; cbn; intuition discriminate. }
    unfold mstrcpy. rewrite acopy_Ok by (rewrite ?repeat_length, ?length_block, ?PL; lia).
    cbn [firstn app skipn]. rewrite firstn_all2 by (rewrite length_block; lia). rewrite block_eq. cbn [bind].
    rewrite skipn_repeat, PL.
    pose proof (@printable_loop_spec (type_prefix m) PL (S size) [] (f c) (repeat (Some NUL) (64 - size)) (repeat (Some NUL) (64 * 4 - (0 + 5)))) as X.
    cbn [app length hex flat_map] in X. rewrite app_nil_r in X. rewrite repeat_length, LEN in X.
    rewrite <- app_assoc. cbn [app]. rewrite X by lia. clear X. cbn [bind].
    rewrite write_end; [|rewrite app_length, PL; fold (hex (f c)); rewrite hex_length; lia|cbn [length]; lia].
    cbn [bind skipn]. eexists; split; [reflexivity|]. unfold rep_hash. cbn [digest printable hmethod hsize].
    fold (hex (f c)). rewrite skipn_repeat.
    repeat split.
    - symmetry; exact LEN.
    - eexists; reflexivity.
    - rewrite app_length, map_length, repeat_length, LEN. lia.
    - rewrite app_length, map_length, app_length, PL, hex_length, LEN. cbn [length]. rewrite repeat_length. lia.
    - intros I. apply in_app_or in I as [I|I]; [exact (PC I)|exact (@hex_cstr _ I)].
    - eexists; reflexivity.
  Qed.

  Lemma provides_type f m : provides db m f -> exists name, digest_type m = Ok name /\ db name = Some f /\ HashDigestFromId db m = Ok (Some f) /\ (9 <=? method_index m) = false /\ method_eqb m HASH_METHOD_CRYPT = false.
  Proof.
    intros (name & size & AL & G). exists name. destruct m; inversion AL; subst; (split; [reflexivity|]; split; [exact G|]; split; [|split; reflexivity]);
    cbn; cbn in G; rewrite G; reflexivity.
  Qed.
  Lemma not_provides m : (forall f, ~ provides db m f) -> m = HASH_METHOD_NONE \/ (9 <=? method_index m) = false /\ HashDigestFromId db m = Ok None /\ (exists name, digest_type m = Ok name /\ db name = None).
  Proof.
    intros P.
    assert (X : forall name size, algorithm m = Some (name, size) -> db name = None).
    { intros name size AL. destruct (db name) as [f|] eqn:G; [|reflexivity]. exfalso. apply (P f). exists name, size. auto. }
    destruct DB as (_ & B & CR).
    destruct m; cbn [algorithm] in X; try (left; reflexivity); right; (split; [reflexivity|]);
      try specialize (X _ _ eq_refl);
      cbn; cbn in X, B, CR;
      (split; [first [rewrite X; reflexivity | rewrite B; reflexivity | rewrite CR; reflexivity]|eexists; split; [reflexivity|first [exact X|exact B|exact CR]]]).
  Qed.

  Lemma update_spec c data r : update c (map Some data ++ r) (length data) = Ok (c ++ data).
  Proof. unfold update. rewrite read_map. reflexivity. Qed.

  Lemma HashNew_spec data r m f : data <> [] -> provides db m f ->
    exists h, HashNew db (Some (map Some data ++ r)) (length data) m = Ok (Some h) /\ rep_hash h m (f data).
  Proof.
    intros NE P. destruct (provides_type P) as (name & T & G & _ & IX & _). unfold HashNew.
    destruct (Nat.eqb_spec (length data) 0) as [E|_]; [destruct data; [congruence|discriminate]|].
    rewrite IX, T. cbn [bind]. rewrite G, update_spec. cbn [bind app]. apply finish_spec. exact P.
  Qed.
  Lemma HashNew_null data len m : (forall f, ~ provides db m f) -> HashNew db data len m = Ok None.
  Proof.
    intros P. unfold HashNew. destruct data; [|reflexivity]. destruct (len =? 0); [reflexivity|].
    destruct (not_provides P) as [->|(IX & _ & name & T & G)]; [reflexivity|]. rewrite IX, T. cbn [bind]. rewrite G. reflexivity.
  Qed.

  (** a fresh 1024-byte buffer after reading [bytes] *)
  Lemma fresh_read (bytes : list byte) n : length bytes <= n -> acopy (repeat None n) 0 (map Some bytes) 0 (length bytes) = Ok (map Some bytes ++ repeat None (n - length bytes)).
  Proof.
    intros L. rewrite acopy_Ok by (rewrite ?repeat_length, ?map_length; lia). cbn [firstn app skipn].
    rewrite firstn_all2 by (rewrite map_length; lia). rewrite skipn_repeat. reflexivity.
  Qed.
  (** all answers are successful reads *)
  Definition served (rs : list answer) : Prop := Forall (fun a => exists n, a = Done n) rs.
  Lemma descriptor_spec : forall rs src c, served rs ->
    descriptor_loop rs src c = Fuel \/ descriptor_loop rs src c = Ok (c ++ src).
  Proof.
    induction rs as [|a rs IH]; intros src c SV; [left; reflexivity|].
    inversion SV as [|? ? [n ->] SV']; subst. cbn [descriptor_loop].
    rewrite fresh_read by (rewrite firstn_length; lia). cbn [bind]. rewrite update_spec. cbn [bind].
    destruct (Nat.ltb_spec 0 (length (firstn (Nat.min (S n) 1024) src))) as [Lt|Ge].
    - replace (skipn (length (firstn (Nat.min (S n) 1024) src)) src) with (skipn (Nat.min (S n) 1024) src).
      + destruct (IH (skipn (Nat.min (S n) 1024) src) (c ++ firstn (Nat.min (S n) 1024) src) SV') as [E|E]; rewrite E; [left; reflexivity|right].
        rewrite <- app_assoc, firstn_skipn. reflexivity.
      + symmetry. apply skipn_taken.
    - right. rewrite firstn_length in Ge. destruct src as [|x src]; [|cbn [length] in Ge; lia].
      rewrite firstn_nil. reflexivity.
  Qed.
  Lemma descriptor_done : forall src c rs, served rs -> length src < length rs -> exists d, descriptor_loop rs src c = Ok d.
  Proof.
    intros src c rs; revert src c; induction rs as [|a rs IH]; intros src c SV L; [cbn in L; lia|].
    inversion SV as [|? ? [n ->] SV']; subst. cbn [descriptor_loop].
    rewrite fresh_read by (rewrite firstn_length; lia). cbn [bind]. rewrite update_spec. cbn [bind].
    destruct (Nat.ltb_spec 0 (length (firstn (Nat.min (S n) 1024) src))) as [Lt|Ge]; [|eexists; reflexivity].
    apply IH; [exact SV'|]. rewrite skipn_length. cbn [length] in L. rewrite firstn_length in *. lia.
  Qed.

  Lemma stream_spec : forall fuel src c, length src < fuel -> stream_loop fuel src c = Ok (c ++ src).
  Proof.
    induction fuel as [|f IH]; intros src c L; [lia|]. cbn [stream_loop].
    rewrite fresh_read by (rewrite firstn_length; lia). cbn [bind].
    destruct (Nat.eqb_spec (length (firstn 1024 src)) 0) as [E|E].
    - rewrite firstn_length in E. destruct src; [|cbn [length] in E; lia]. rewrite app_nil_r. reflexivity.
    - rewrite update_spec. cbn [bind]. rewrite skipn_taken. rewrite IH by (rewrite skipn_length, firstn_length in *; lia). rewrite <- app_assoc, firstn_skipn. reflexivity.
  Qed.

  Lemma key_spec n e : n <> [] \/ e <> [] -> key_bytes (mkRSA (Some n) (Some e)) = Ok (n ++ e).
  Proof.
    intros NE. unfold key_bytes. cbn [rsa_n rsa_e BN_num_bytes].
    assert (LM : 0 < Nat.max (length n) (length e)) by (destruct NE; [destruct n|destruct e]; try congruence; cbn [length]; lia).
    destruct (Nat.eqb_spec (Nat.max (length n) (length e)) 0); [lia|].
    unfold update_bn. rewrite fresh_read by lia. cbn [bind].
    replace (length n <=? Nat.max (length n) (length e)) with true by (symmetry; apply Nat.leb_le; lia). cbn [massert].
    rewrite update_spec. cbn [bind].
    rewrite acopy_Ok by (rewrite ?app_length, ?map_length, ?repeat_length; lia). cbn [firstn app skipn bind].
    replace (length e <=? Nat.max (length n) (length e)) with true by (symmetry; apply Nat.leb_le; lia). cbn [massert].
    rewrite (firstn_all2 (n := length e) (map Some e)) by (rewrite map_length; lia). rewrite update_spec. reflexivity.
  Qed.

  (** the 65-byte array the three plain functions fill *)
  Lemma cleared_spec d : length d = 65 -> cleared d = Ok (repeat (Some NUL) 65).
  Proof.
    intros L. unfold cleared, mset, EVP_MAX_MD_SIZE. rewrite L. cbn [Nat.add Nat.leb].
    rewrite (skipn_all2 d) by lia. rewrite app_nil_r. reflexivity.
  Qed.
  Definition digest_array (d : list byte) : cells byte := map Some d ++ repeat (Some NUL) (65 - length d).
  Lemma final_spec f c m : provides db m f -> final f c (repeat (Some NUL) 65) = Ok (digest_array (f c)).
  Proof.
    intros (name & size & AL & G). pose proof (proj1 DB m name size f AL G c) as LEN.
    assert (size <= 64) by (destruct m; inversion AL; lia).
    unfold final. rewrite acopy_Ok by (rewrite ?repeat_length, ?map_length; lia). cbn [firstn app skipn].
    rewrite firstn_all2 by (rewrite map_length; lia). rewrite skipn_repeat. reflexivity.
  Qed.
  Lemma HashString_spec data r d m f : length d = 65 -> provides db m f ->
    HashString db (map Some data ++ r) (length data) d m = Ok (digest_array (f data)).
  Proof.
    intros L P. destruct (provides_type P) as (name & T & G & ID & IX & CR). unfold HashString. rewrite CR. cbn [negb massert].
    rewrite cleared_spec by exact L. cbn [bind]. rewrite ID. cbn [bind]. rewrite update_spec. cbn [bind app]. apply final_spec with (m := m). exact P.
  Qed.
End DB.

Lemma equal_loop_spec : forall a b i ra rb xa xb, length xa = i -> length xb = i -> length a = length b ->
  equal_loop (length a) i (map Some (xa ++ a) ++ ra) (map Some (xb ++ b) ++ rb) = Ok (bytes_eqb a b).
Proof.
  induction a as [|x a IH]; intros b i ra rb xa xb LA LB L; destruct b as [|y b]; try discriminate; [reflexivity|].
  cbn [length equal_loop]. rewrite !map_app, <- !app_assoc. cbn [map app].
  replace i with (length xa) at 1 by exact LA. rewrite aget_map. cbn [bind].
  replace i with (length xb) at 1 by exact LB. rewrite aget_map. cbn [bind].
  cbn [bytes_eqb]. destruct (beq x y); cbn [andb]; [|reflexivity].
  replace (map Some xa ++ Some x :: map Some a ++ ra) with (map Some ((xa ++ [x]) ++ a) ++ ra) by (rewrite !map_app, <- !app_assoc; reflexivity).
  replace (map Some xb ++ Some y :: map Some b ++ rb) with (map Some ((xb ++ [y]) ++ b) ++ rb) by (rewrite !map_app, <- !app_assoc; reflexivity).
  apply IH; [rewrite app_length; cbn [length]; lia|rewrite app_length; cbn [length]; lia|cbn [length] in L; lia].
Qed.
