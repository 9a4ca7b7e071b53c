(** Model of libutils/hash.c.  OpenSSL is an oracle: EVP_get_digestbyname maps a name to the
    digest function it stands for, or to NULL; a context collects the bytes it is given and
    EVP_DigestFinal_ex stores their digest.  EVP_DigestInit succeeds, allocations succeed,
    assertions are on.  Log calls are left out. *)
From Verif Require Import Prelude Str Libc CmpModel EditModel BufModel IoModel CompatModel.
Set Implicit Arguments.

(** libutils/hash_method.h:33-46 HashMethod *)
Inductive HashMethod := HASH_METHOD_MD5 | HASH_METHOD_SHA224 | HASH_METHOD_SHA256 | HASH_METHOD_SHA384 | HASH_METHOD_SHA512
  | HASH_METHOD_SHA1 | HASH_METHOD_SHA | HASH_METHOD_BEST | HASH_METHOD_CRYPT | HASH_METHOD_NONE.
Definition method_index (m : HashMethod) : nat :=
  match m with HASH_METHOD_MD5 => 0 | HASH_METHOD_SHA224 => 1 | HASH_METHOD_SHA256 => 2 | HASH_METHOD_SHA384 => 3
  | HASH_METHOD_SHA512 => 4 | HASH_METHOD_SHA1 => 5 | HASH_METHOD_SHA => 6 | HASH_METHOD_BEST => 7
  | HASH_METHOD_CRYPT => 8 | HASH_METHOD_NONE => 9 end.
(** (HashMethod) i *)
Definition method_of_index (i : nat) : HashMethod :=
  match i with 0 => HASH_METHOD_MD5 | 1 => HASH_METHOD_SHA224 | 2 => HASH_METHOD_SHA256 | 3 => HASH_METHOD_SHA384
  | 4 => HASH_METHOD_SHA512 | 5 => HASH_METHOD_SHA1 | 6 => HASH_METHOD_SHA | 7 => HASH_METHOD_BEST
  | 8 => HASH_METHOD_CRYPT | _ => HASH_METHOD_NONE end.
(** libutils/hash.c:39-51 CF_DIGEST_TYPES; the NULL at the end is None *)
Definition CF_DIGEST_TYPES : list (option (list byte)) :=
  [Some (lit "md5"); Some (lit "sha224"); Some (lit "sha256"); Some (lit "sha384"); Some (lit "sha512"); Some (lit "sha1");
   Some (lit "sha"); Some (lit "best"); Some (lit "crypt"); None].
(** libutils/hash.c:53-65 CF_DIGEST_SIZES, libutils/hash_method.h:48-59 HashSize *)
Definition CF_DIGEST_SIZES : list nat := [16; 28; 32; 48; 64; 20; 20; 0; 64; 0].
Definition EVP_MAX_MD_SIZE : nat := 64.

Definition digest_type (m : HashMethod) : res (list byte) :=
  match nth_error CF_DIGEST_TYPES (method_index m) with Some (Some n) => Ok n | _ => UB end.
Definition digest_size (m : HashMethod) : res nat :=
  match nth_error CF_DIGEST_SIZES (method_index m) with Some n => Ok n | None => UB end.
Definition method_eqb (a b : HashMethod) : bool := method_index a =? method_index b.

(** libutils/hash.c:67-72 Hash *)
Record Hash := mkHash { digest : cells byte; printable : cells byte; hmethod : HashMethod; hsize : nat }.

(** libutils/hash.c:80-86 HashBasicInit *)
Definition HashBasicInit (m : HashMethod) : res Hash :=
  let* size := digest_size m in
  Ok (mkHash (calloc EVP_MAX_MD_SIZE) (calloc (EVP_MAX_MD_SIZE * 4)) m size).

(** the formatted text of printf's %02x *)
Definition hex2 (b : byte) : list byte :=
  [nth (N.to_nat (code b / 16)) hex_chars NUL; nth (N.to_nat (code b mod 16)) hex_chars NUL].
(** strcpy(m, s) *)
Definition mstrcpy (m : cells byte) (s : list byte) : res (cells byte) := acopy m 0 (block s) 0 (S (length s)).
(** libutils/hash.c:88-116 HashCalculatePrintableRepresentation: the loop *)
Fixpoint printable_loop (fuel i : nat) (d m : cells byte) (size : nat) : res (cells byte) :=
  match fuel with
  | O => Fuel
  | S f =>
      if i <? size then
        let* b := aget d i in
        let* ' (m, _) := mvsnprintf m (4 + 2 * i) (EVP_MAX_MD_SIZE * 4 - (4 + 2 * i)) (hex2 b) in
        printable_loop f (S i) d m size
      else Ok m
  end.
(** libutils/hash.c:88-116 HashCalculatePrintableRepresentation *)
Definition HashCalculatePrintableRepresentation (h : Hash) : res Hash :=
  let prefix := match hmethod h with
    | HASH_METHOD_MD5 => lit "MD5="
    | HASH_METHOD_SHA224 | HASH_METHOD_SHA256 | HASH_METHOD_SHA384 | HASH_METHOD_SHA512 | HASH_METHOD_SHA | HASH_METHOD_SHA1 => lit "SHA="
    | _ => lit "UNK=" end in
  let* m := mstrcpy (printable h) prefix in
  let* m := printable_loop (S (hsize h)) 0 (digest h) m (hsize h) in
  let* m := aset m (4 + 2 * hsize h) NUL in
  Ok (mkHash (digest h) m (hmethod h) (hsize h)).

(** libutils/hash.c:363-375 HashIdFromName *)
Fixpoint id_loop (types : list (option (list byte))) (i : nat) (name : option (list byte)) : HashMethod :=
  match types with
  | Some t :: r =>
      if match name with Some n => bytes_eqb n t | None => false end then method_of_index i else id_loop r (S i) name
  | _ => HASH_METHOD_NONE
  end.
Definition HashIdFromName (name : option (list byte)) : HashMethod := id_loop CF_DIGEST_TYPES 0 name.
(** libutils/hash.c:377-381 HashNameFromId; None is NULL *)
Definition HashNameFromId (m : HashMethod) : res (option (list byte)) :=
  if 9 <=? method_index m then Ok None else let* n := digest_type m in Ok (Some n).
(** libutils/hash.c:394-398 HashSizeFromId *)
Definition HashSizeFromId (m : HashMethod) : res nat :=
  if 9 <=? method_index m then Ok 0 else digest_size m.

Section OpenSSL.
  Variable EVP_get_digestbyname : list byte -> option (list byte -> list byte).

  (** EVP_DigestFinal_ex(context, m, &n) *)
  Definition final (md : list byte -> list byte) (collected : list byte) (m : cells byte) : res (cells byte) :=
    let d := md collected in acopy m 0 (map Some d) 0 (length d).
  (** EVP_DigestUpdate(context, m, n): the bytes the context has then collected *)
  Definition update (collected : list byte) (m : cells byte) (n : nat) : res (list byte) :=
    let* bs := read_cells n m in Ok (collected ++ bs).

  (** HashBasicInit, EVP_DigestFinal_ex and HashCalculatePrintableRepresentation: what the
      constructors share *)
  Definition finish (md : list byte -> list byte) (collected : list byte) (m : HashMethod) : res (option Hash) :=
    let* h := HashBasicInit m in
    let* d := final md collected (digest h) in
    let* h := HashCalculatePrintableRepresentation (mkHash d (printable h) (hmethod h) (hsize h)) in
    Ok (Some h).

  (** libutils/hash.c:124-162 HashNew; [data] None is NULL *)
  Definition HashNew (data : option (cells byte)) (length : nat) (m : HashMethod) : res (option Hash) :=
    match data with
    | None => Ok None
    | Some data =>
        if length =? 0 then Ok None
        else if 9 <=? method_index m then Ok None
        else
          let* name := digest_type m in
          match EVP_get_digestbyname name with
          | None => Ok None
          | Some md => let* c := update [] data length in finish md c m
          end
    end.

  (** libutils/hash.c:383-391 HashDigestFromId *)
  Definition HashDigestFromId (m : HashMethod) : res (option (list byte -> list byte)) :=
    let* name := HashNameFromId m in
    match name with None => Ok None | Some n => Ok (EVP_get_digestbyname n) end.

  (** libutils/hash.c:164-212 HashNewFromDescriptor: the reading loop; a failed or interrupted
      read(2) returns -1, and EVP_DigestUpdate is then called with (size_t) -1 bytes *)
  Fixpoint descriptor_loop (rs : list answer) (src : list byte) (collected : list byte) : res (list byte) :=
    match rs with
    | [] => Fuel
    | Eintr :: _ | Fail :: _ => UB
    | Done n :: rs =>
        let bytes := firstn (Nat.min (S n) 1024) src in
        let* buffer := acopy (repeat None 1024) 0 (map Some bytes) 0 (length bytes) in
        let* collected := update collected buffer (length bytes) in
        if 0 <? length bytes then descriptor_loop rs (skipn (length bytes) src) collected else Ok collected
    end.
  (** libutils/hash.c:164-212 HashNewFromDescriptor; [f] None is a negative descriptor *)
  Definition HashNewFromDescriptor (f : option infile) (m : HashMethod) : res (option Hash) :=
    match f with
    | None => Ok None
    | Some f =>
        if 9 <=? method_index m then Ok None
        else
          let* md := HashDigestFromId m in
          match md with
          | None => Ok None
          | Some md => let* c := descriptor_loop (ranswers f) (left_ f) [] in finish md c m
          end
    end.

  (** the public part of an RSA key: modulus and exponent, big-endian without leading zeros;
      None is NULL *)
  Record RSA := mkRSA { rsa_n : option (list byte); rsa_e : option (list byte) }.
  Definition BN_num_bytes (b : option (list byte)) : nat := match b with None => 0 | Some b => length b end.
  (** BN_bn2bin(b, buffer); EVP_DigestUpdate(context, buffer, actlen) with the assertion in
      between *)
  Definition update_bn (collected : list byte) (b : option (list byte)) (buffer : cells byte) (buf_len : nat) : res (list byte * cells byte) :=
    match b with
    | None => UB
    | Some b =>
        let* buffer := acopy buffer 0 (map Some b) 0 (length b) in
        massert (length b <=? buf_len) (let* c := update collected buffer (length b) in Ok (c, buffer))
    end.
  (** an array of zero length is undefined *)
  Definition key_bytes (k : RSA) : res (list byte) :=
    let buf_len := Nat.max (BN_num_bytes (rsa_n k)) (BN_num_bytes (rsa_e k)) in
    if buf_len =? 0 then UB
    else
      let* ' (c, buffer) := update_bn [] (rsa_n k) (repeat None buf_len) buf_len in
      let* ' (c, _) := update_bn c (rsa_e k) buffer buf_len in
      Ok c.
  (** libutils/hash.c:214-282 HashNewFromKey; [k] None is NULL *)
  Definition HashNewFromKey (k : option RSA) (m : HashMethod) : res (option Hash) :=
    match k with
    | None => Ok None
    | Some k =>
        if 9 <=? method_index m then Ok None
        else if Nat.max (BN_num_bytes (rsa_n k)) (BN_num_bytes (rsa_e k)) =? 0 then Ok None
        else
          let* name := digest_type m in
          match EVP_get_digestbyname name with
          | None => Ok None
          | Some md => let* c := key_bytes k in finish md c m
          end
    end.

  (** the array HashFile, HashString and HashPubKey clear *)
  Definition cleared (d : cells byte) : res (cells byte) := mset d NUL (EVP_MAX_MD_SIZE + 1).

  (** libutils/hash.c:400-436 HashFile_Stream: fread gives 1024 bytes at a time, fewer at the end of
      [src], the bytes that can be read (up to the end of the file or a read error) *)
  Fixpoint stream_loop (fuel : nat) (src collected : list byte) : res (list byte) :=
    match fuel with
    | O => Fuel
    | S f =>
        let bytes := firstn 1024 src in
        let* buffer := acopy (repeat None 1024) 0 (map Some bytes) 0 (length bytes) in
        if length bytes =? 0 then Ok collected
        else let* collected := update collected buffer (length bytes) in stream_loop f (skipn (length bytes) src) collected
    end.
  Definition HashFile_Stream (src : list byte) (d : cells byte) (m : HashMethod) : res (cells byte) :=
    let* md := HashDigestFromId m in
    match md with
    | None => Ok d
    | Some md => let* c := stream_loop (S (length src)) src [] in final md c d
    end.
  (** libutils/hash.c:443-474 HashFile; [file] None: it cannot be opened *)
  Definition HashFile (file : option (list byte)) (d : cells byte) (m : HashMethod) : res (cells byte) :=
    let* d := cleared d in
    match file with None => Ok d | Some src => HashFile_Stream src d m end.

  (** libutils/hash.c:478-526 HashString; a negative [len] is left out *)
  Definition HashString (buffer : cells byte) (len : nat) (d : cells byte) (m : HashMethod) : res (cells byte) :=
    massert (negb (method_eqb m HASH_METHOD_CRYPT))
    (let* d := cleared d in
     let* md := HashDigestFromId m in
     match md with
     | None => Ok d
     | Some md => let* c := update [] buffer len in final md c d
     end).

  (** libutils/hash.c:530-590 HashPubKey *)
  Definition HashPubKey (k : RSA) (d : cells byte) (m : HashMethod) : res (cells byte) :=
    massert (negb (method_eqb m HASH_METHOD_CRYPT))
    (let* d := cleared d in
     let* md := HashDigestFromId m in
     match md with
     | None => Ok d
     | Some md => let* c := key_bytes k in final md c d
     end).

  (** libutils/hash.c:662-713 StringCopyTruncateAndHashIfNecessary: the loop over the digest,
      [at] is hash_start *)
  Fixpoint lookup_loop (k i : nat) (d dst : cells byte) (pos : nat) : res (cells byte) :=
    match k with
    | O => Ok dst
    | S k =>
        let* b := aget d i in
        let* h := chr hex_chars (N.to_nat (N.shiftr (code b) 4)) in
        let* dst := aset dst (pos + i * 2) h in
        let* h := chr hex_chars (N.to_nat (N.land (code b) 15)) in
        let* dst := aset dst (pos + (i * 2 + 1)) h in
        lookup_loop k (S i) d dst pos
    end.
  (** libutils/hash.c:662-713 StringCopyTruncateAndHashIfNecessary *)
  Definition StringCopyTruncateAndHashIfNecessary (src : list byte) (dst : cells byte) (dst_size : nat) : res (cells byte * nat) :=
    massert (32 + 5 <? dst_size)
    (let* ' (dst, length_) := StringCopy src dst dst_size in
     if length_ <? dst_size then Ok (dst, length_)
     else
       massert (length_ =? dst_size)
       (let md5_prefix := lit "#MD5=" in
        let md5_prefix_length := length md5_prefix in
        let md5_hex_length := 32 in
        let md5_string_length := md5_hex_length + md5_prefix_length in
        massert (md5_string_length <? dst_size)
        (let* digest := HashString (block src) (length src) (repeat None (EVP_MAX_MD_SIZE + 1)) HASH_METHOD_MD5 in
         let terminator := dst_size - 1 in
         let* t := aget dst terminator in
         massert (beq t NUL && (md5_string_length <=? terminator))
         (let hash_prefix_start := terminator - md5_string_length in
          let hash_start := hash_prefix_start + md5_prefix_length in
          let* dst := acopy dst hash_prefix_start (block md5_prefix) 0 md5_prefix_length in
          let* dst := lookup_loop (md5_hex_length / 2) 0 digest dst hash_start in
          let* t := aget dst (hash_start + md5_hex_length) in
          massert (beq t NUL && (hash_start + md5_hex_length =? terminator)) (Ok (dst, dst_size)))))).
End OpenSSL.

(** libutils/hash.c:294-306 HashCopy with non-NULL arguments *)
Definition HashCopy (origin : Hash) : res Hash :=
  let* d := acopy (repeat None EVP_MAX_MD_SIZE) 0 (digest origin) 0 (hsize origin) in
  let* s := mstr (printable origin) in
  let* ' (p, _) := strlcpy (repeat None (EVP_MAX_MD_SIZE * 4)) s (EVP_MAX_MD_SIZE * 4) in
  Ok (mkHash d p (hmethod origin) (hsize origin)).

(** libutils/hash.c:308-335 HashEqual, the loop; the memcmp of libutils/hash.c:594-606 HashesMatch
    compared with 0 is the same *)
Fixpoint equal_loop (k i : nat) (a b : cells byte) : res bool :=
  match k with
  | O => Ok true
  | S k => let* x := aget a i in let* y := aget b i in if beq x y then equal_loop k (S i) a b else Ok false
  end.
(** libutils/hash.c:308-335 HashEqual *)
Definition HashEqual (a b : option Hash) : res bool :=
  match a, b with
  | None, None => Ok true
  | None, Some _ | Some _, None => Ok false
  | Some a, Some b =>
      if negb (method_eqb (hmethod a) (hmethod b)) then Ok false
      else equal_loop (hsize a) 0 (digest a) (digest b)
  end.
(** libutils/hash.c:337-345 HashData: the bytes behind the pointer and *length *)
Definition HashData (h : option Hash) : res (option (list byte)) :=
  match h with None => Ok None | Some h => let* d := read_cells (hsize h) (digest h) in Ok (Some d) end.
(** libutils/hash.c:347-350 HashPrintable, libutils/hash.c:352-355 HashType, libutils/hash.c:357-360 HashLength *)
Definition HashPrintable (h : option Hash) : option (cells byte) := match h with Some h => Some (printable h) | None => None end.
Definition HashType (h : option Hash) : HashMethod := match h with Some h => hmethod h | None => HASH_METHOD_NONE end.
Definition HashLength (h : option Hash) : nat := match h with Some h => hsize h | None => 0 end.

(** libutils/hash.c:594-606 HashesMatch *)
Definition HashesMatch (d1 d2 : cells byte) (m : HashMethod) : res bool :=
  let* size := HashSizeFromId m in
  if size <=? 0 then Ok false else equal_loop size 0 d1 d2.

(** libutils/hash.c:612-647 HashPrintSafe: the destination *)
Definition HashPrintSafe (dst : cells byte) (dst_size : nat) (d : cells byte) (m : HashMethod) (use_prefix : bool) : res (cells byte) :=
  let prefix := if use_prefix then match m with HASH_METHOD_MD5 => lit "MD5=" | _ => lit "SHA=" end else [] in
  let dst_len := Nat.min (predw dst_size) (length prefix) in
  let* dst := acopy dst 0 (block prefix) 0 dst_len in
  let* digest_len := HashSizeFromId m in
  massert (length prefix + digest_len * 2 + 1 <=? dst_size)
  (let* bytes := read_cells digest_len d in
   let* ' (tail, ret) := StringBytesToHex (skipn dst_len dst) (dst_size - dst_len) bytes digest_len in
   massert (ret =? 2 * digest_len) (Ok (firstn dst_len dst ++ tail))).

(** libutils/hash.c:650-660 SkipHashType: the offset of the returned pointer *)
Definition SkipHashType (hash : list byte) : nat :=
  if prefixb (lit "MD5=") hash || prefixb (lit "SHA=") hash then 4 else 0.
