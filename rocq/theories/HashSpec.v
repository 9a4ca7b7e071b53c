(** What the functions of hash.h promise. *)
From Verif Require Import Prelude Str Libc MemSpec EditSpec HashModel.
Set Implicit Arguments.

(** the digest algorithms: the name OpenSSL knows each by and the number of bytes it gives *)
Definition algorithm (m : HashMethod) : option (list byte * nat) :=
  match m with
  | HASH_METHOD_MD5 => Some (lit "md5", 16)
  | HASH_METHOD_SHA224 => Some (lit "sha224", 28)
  | HASH_METHOD_SHA256 => Some (lit "sha256", 32)
  | HASH_METHOD_SHA384 => Some (lit "sha384", 48)
  | HASH_METHOD_SHA512 => Some (lit "sha512", 64)
  | HASH_METHOD_SHA1 => Some (lit "sha1", 20)
  | HASH_METHOD_SHA => Some (lit "sha", 20)
  | HASH_METHOD_BEST | HASH_METHOD_CRYPT | HASH_METHOD_NONE => None
  end.
(** OpenSSL as it is: every algorithm it provides under one of these names gives digests of
    the size of that algorithm (it may provide fewer), and none is called best or crypt *)
Definition openssl (db : list byte -> option (list byte -> list byte)) : Prop :=
  (forall m name size f, algorithm m = Some (name, size) -> db name = Some f -> forall data, length (f data) = size) /\
  db (lit "best") = None /\ db (lit "crypt") = None.
(** method [m] is usable and computes [f] *)
Definition provides (db : list byte -> option (list byte -> list byte)) (m : HashMethod) (f : list byte -> list byte) : Prop :=
  exists name size, algorithm m = Some (name, size) /\ db name = Some f.

Definition type_prefix (m : HashMethod) : list byte := match m with HASH_METHOD_MD5 => lit "MD5=" | _ => lit "SHA=" end.
(** [h] is a hash object made with method [m] whose digest is [d] *)
Definition is_hash (h : Hash) (m : HashMethod) (d : list byte) : Prop :=
  HashType (Some h) = m /\ HashLength (Some h) = length d /\ HashData (Some h) = Ok (Some d) /\
  holds (printable h) (type_prefix m ++ hex d).
