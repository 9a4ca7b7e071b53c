(** Model of libutils/libcrypto-compat.c, the part for OpenSSL before 1.1: keys and signatures that own their numbers, methods that own their
    names.  Left out: EVP_CIPHER_CTX_iv, EVP_CIPHER_CTX_iv_noconst, RSA_bits (they return a field), RAND_screen (does nothing). *)
From Verif Require Import Prelude Str.
Set Implicit Arguments.

(** a pointer to a BIGNUM; the numbers that are allocated *)
Definition ptr := option nat.
Definition null (p : ptr) : bool := match p with None => true | Some _ => false end.
(** BN_free, BN_clear_free of OpenSSL *)
Definition BN_free (live : list nat) (p : ptr) : res (list nat) :=
  match p with
  | None => Ok live
  | Some a => if existsb (Nat.eqb a) live then Ok (filter (fun b => negb (b =? a)) live) else UB
  end.

Record RSA := mkRSA { rsa_n : ptr; rsa_e : ptr; rsa_d : ptr; rsa_p : ptr; rsa_q : ptr; rsa_dmp1 : ptr; rsa_dmq1 : ptr; rsa_iqmp : ptr }.
Record DSA := mkDSA { dsa_p : ptr; dsa_q : ptr; dsa_g : ptr; dsa_pub_key : ptr; dsa_priv_key : ptr }.
Record SIG := mkSIG { sig_r : ptr; sig_s : ptr }.
Record DH := mkDH { dh_p : ptr; dh_q : ptr; dh_g : ptr; dh_pub_key : ptr; dh_priv_key : ptr; dh_length : Z }.

(** libutils/libcrypto-compat.c:30-54 RSA_set0_key; false is 0 *)
Definition RSA_set0_key (r : RSA) (n e d : ptr) (live : list nat) : res (bool * RSA * list nat) :=
  if (null (rsa_n r) && null n) || (null (rsa_e r) && null e) then Ok (false, r, live)
  else
    let* ' (r, live) := if negb (null n) then let* live := BN_free live (rsa_n r) in
        Ok (mkRSA n (rsa_e r) (rsa_d r) (rsa_p r) (rsa_q r) (rsa_dmp1 r) (rsa_dmq1 r) (rsa_iqmp r), live) else Ok (r, live) in
    let* ' (r, live) := if negb (null e) then let* live := BN_free live (rsa_e r) in
        Ok (mkRSA (rsa_n r) e (rsa_d r) (rsa_p r) (rsa_q r) (rsa_dmp1 r) (rsa_dmq1 r) (rsa_iqmp r), live) else Ok (r, live) in
    let* ' (r, live) := if negb (null d) then let* live := BN_free live (rsa_d r) in
        Ok (mkRSA (rsa_n r) (rsa_e r) d (rsa_p r) (rsa_q r) (rsa_dmp1 r) (rsa_dmq1 r) (rsa_iqmp r), live) else Ok (r, live) in
    Ok (true, r, live).
(** libutils/libcrypto-compat.c:56-75 RSA_set0_factors *)
Definition RSA_set0_factors (r : RSA) (p q : ptr) (live : list nat) : res (bool * RSA * list nat) :=
  if (null (rsa_p r) && null p) || (null (rsa_q r) && null q) then Ok (false, r, live)
  else
    let* ' (r, live) := if negb (null p) then let* live := BN_free live (rsa_p r) in
        Ok (mkRSA (rsa_n r) (rsa_e r) (rsa_d r) p (rsa_q r) (rsa_dmp1 r) (rsa_dmq1 r) (rsa_iqmp r), live) else Ok (r, live) in
    let* ' (r, live) := if negb (null q) then let* live := BN_free live (rsa_q r) in
        Ok (mkRSA (rsa_n r) (rsa_e r) (rsa_d r) (rsa_p r) q (rsa_dmp1 r) (rsa_dmq1 r) (rsa_iqmp r), live) else Ok (r, live) in
    Ok (true, r, live).
(** libutils/libcrypto-compat.c:77-101 RSA_set0_crt_params *)
Definition RSA_set0_crt_params (r : RSA) (dmp1 dmq1 iqmp : ptr) (live : list nat) : res (bool * RSA * list nat) :=
  if (null (rsa_dmp1 r) && null dmp1) || (null (rsa_dmq1 r) && null dmq1) || (null (rsa_iqmp r) && null iqmp) then Ok (false, r, live)
  else
    let* ' (r, live) := if negb (null dmp1) then let* live := BN_free live (rsa_dmp1 r) in
        Ok (mkRSA (rsa_n r) (rsa_e r) (rsa_d r) (rsa_p r) (rsa_q r) dmp1 (rsa_dmq1 r) (rsa_iqmp r), live) else Ok (r, live) in
    let* ' (r, live) := if negb (null dmq1) then let* live := BN_free live (rsa_dmq1 r) in
        Ok (mkRSA (rsa_n r) (rsa_e r) (rsa_d r) (rsa_p r) (rsa_q r) (rsa_dmp1 r) dmq1 (rsa_iqmp r), live) else Ok (r, live) in
    let* ' (r, live) := if negb (null iqmp) then let* live := BN_free live (rsa_iqmp r) in
        Ok (mkRSA (rsa_n r) (rsa_e r) (rsa_d r) (rsa_p r) (rsa_q r) (rsa_dmp1 r) (rsa_dmq1 r) iqmp, live) else Ok (r, live) in
    Ok (true, r, live).
(** libutils/libcrypto-compat.c:145-169 DSA_set0_pqg *)
Definition DSA_set0_pqg (d : DSA) (p q g : ptr) (live : list nat) : res (bool * DSA * list nat) :=
  if (null (dsa_p d) && null p) || (null (dsa_q d) && null q) || (null (dsa_g d) && null g) then Ok (false, d, live)
  else
    let* ' (d, live) := if negb (null p) then let* live := BN_free live (dsa_p d) in Ok (mkDSA p (dsa_q d) (dsa_g d) (dsa_pub_key d) (dsa_priv_key d), live) else Ok (d, live) in
    let* ' (d, live) := if negb (null q) then let* live := BN_free live (dsa_q d) in Ok (mkDSA (dsa_p d) q (dsa_g d) (dsa_pub_key d) (dsa_priv_key d), live) else Ok (d, live) in
    let* ' (d, live) := if negb (null g) then let* live := BN_free live (dsa_g d) in Ok (mkDSA (dsa_p d) (dsa_q d) g (dsa_pub_key d) (dsa_priv_key d), live) else Ok (d, live) in
    Ok (true, d, live).
(** libutils/libcrypto-compat.c:180-199 DSA_set0_key *)
Definition DSA_set0_key (d : DSA) (pub_key priv_key : ptr) (live : list nat) : res (bool * DSA * list nat) :=
  if null (dsa_pub_key d) && null pub_key then Ok (false, d, live)
  else
    let* ' (d, live) := if negb (null pub_key) then let* live := BN_free live (dsa_pub_key d) in Ok (mkDSA (dsa_p d) (dsa_q d) (dsa_g d) pub_key (dsa_priv_key d), live) else Ok (d, live) in
    let* ' (d, live) := if negb (null priv_key) then let* live := BN_free live (dsa_priv_key d) in Ok (mkDSA (dsa_p d) (dsa_q d) (dsa_g d) (dsa_pub_key d) priv_key, live) else Ok (d, live) in
    Ok (true, d, live).
(** libutils/libcrypto-compat.c:209-218 DSA_SIG_set0, and libutils/libcrypto-compat.c:228-237 ECDSA_SIG_set0, which has the same text *)
Definition SIG_set0 (sig : SIG) (r s : ptr) (live : list nat) : res (bool * SIG * list nat) :=
  if null r || null s then Ok (false, sig, live)
  else
    let* live := BN_free live (sig_r sig) in
    let* live := BN_free live (sig_s sig) in
    Ok (true, mkSIG r s, live).
Section DH.
  (** BN_num_bits *)
  Variable num_bits : nat -> Z.
  (** libutils/libcrypto-compat.c:250-277 DH_set0_pqg *)
  Definition DH_set0_pqg (d : DH) (p q g : ptr) (live : list nat) : res (bool * DH * list nat) :=
    if (null (dh_p d) && null p) || (null (dh_g d) && null g) then Ok (false, d, live)
    else
      let* ' (d, live) := if negb (null p) then let* live := BN_free live (dh_p d) in Ok (mkDH p (dh_q d) (dh_g d) (dh_pub_key d) (dh_priv_key d) (dh_length d), live) else Ok (d, live) in
      let* ' (d, live) := if negb (null q) then let* live := BN_free live (dh_q d) in Ok (mkDH (dh_p d) q (dh_g d) (dh_pub_key d) (dh_priv_key d) (dh_length d), live) else Ok (d, live) in
      let* ' (d, live) := if negb (null g) then let* live := BN_free live (dh_g d) in Ok (mkDH (dh_p d) (dh_q d) g (dh_pub_key d) (dh_priv_key d) (dh_length d), live) else Ok (d, live) in
      let* d := match q with
                | Some a => if existsb (Nat.eqb a) live then Ok (mkDH (dh_p d) (dh_q d) (dh_g d) (dh_pub_key d) (dh_priv_key d) (num_bits a)) else UB
                | None => Ok d
                end in
      Ok (true, d, live).
  (** libutils/libcrypto-compat.c:287-306 DH_set0_key *)
  Definition DH_set0_key (d : DH) (pub_key priv_key : ptr) (live : list nat) : res (bool * DH * list nat) :=
    if null (dh_pub_key d) && null pub_key then Ok (false, d, live)
    else
      let* ' (d, live) := if negb (null pub_key) then let* live := BN_free live (dh_pub_key d) in Ok (mkDH (dh_p d) (dh_q d) (dh_g d) pub_key (dh_priv_key d) (dh_length d), live) else Ok (d, live) in
      let* ' (d, live) := if negb (null priv_key) then let* live := BN_free live (dh_priv_key d) in Ok (mkDH (dh_p d) (dh_q d) (dh_g d) (dh_pub_key d) priv_key (dh_length d), live) else Ok (d, live) in
      Ok (true, d, live).
  (** libutils/libcrypto-compat.c:308-312 DH_set_length *)
  Definition DH_set_length (d : DH) (length : Z) : DH := mkDH (dh_p d) (dh_q d) (dh_g d) (dh_pub_key d) (dh_priv_key d) length.
End DH.
(** the get0 functions store the field where a place is given: libutils/libcrypto-compat.c:103-112 RSA_get0_key, :? RSA_get0_factors,
    :? RSA_get0_crt_params, :? DSA_get0_pqg, :? DSA_get0_key, :? DSA_SIG_get0, :? ECDSA_SIG_get0, :? DH_get0_pqg, :? DH_get0_key; a place is
    Some (what is there) or NULL *)
Definition store (place : option ptr) (field : ptr) : option ptr := match place with Some _ => Some field | None => None end.
Definition RSA_get0_key (r : RSA) (n e d : option ptr) := (store n (rsa_n r), store e (rsa_e r), store d (rsa_d r)).
Definition RSA_get0_factors (r : RSA) (p q : option ptr) := (store p (rsa_p r), store q (rsa_q r)).
Definition RSA_get0_crt_params (r : RSA) (a b c : option ptr) := (store a (rsa_dmp1 r), store b (rsa_dmq1 r), store c (rsa_iqmp r)).
Definition DSA_get0_pqg (d : DSA) (p q g : option ptr) := (store p (dsa_p d), store q (dsa_q d), store g (dsa_g d)).
Definition DSA_get0_key (d : DSA) (p q : option ptr) := (store p (dsa_pub_key d), store q (dsa_priv_key d)).
Definition SIG_get0 (d : SIG) (p q : option ptr) := (store p (sig_r d), store q (sig_s d)).
Definition DH_get0_pqg (d : DH) (p q g : option ptr) := (store p (dh_p d), store q (dh_q d), store g (dh_g d)).
Definition DH_get0_key (d : DH) (p q : option ptr) := (store p (dh_pub_key d), store q (dh_priv_key d)).

(** ** RSA_METHOD: memory blocks that hold a method (the address of its name, its functions) or a text *)
Record METHOD := mkMETHOD { meth_name : nat; meth_priv_enc : nat; meth_priv_dec : nat; meth_finish : nat; meth_other : nat }.
Inductive object := OText (t : list byte) | OMethod (m : METHOD).
Definition mheap := list (nat * object).
Definition lookup (h : mheap) (a : nat) : res object :=
  match find (fun x => fst x =? a) h with Some (_, o) => Ok o | None => UB end.
Definition text_at (h : mheap) (a : nat) : res (list byte) := let* o := lookup h a in match o with OText t => Ok t | _ => UB end.
Definition method_at (h : mheap) (a : nat) : res METHOD := let* o := lookup h a in match o with OMethod m => Ok m | _ => UB end.
Definition mfree (h : mheap) (a : nat) : res mheap := let* _ := lookup h a in Ok (filter (fun x => negb (fst x =? a)) h).
Definition mstore (h : mheap) (a : nat) (o : object) : res mheap := let* _ := lookup h a in Ok (map (fun x => if fst x =? a then (a, o) else x) h).
Definition fresh (h : mheap) : nat := S (fold_right Nat.max 0 (map fst h)).
(** OPENSSL_malloc / OPENSSL_strdup with what is put into the block; [ok]: whether it succeeds *)
Definition malloc (h : mheap) (ok : bool) (o : object) : option nat * mheap := if ok then (Some (fresh h), (fresh h, o) :: h) else (None, h).
(** libutils/libcrypto-compat.c:335-351 RSA_meth_dup *)
Definition RSA_meth_dup (h : mheap) (meth : nat) (ok1 ok2 : bool) : res (option nat * mheap) :=
  let* m := method_at h meth in
  let '(ret, h) := malloc h ok1 (OMethod m) in
  match ret with
  | None => Ok (None, h)
  | Some ret =>
      let* m := method_at h meth in
      let* t := text_at h (meth_name m) in
      let '(name, h) := malloc h ok2 (OText t) in
      match name with
      | None => let* h := mfree h ret in Ok (None, h)
      | Some name => let* r := method_at h ret in
                     let* h := mstore h ret (OMethod (mkMETHOD name (meth_priv_enc r) (meth_priv_dec r) (meth_finish r) (meth_other r))) in
                     Ok (Some ret, h)
      end
  end.
(** libutils/libcrypto-compat.c:353-366 RSA_meth_set1_name; [name] is the address of a text *)
Definition RSA_meth_set1_name (h : mheap) (meth name : nat) (ok : bool) : res (bool * mheap) :=
  let* t := text_at h name in
  let '(tmpname, h) := malloc h ok (OText t) in
  match tmpname with
  | None => Ok (false, h)
  | Some tmpname =>
      let* m := method_at h meth in
      let* h := mfree h (meth_name m) in
      let* h := mstore h meth (OMethod (mkMETHOD tmpname (meth_priv_enc m) (meth_priv_dec m) (meth_finish m) (meth_other m))) in
      Ok (true, h)
  end.
(** libutils/libcrypto-compat.c:368-375 RSA_meth_set_priv_enc, :? RSA_meth_set_priv_dec, :? RSA_meth_set_finish *)
Definition RSA_meth_set_priv_enc (h : mheap) (meth f : nat) : res mheap :=
  let* m := method_at h meth in mstore h meth (OMethod (mkMETHOD (meth_name m) f (meth_priv_dec m) (meth_finish m) (meth_other m))).
Definition RSA_meth_set_priv_dec (h : mheap) (meth f : nat) : res mheap :=
  let* m := method_at h meth in mstore h meth (OMethod (mkMETHOD (meth_name m) (meth_priv_enc m) f (meth_finish m) (meth_other m))).
Definition RSA_meth_set_finish (h : mheap) (meth f : nat) : res mheap :=
  let* m := method_at h meth in mstore h meth (OMethod (mkMETHOD (meth_name m) (meth_priv_enc m) (meth_priv_dec m) f (meth_other m))).
(** libutils/libcrypto-compat.c:392-398 RSA_meth_free *)
Definition RSA_meth_free (h : mheap) (meth : option nat) : res mheap :=
  match meth with
  | None => Ok h
  | Some a => let* m := method_at h a in let* h := mfree h (meth_name m) in mfree h a
  end.
