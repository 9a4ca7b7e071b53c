(** Model of libutils/array_map.c, hash_map.c, map.c and the generic part of
    set.c.  No proofs here. *)
From Verif Require Import Prelude MiscModel.
Set Implicit Arguments.

Section Map.
(** keys and values are non-NULL pointers *)
Variables K V : Type.
(** MapKeyEqualFn and MapHashFn with seed 0 (map_common.h) *)
Variable equal : K -> K -> bool.
Variable hash : K -> N.
Notation kv := (K * V)%type.

(** ghost: calls of the destroy callbacks, in order *)
Inductive ev := DKey (k : K) | DVal (v : V).
Definition destroy_kv (e : kv) : list ev := [DKey (fst e); DVal (snd e)].

(** *** array_map.c *)
(** array_map.c:30 *)
Definition TINY_LIMIT : nat := 14.

(** struct ArrayMap (array_map_priv.h:30-37) *)
Record amap := mkA { avals : cells kv; asize : nat }.

(** array_map.c:32-42 ArrayMapNew *)
Definition ArrayMapNew : amap := mkA (repeat None TINY_LIMIT) 0.

(** the search loop shared by array_map.c:44-68 ArrayMapInsert,
    array_map.c:70-87 ArrayMapRemove and array_map.c:89-99 ArrayMapGet *)
Fixpoint afind (d : cells kv) (key : K) (i n : nat) : res (option (nat * kv)) :=
  match n with
  | O => Ok None
  | S n' => let* e := aget d i in
            if equal (fst e) key then Ok (Some (i, e)) else afind d key (S i) n'
  end.

(** array_map.c:44-68 ArrayMapInsert: 0 = full, 1 = replaced, 2 = inserted *)
Definition ArrayMapInsert (m : amap) (key : K) (value : V) : res (amap * nat * list ev) :=
  if asize m =? TINY_LIMIT then Ok (m, 0, [])
  else
    let* r := afind (avals m) key 0 (asize m) in
    match r with
    | Some (i, old) =>
        let* d := aset (avals m) i (key, value) in
        Ok (mkA d (asize m), 1, destroy_kv old)
    | None =>
        let* d := aset (avals m) (asize m) (key, value) in
        Ok (mkA d (S (asize m)), 2, [])
    end.

(** array_map.c:70-87 ArrayMapRemove *)
Definition ArrayMapRemove (m : amap) (key : K) : res (amap * bool * list ev) :=
  let* r := afind (avals m) key 0 (asize m) in
  match r with
  | Some (i, old) =>
      let* d := amove (avals m) i (i + 1) (asize m - i - 1) in
      Ok (mkA d (asize m - 1), true, destroy_kv old)
  | None => Ok (m, false, [])
  end.

(** array_map.c:89-99 ArrayMapGet *)
Definition ArrayMapGet (m : amap) (key : K) : res (option kv) :=
  let* r := afind (avals m) key 0 (asize m) in Ok (option_map snd r).

(** loop of array_map.c:101-109 ArrayMapClear *)
Fixpoint aclear_loop (d : cells kv) (i n : nat) : res (list ev) :=
  match n with
  | O => Ok []
  | S n' => let* e := aget d i in
            let* r := aclear_loop d (S i) n' in Ok (destroy_kv e ++ r)
  end.
Definition ArrayMapClear (m : amap) : res (amap * list ev) :=
  let* l := aclear_loop (avals m) 0 (asize m) in Ok (mkA (avals m) 0, l).

(** array_map.c:111-124 ArrayMapSoftDestroy: keys only *)
Fixpoint asoft_loop (d : cells kv) (i n : nat) : res (list ev) :=
  match n with
  | O => Ok []
  | S n' => let* e := aget d i in
            let* r := asoft_loop d (S i) n' in Ok (DKey (fst e) :: r)
  end.
Definition ArrayMapSoftDestroy (m : amap) : res (list ev) :=
  asoft_loop (avals m) 0 (asize m).

(** array_map.c:126-134 ArrayMapDestroy *)
Definition ArrayMapDestroy (m : amap) : res (list ev) :=
  let* ' (_, l) := ArrayMapClear m in Ok l.

(** *** hash_map.c *)
(** hash_map.c:30-31 *)
Definition MAX_HASHMAP_BUCKETS : N := 1073741824.
Definition MIN_HASHMAP_BUCKETS : N := 32.

(** struct HashMap (hash_map_priv.h:38-50).  A BucketListItem chain is the
    list of its entries, head first. *)
Record hmap := mkH {
  hbuckets : cells (list kv);
  hsize : N;
  hinit : N;
  hload : N;
  hmax : N;
  hmin : N
}.

(** (size_t) size * 0.75 and (size_t) size * 0.35 converted back to size_t
    (hash_map.c:32-33): exact floors for the powers of two used here. *)
Definition max_thr (size : N) : N := (size * 3 / 4)%N.
Definition min_thr (size : N) : N := (size * 35 / 100)%N.

(** hash_map.c:35-64 HashMapNew *)
Definition HashMapNew (init_size : N) : hmap :=
  let i := N.min (N.max init_size MIN_HASHMAP_BUCKETS) MAX_HASHMAP_BUCKETS in
  let size := if ISPOW2 i then i else UpperPowerOfTwo i in
  mkH (repeat (Some []) (N.to_nat size)) size size 0 (max_thr size) (min_thr size).

(** hash_map.c:66-72 HashMapGetBucket, for a table of [size] buckets *)
Definition GetBucket (size : N) (key : K) : res nat :=
  massert (ISPOW2 size) (Ok (N.to_nat (N.land (hash key) (size - 1)))).

(** inner while loop of hash_map.c:74-104 HashMapResize *)
Fixpoint rehash_chain (size : N) (bs : cells (list kv)) (chain : list kv)
  : res (cells (list kv)) :=
  match chain with
  | [] => Ok bs
  | item :: next =>
      let* b := GetBucket size (fst item) in
      let* head := aget bs b in
      let* bs := aset bs b (item :: head) in
      rehash_chain size bs next
  end.

(** outer loop of hash_map.c:74-104 HashMapResize, [n] iterations from [i] *)
Fixpoint rehash_loop (size : N) (old bs : cells (list kv)) (i n : nat)
  : res (cells (list kv)) :=
  match n with
  | O => Ok bs
  | S n' =>
      let* chain := aget old i in
      let* bs := rehash_chain size bs chain in
      rehash_loop size old bs (S i) n'
  end.

(** hash_map.c:74-104 HashMapResize *)
Definition HashMapResize (h : hmap) (new_size : N) : res hmap :=
  let* bs := rehash_loop new_size (hbuckets h)
               (repeat (Some []) (N.to_nat new_size)) 0 (N.to_nat (hsize h)) in
  Ok (mkH bs new_size (hinit h) (hload h) (max_thr new_size) (min_thr new_size)).

(** load-- on a size_t.  (load++ is not wrapped: 2^64 entries cannot exist.) *)
Definition dec64 (n : N) : N := if (n =? 0)%N then (two64 - 1)%N else (n - 1)%N.

(** walk of hash_map.c:109-140 HashMapInsert along a chain: the chain with the first
    equal entry replaced, and the entry that was there *)
Fixpoint chain_replace (c : list kv) (key : K) (value : V) : option (list kv * kv) :=
  match c with
  | [] => None
  | e :: t =>
      if equal (fst e) key then Some ((key, value) :: t, e)
      else match chain_replace t key value with
           | None => None
           | Some (t', old) => Some (e :: t', old)
           end
  end.

(** hash_map.c:109-140 HashMapInsert *)
Definition HashMapInsert (h : hmap) (key : K) (value : V) : res (hmap * bool * list ev) :=
  let* b := GetBucket (hsize h) key in
  let* c := aget (hbuckets h) b in
  match chain_replace c key value with
  | Some (c', old) =>
      let* bs := aset (hbuckets h) b c' in
      Ok (mkH bs (hsize h) (hinit h) (hload h) (hmax h) (hmin h), true, destroy_kv old)
  | None =>
      let* bs := aset (hbuckets h) b ((key, value) :: c) in
      let h := mkH bs (hsize h) (hinit h) (hload h + 1) (hmax h) (hmin h) in
      let* h := (if ((hmax h <? hload h) && (hsize h <? MAX_HASHMAP_BUCKETS))%N
                 then HashMapResize h (N.shiftl (hsize h) 1) else Ok h) in
      Ok (h, false, [])
  end.

(** walk of hash_map.c:142-173 HashMapRemove along a chain *)
Fixpoint chain_remove (c : list kv) (key : K) : option (list kv * kv) :=
  match c with
  | [] => None
  | e :: t =>
      if equal (fst e) key then Some (t, e)
      else match chain_remove t key with
           | None => None
           | Some (t', old) => Some (e :: t', old)
           end
  end.

(** hash_map.c:142-173 HashMapRemove (load-- wraps at 0) *)
Definition HashMapRemove (h : hmap) (key : K) : res (hmap * bool * list ev) :=
  let* b := GetBucket (hsize h) key in
  let* c := aget (hbuckets h) b in
  match chain_remove c key with
  | Some (c', old) =>
      let* bs := aset (hbuckets h) b c' in
      let h := mkH bs (hsize h) (hinit h) (dec64 (hload h)) (hmax h) (hmin h) in
      let* h := (if ((hload h <? hmin h) && (hinit h <? hsize h))%N
                 then HashMapResize h (N.shiftr (hsize h) 1) else Ok h) in
      Ok (h, true, destroy_kv old)
  | None => Ok (h, false, [])
  end.

(** hash_map.c:175-190 HashMapGet *)
Definition HashMapGet (h : hmap) (key : K) : res (option kv) :=
  let* b := GetBucket (hsize h) key in
  let* c := aget (hbuckets h) b in
  Ok (find (fun e => equal (fst e) key) c).

(** hash_map.c:192-203 FreeBucketListItem: the tail of the chain first *)
Fixpoint FreeChain (c : list kv) : list ev :=
  match c with [] => [] | e :: t => FreeChain t ++ destroy_kv e end.
(** hash_map.c:206-216 FreeBucketListItemSoft *)
Fixpoint FreeChainSoft (c : list kv) : list ev :=
  match c with [] => [] | e :: t => FreeChainSoft t ++ [DKey (fst e)] end.

(** loop of hash_map.c:218-229 HashMapClear (and HashMapSoftDestroy): buckets set to
    NULL, load decremented once per entry *)
Fixpoint hclear_loop (free : list kv -> list ev) (bs : cells (list kv)) (load : N)
         (i n : nat) : res (cells (list kv) * N * list ev) :=
  match n with
  | O => Ok (bs, load, [])
  | S n' =>
      let* c := aget bs i in
      let* bs := aset bs i [] in
      let load := Nat.iter (length c) dec64 load in
      let* ' (bs, load, l) := hclear_loop free bs load (S i) n' in
      Ok (bs, load, free c ++ l)
  end.

(** hash_map.c:218-229 HashMapClear *)
Definition HashMapClear (h : hmap) : res (hmap * list ev) :=
  let* ' (bs, load, l) := hclear_loop FreeChain (hbuckets h) (hload h) 0 (N.to_nat (hsize h)) in
  massert (load =? 0)%N
   (Ok (mkH bs (hsize h) (hinit h) load (hmax h) (hmin h), l)).

(** hash_map.c:231-247 HashMapSoftDestroy *)
Definition HashMapSoftDestroy (h : hmap) : res (list ev) :=
  let* ' (_, l) := hclear_loop FreeChainSoft (hbuckets h) (hload h) 0 (N.to_nat (hsize h)) in
  Ok l.

(** hash_map.c:249-257 HashMapDestroy *)
Definition HashMapDestroy (h : hmap) : res (list ev) :=
  let* ' (_, l) := HashMapClear h in Ok l.

(** struct HashMapIterator (hash_map_priv.h:52-57) *)
Record hiter := mkHI { icur : list kv; ibucket : nat }.

(** hash_map.c:308-311 HashMapIteratorInit *)
Definition HashMapIteratorInit (h : hmap) : res hiter :=
  let* c := aget (hbuckets h) 0 in Ok (mkHI c 0).

(** hash_map.c:313-328 HashMapIteratorNext; [None] is the NULL result *)
Fixpoint HashMapIteratorNext (fuel : nat) (h : hmap) (it : hiter)
  : res (option (kv * hiter)) :=
  match icur it with
  | e :: t => Ok (Some (e, mkHI t (ibucket it)))
  | [] =>
      match fuel with
      | O => Fuel
      | S f =>
          let b := S (ibucket it) in
          if (hsize h <=? N.of_nat b)%N then Ok None
          else let* c := aget (hbuckets h) b in
               HashMapIteratorNext f h (mkHI c b)
      end
  end.

(** *** map.c *)
(** map.c:43 *)
Definition DEFAULT_HASHMAP_INIT_SIZE : N := 128.

(** struct Map_ (map.c:45-54): the union, discriminated by hash_fn != NULL *)
Inductive map_t := MArr (a : amap) | MHash (h : hmap).

(** map.c:81-110 MapNew *)
Definition MapNew : map_t := MArr ArrayMapNew.

(** map.c:134-159 ConvertToHashMap: insertion loop *)
Fixpoint convert_loop (h : hmap) (d : cells kv) (i n : nat) : res (hmap * list ev) :=
  match n with
  | O => Ok (h, [])
  | S n' =>
      let* e := aget d i in
      let* ' (h, _, l) := HashMapInsert h (fst e) (snd e) in
      let* ' (h, l') := convert_loop h d (S i) n' in
      Ok (h, l ++ l')
  end.
Definition ConvertToHashMap (a : amap) : res (hmap * list ev) :=
  convert_loop (HashMapNew DEFAULT_HASHMAP_INIT_SIZE) (avals a) 0 (asize a).

(** map.c:161-183 MapInsert: true iff an entry was replaced *)
Definition MapInsert (m : map_t) (key : K) (value : V) : res (map_t * bool * list ev) :=
  match m with
  | MArr a =>
      let* ' (a, ret, l) := ArrayMapInsert a key value in
      if negb (ret =? 0) then Ok (MArr a, ret =? 1, l)
      else
        let* ' (h, l1) := ConvertToHashMap a in
        let* ' (h, b, l2) := HashMapInsert h key value in
        Ok (MHash h, b, l ++ l1 ++ l2)
  | MHash h =>
      let* ' (h, b, l) := HashMapInsert h key value in Ok (MHash h, b, l)
  end.

(** map.c:189-201 MapGetRaw *)
Definition MapGetRaw (m : map_t) (key : K) : res (option kv) :=
  match m with MArr a => ArrayMapGet a key | MHash h => HashMapGet h key end.

(** map.c:203-208 MapHasKey *)
Definition MapHasKey (m : map_t) (key : K) : res bool :=
  let* r := MapGetRaw m key in Ok (match r with Some _ => true | None => false end).

(** map.c:213-224 MapGet *)
Definition MapGet (m : map_t) (key : K) : res (option V) :=
  let* r := MapGetRaw m key in Ok (option_map snd r).

(** map.c:226-238 MapRemove *)
Definition MapRemove (m : map_t) (key : K) : res (map_t * bool * list ev) :=
  match m with
  | MArr a => let* ' (a, b, l) := ArrayMapRemove a key in Ok (MArr a, b, l)
  | MHash h => let* ' (h, b, l) := HashMapRemove h key in Ok (MHash h, b, l)
  end.

(** map.c:240-252 MapClear *)
Definition MapClear (m : map_t) : res (map_t * list ev) :=
  match m with
  | MArr a => let* ' (a, l) := ArrayMapClear a in Ok (MArr a, l)
  | MHash h => let* ' (h, l) := HashMapClear h in Ok (MHash h, l)
  end.

(** map.c:254-268 MapSoftDestroy *)
Definition MapSoftDestroy (m : map_t) : res (list ev) :=
  match m with
  | MArr a => ArrayMapSoftDestroy a
  | MHash h => HashMapSoftDestroy h
  end.

(** map.c:270-284 MapDestroy *)
Definition MapDestroy (m : map_t) : res (list ev) :=
  match m with
  | MArr a => ArrayMapDestroy a
  | MHash h => HashMapDestroy h
  end.

(** MapIterator (map.h) *)
Inductive miter := IArr (pos : nat) | IHash (it : hiter).

(** map.c:325-341 MapIteratorInit *)
Definition MapIteratorInit (m : map_t) : res miter :=
  match m with
  | MArr _ => Ok (IArr 0)
  | MHash h => let* it := HashMapIteratorInit h in Ok (IHash it)
  end.

(** map.c:343-353 MapIteratorNext with array_map.c:143-153 ArrayMapIteratorNext *)
Definition MapIteratorNext (m : map_t) (it : miter) : res (option (kv * miter)) :=
  match m, it with
  | MArr a, IArr pos =>
      if asize a <=? pos then Ok None
      else let* e := aget (avals a) pos in Ok (Some (e, IArr (S pos)))
  | MHash h, IHash it =>
      let* r := HashMapIteratorNext (S (N.to_nat (hsize h))) h it in
      Ok (option_map (fun p => (fst p, IHash (snd p))) r)
  | _, _ => UB      (* iterator of another map *)
  end.

(** a full pass [while ((e = MapIteratorNext(&i)))]; fuel bounds the number of
    entries, which is finite but not known beforehand *)
Fixpoint iter_loop (fuel : nat) (m : map_t) (it : miter) : res (list kv) :=
  match fuel with
  | O => Fuel
  | S f =>
      let* r := MapIteratorNext m it in
      match r with
      | None => Ok []
      | Some (e, it) => let* l := iter_loop f m it in Ok (e :: l)
      end
  end.
Definition entry_count (m : map_t) : nat :=
  match m with
  | MArr a => asize a
  | MHash h => length (concat (map (fun c => match c with Some c => c | None => [] end) (hbuckets h)))
  end.
Definition MapIterate (m : map_t) : res (list kv) :=
  let* it := MapIteratorInit m in iter_loop (S (entry_count m)) m it.

(** map.c:112-132 MapSize *)
Definition MapSize (m : map_t) : res nat :=
  match m with
  | MArr a => Ok (asize a)
  | MHash _ => let* l := MapIterate m in Ok (length l)
  end.

(** map.c:286-303 MapContainsSameKeys *)
Fixpoint csk_loop (fuel : nat) (m1 m2 : map_t) (it : miter) (count : nat) : res bool :=
  match fuel with
  | O => Fuel
  | S f =>
      let* r := MapIteratorNext m1 it in
      match r with
      | None => let* n := MapSize m2 in Ok (count =? n)
      | Some (e, it) =>
          let* b := MapHasKey m2 (fst e) in
          if negb b then Ok false else csk_loop f m1 m2 it (S count)
      end
  end.
Definition MapContainsSameKeys (m1 m2 : map_t) : res bool :=
  let* it := MapIteratorInit m1 in csk_loop (S (entry_count m1)) m1 m2 it 0.
End Map.
Arguments MapNew {K V}. Arguments ArrayMapNew {K V}. Arguments HashMapNew {K V} init_size.
