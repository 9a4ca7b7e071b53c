(** Model of HashMapPrintStats (libutils/hash_map.c) and MapPrintStats (libutils/map.c): what is printed, as numbers.  The
    layout of the lines is left out, and the average is given as the two numbers that are divided (as floats). *)
From Verif Require Import Prelude MapModel.
Set Implicit Arguments.

Record stats := mkStats { st_buckets : nat; st_nonempty : nat; st_elements : nat; st_average : nat * nat; st_longest : list (nat * nat) }.

Section Stats.
  Variables K V : Type.
  (** inner while loop of hash_map.c:259-305 HashMapPrintStats *)
  Fixpoint chain_loop (b : list (K * V)) (i : nat) (lens : cells nat) (num_el : nat) : res (cells nat * nat) :=
    match b with
    | [] => Ok (lens, num_el)
    | _ :: next => let* c := aget lens i in let* lens := aset lens i (S c) in chain_loop next i lens (S num_el)
    end.
  (** first for loop of hash_map.c:259-305 HashMapPrintStats, [n] buckets to go *)
  Fixpoint bucket_loop (n i : nat) (bs : cells (list (K * V))) (lens : cells nat) (num_el num_buckets : nat) : res (cells nat * nat * nat) :=
    match n with
    | O => Ok (lens, num_el, num_buckets)
    | S n =>
        let* b := aget bs i in
        let num_buckets := match b with [] => num_buckets | _ => S num_buckets end in
        let* ' (lens, num_el) := chain_loop b i lens num_el in
        bucket_loop n (S i) bs lens num_el num_buckets
    end.
  (** innermost loop of hash_map.c:259-305 HashMapPrintStats, [n] buckets to go; the bucket is an int, which is enough
      for the 2^30 buckets a table can have *)
  Fixpoint longest_loop (n i : nat) (lens : cells nat) (longest_bucket_id : nat) : res nat :=
    match n with
    | O => Ok longest_bucket_id
    | S n =>
        let* x := aget lens i in let* y := aget lens longest_bucket_id in
        longest_loop n (S i) lens (if y <? x then i else longest_bucket_id)
    end.
  (** second for loop of hash_map.c:259-305 HashMapPrintStats, [k] lines to go *)
  Fixpoint top_loop (k size : nat) (lens : cells nat) : res (list (nat * nat)) :=
    match k with
    | O => Ok []
    | S k =>
        let* b := longest_loop size 0 lens 0 in
        let* n := aget lens b in
        let* lens := aset lens b 0 in
        let* rows := top_loop k size lens in
        Ok ((b, n) :: rows)
    end.
  (** hash_map.c:259-305 HashMapPrintStats *)
  Definition HashMapPrintStats (h : hmap K V) : res stats :=
    let size := N.to_nat (hsize h) in
    let* ' (lens, num_el, num_buckets) := bucket_loop size 0 (hbuckets h) (repeat (Some 0) size) 0 0 in
    let* rows := top_loop 10 size lens in
    Ok (mkStats size num_buckets num_el (num_el, num_buckets) rows).
  (** map.c:305-321 MapPrintStats: None is the line for a map that is an array *)
  Definition MapPrintStats (m : map_t K V) : res (option stats) :=
    match m with MArr _ => Ok None | MHash h => let* s := HashMapPrintStats h in Ok (Some s) end.
End Stats.
