(** Property theorems about libutils/sequence.c (C01-C05).
    [holds s l] : what a client sees of [s] through SeqLength and SeqAt is [l]. *)
From Verif Require Import Prelude SeqModel SeqSpec SeqProofs SeqSortProofs.
Set Implicit Arguments.

(** C01: every history of calls, from any initial capacity, with or without a
    destructor: if the list semantics accepts the history, the C functions
    return the same values without UB/abort/non-termination, and the final
    sequence read back through SeqLength/SeqAt is the final list; a call
    outside its precondition never returns normally. *)
Theorem C01_seq_refines_list :
  forall (A : Type) (cmp : option A -> option A -> Z) (cap : nat) (d : bool)
         (ops : list (op A)) l outs dst rel,
  spec_run cmp [] ops = Some (l, outs, dst, rel) ->
  exists s, api_run cmp (SeqNew A cap d) ops = Ok (s, outs) /\ items s = Ok l /\
            SeqLength s = length l.
Proof. exact C01_lemma. Qed.
Print Assumptions C01_seq_refines_list.

Theorem C01_seq_precondition_violations_abort :
  forall (A : Type) (cmp : option A -> option A -> Z) (cap : nat) (d : bool)
         (ops : list (op A)) l outs dst rel o s,
  spec_run cmp [] ops = Some (l, outs, dst, rel) ->
  api_run cmp (SeqNew A cap d) ops = Ok (s, outs) ->
  spec_step cmp l o = None -> api_step cmp s o = Abort.
Proof. exact C01_guard_lemma. Qed.
Print Assumptions C01_seq_precondition_violations_abort.

Definition nat_cmp (a b : option nat) : Z :=
  match a, b with
  | Some x, Some y => (Z.of_nat x - Z.of_nat y)%Z
  | None, None => 0%Z | None, _ => (-1)%Z | _, None => 1%Z
  end.

Example C01_nonvacuous :
  spec_run nat_cmp [] [OAppend (Some 1); OAppend (Some 2); OAppend None; OAppendSeq [Some 4; Some 5];
                       OAppendOnce (Some 2); OSet 0 (Some 9); OReverse; ORemoveRange 1 2;
                       OGetRange 0 1; OSplit 1; OLength; ORemoveNulls; OAt 0]
  = Some ([Some 5],
          [VUnit; VUnit; VUnit; VUnit; VUnit; VUnit; VUnit; VUnit;
           VItems (Some [Some 5; Some 2]); VItems (Some [Some 2; Some 9]); VNat 1; VUnit; VPtr (Some 5)],
          [Some 2; Some 1; Some 4; None], [Some 2; Some 9]).
Proof. vm_compute. reflexivity. Qed.

(** SeqAppendSeq(s, s) never returns for a non-empty sequence, whatever the
    number of loop iterations granted. *)
Theorem C01_append_self_diverges :
  forall (A : Type) (s : seq A) (l : list (option A)), l <> [] ->
  append_list (SeqNew A 0 false) l = Ok s ->
  forall fuel, SeqAppendSelf fuel s = Fuel.
Proof. exact append_self_diverges. Qed.
Print Assumptions C01_append_self_diverges.

(** C02: with a destructor, over every accepted history the items passed to
    ItemDestroy are exactly (in order) those the list semantics says are
    overwritten, removed, cleared or swallowed; SeqDestroy then destroys the
    remaining items in index order; and as multisets the items given to the
    sequence = destroyed + released + still stored, so nothing is destroyed
    twice, lost or destroyed while stored.  Without a destructor nothing is
    destroyed. *)
Theorem C02_seq_destroys_exactly_once :
  forall (A : Type) (cmp : option A -> option A -> Z) (cap : nat)
         (ops : list (op A)) l outs dst rel,
  spec_run cmp [] ops = Some (l, outs, dst, rel) ->
  exists s, api_run cmp (SeqNew A cap true) ops = Ok (s, outs) /\
            slog s = dst /\ SeqDestroy s = Ok (dst ++ l) /\
            Permutation (flat_map (@given A) ops) (dst ++ rel ++ l).
Proof. exact C02_lemma. Qed.
Print Assumptions C02_seq_destroys_exactly_once.

Theorem C02_seq_without_destructor_destroys_nothing :
  forall (A : Type) (cmp : option A -> option A -> Z) (cap : nat)
         (ops : list (op A)) l outs dst rel,
  spec_run cmp [] ops = Some (l, outs, dst, rel) ->
  exists s, api_run cmp (SeqNew A cap false) ops = Ok (s, outs) /\ SeqDestroy s = Ok [].
Proof. exact C02_nodtor_lemma. Qed.
Print Assumptions C02_seq_without_destructor_destroys_nothing.

(** C03: SeqSort *)
Theorem C03_sort_sorted_permutation :
  forall (A : Type) (cmp : option A -> option A -> Z) (cap : nat) (d : bool)
         (l : list (option A)) (s : seq A),
  append_list (SeqNew A cap d) l = Ok s ->
  total_preorder (fun x => In x l) cmp ->
  (Z.of_nat (length l) <= 2147483647)%Z ->
  exists s' l', SeqSort cmp s = Ok s' /\ items s' = Ok l' /\ Permutation l l' /\
    (forall i j, i <= j -> j < length l' -> (cmp (nth i l' None) (nth j l' None) <= 0)%Z).
Proof. exact C03_lemma. Qed.
Print Assumptions C03_sort_sorted_permutation.

Theorem C03_softsort_sorted_permutation :
  forall (A : Type) (cmp : option A -> option A -> Z) (cap : nat) (d : bool)
         (l : list (option A)) (s : seq A),
  append_list (SeqNew A cap d) l = Ok s ->
  total_preorder (fun x => In x l) cmp ->
  (Z.of_nat (length l) <= 2147483647)%Z ->
  exists s' l', SeqSoftSort cmp s = Ok s' /\ items s' = Ok l' /\ items s = Ok l /\
    Permutation l l' /\
    (forall i j, i <= j -> j < length l' -> (cmp (nth i l' None) (nth j l' None) <= 0)%Z).
Proof. exact C03_soft_lemma. Qed.
Print Assumptions C03_softsort_sorted_permutation.

Example C03_nonvacuous :
  total_preorder (fun x => In x [Some 3; None; Some 1; Some 3]) nat_cmp /\
  rmap (@sdata nat) (let* s := append_list (SeqNew nat 0 true) [Some 3; None; Some 1; Some 3] in SeqSort nat_cmp s)
  = Ok [Some None; Some (Some 1); Some (Some 3); Some (Some 3)].
Proof.
  split; [|vm_compute; reflexivity].
  split; intros [a|] [b|]; try intros [c|]; unfold nat_cmp; simpl; intros; lia.
Qed.

(** the total-preorder hypothesis is needed: an inconsistent comparator makes
    the sort leave the array *)
Theorem C03_sort_inconsistent_comparator_refuted :
  exists (cmp : option nat -> option nat -> Z) (l : list (option nat)) s,
    append_list (SeqNew nat 0 false) l = Ok s /\ SeqSort cmp s = UB.
Proof. exact C03_bad_cmp. Qed.
Print Assumptions C03_sort_inconsistent_comparator_refuted.

(** C04: binary and linear search *)
Theorem C04_binary_search :
  forall (A : Type) (cmp : option A -> option A -> Z) (cap : nat) (d : bool)
         (l : list (option A)) (s : seq A) key,
  append_list (SeqNew A cap d) l = Ok s ->
  total_preorder (fun x => In x (key :: l)) cmp ->
  (forall i j, i <= j -> j < length l -> (cmp (nth i l None) (nth j l None) <= 0)%Z) ->
  (exists i, SeqBinaryIndexOf cmp s key = Ok (Some i) /\ i < length l /\
             cmp key (nth i l None) = 0%Z /\ SeqBinaryLookup cmp s key = Ok (nth i l None)) \/
  (SeqBinaryIndexOf cmp s key = Ok None /\ SeqBinaryLookup cmp s key = Ok None /\
   forall x, In x l -> cmp key x <> 0%Z).
Proof. exact C04_lemma. Qed.
Print Assumptions C04_binary_search.

Theorem C04_linear_search :
  forall (A : Type) (cmp : option A -> option A -> Z) (cap : nat) (d : bool)
         (l : list (option A)) (s : seq A) key,
  append_list (SeqNew A cap d) l = Ok s ->
  (exists i, SeqIndexOf cmp s key = Ok (Some i) /\ i < length l /\
             cmp key (nth i l None) = 0%Z /\ SeqLookup cmp s key = Ok (nth i l None) /\
             forall k, k < i -> cmp key (nth k l None) <> 0%Z) \/
  (SeqIndexOf cmp s key = Ok None /\ SeqLookup cmp s key = Ok None /\
   forall x, In x l -> cmp key x <> 0%Z).
Proof. exact C04_linear_lemma. Qed.
Print Assumptions C04_linear_search.

Example C04_nonvacuous :
  (let* s := append_list (SeqNew nat 0 true) [Some 1; Some 3; Some 5; Some 7; Some 9] in
   SeqBinaryIndexOf nat_cmp s (Some 7)) = Ok (Some 3) /\
  (let* s := append_list (SeqNew nat 0 true) [Some 1; Some 3; Some 5; Some 7; Some 9] in
   SeqBinaryIndexOf nat_cmp s (Some 4)) = Ok None.
Proof. split; vm_compute; reflexivity. Qed.

(** C05: shuffle and reverse *)
Theorem C05_shuffle_permutes :
  forall (A : Type) (cap : nat) (d : bool) (l : list (option A)) (s : seq A) (rnd : nat -> nat),
  append_list (SeqNew A cap d) l = Ok s ->
  exists s' l', SeqShuffle s rnd = Ok s' /\ items s' = Ok l' /\ Permutation l l'.
Proof. exact C05_lemma. Qed.
Print Assumptions C05_shuffle_permutes.

Theorem C05_shuffle_reaches_every_permutation :
  forall (A : Type) (cap : nat) (d : bool) (l l' : list (option A)) (s : seq A),
  append_list (SeqNew A cap d) l = Ok s -> Permutation l l' ->
  exists rnd s', SeqShuffle s rnd = Ok s' /\ items s' = Ok l'.
Proof. exact C05_onto_lemma. Qed.
Print Assumptions C05_shuffle_reaches_every_permutation.

Theorem C05_reverse :
  forall (A : Type) (cap : nat) (d : bool) (l : list (option A)) (s : seq A),
  append_list (SeqNew A cap d) l = Ok s ->
  exists s', SeqReverse s = Ok s' /\ items s' = Ok (rev l).
Proof. exact C05_reverse_lemma. Qed.
Print Assumptions C05_reverse.

Example C05_nonvacuous :
  rmap (@sdata nat) (let* s := append_list (SeqNew nat 3 true) [Some 3; Some 2; Some 1] in SeqShuffle s (fun i => i * 5))
  = Ok [Some (Some 3); Some (Some 1); Some (Some 2)].
Proof. vm_compute. reflexivity. Qed.
