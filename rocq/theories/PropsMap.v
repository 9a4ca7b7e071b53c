(** Property theorems about map.c, array_map.c, hash_map.c and set.c (C06-C09).
    Specification vocabulary: MapSpec.v. *)
From Verif Require Import Prelude PreludeFacts MiscModel MapModel MapSpec MapProofs Str StrFacts SetModel SetProofs.
Set Implicit Arguments.

Section T.
Variables K V : Type.
Variable equal : K -> K -> bool.
Variable hash : K -> N.
Hypothesis EQ : equal_ok equal hash.

(** C06: every history returns normally (no undefined behaviour, no failed
    assertion, no endless loop) and every result is the one of the finite map. *)
Theorem C06_map_is_finite_map : forall ops : list (mop K V),
  exists m outs evs, mapi_run equal hash MapNew ops = Ok (m, outs, evs) /\
    let '(_, spec_outs, _) := mspec_run equal [] ops in Forall2 (@mout_ok K V) outs spec_outs.
Proof.
  intros ops. destruct (run_refines EQ ops (@rep_new K V equal hash)) as (m & outs & evs & E & H).
  exists m, outs, evs. split; auto.
  destruct (mspec_run equal [] ops) as [[s' outs'] d]. tauto.
Qed.

(** C07: destroy calls.  [evs] are the destroy calls of the history, [fin] those
    of the final MapDestroy: together every inserted key and every inserted value
    exactly once.  Before it, the entries not yet destroyed are exactly the
    stored ones. *)
Theorem C07_map_destroys_once : forall (ops : list (mop K V)) m outs evs,
  mapi_run equal hash MapNew ops = Ok (m, outs, evs) ->
  exists fin stored, MapDestroy m = Ok fin /\ MapIterate m = Ok stored /\
    Permutation (dkeys (evs ++ fin)) (ins_keys ops) /\
    Permutation (dvals (evs ++ fin)) (ins_vals ops) /\
    Permutation (dkeys evs ++ map fst stored) (ins_keys ops) /\
    Permutation (dvals evs ++ map snd stored) (ins_vals ops).
Proof.
  intros ops m outs evs E. destruct (run_refines EQ ops (@rep_new K V equal hash)) as (m0 & outs0 & evs0 & E0 & H).
  rewrite E in E0. inversion E0; subst m0 outs0 evs0. clear E0.
  pose proof (spec_conserves (V:=V) equal ops []) as C.
  destruct (mspec_run equal [] ops) as [[s' outs'] d]. destruct H as (R & _ & D1 & D2).
  rewrite app_nil_r in C.
  destruct (rep_destroy R) as (fin & Ef & F1 & F2).
  pose proof R as (l & Hm & P & U). pose proof (@iterate_spec K V hash _ _ Hm) as Ei.
  exists fin, l. split; auto. split; auto.
  rewrite ins_keys_entries, ins_vals_entries, dkeys_app, dvals_app, <- C, !map_app.
  repeat split; apply Permutation_app; auto; rewrite P; auto.
Qed.

Theorem C07_map_soft_destroy_keys_only : forall (ops : list (mop K V)) m outs evs,
  mapi_run equal hash MapNew ops = Ok (m, outs, evs) ->
  exists fin stored, MapSoftDestroy m = Ok fin /\ MapIterate m = Ok stored /\
    Permutation (dkeys (evs ++ fin)) (ins_keys ops) /\ dvals fin = [] /\
    Permutation (dvals evs ++ map snd stored) (ins_vals ops).
Proof.
  intros ops m outs evs E. destruct (run_refines EQ ops (@rep_new K V equal hash)) as (m0 & outs0 & evs0 & E0 & H).
  rewrite E in E0. inversion E0; subst m0 outs0 evs0. clear E0.
  pose proof (spec_conserves (V:=V) equal ops []) as C.
  destruct (mspec_run equal [] ops) as [[s' outs'] d]. destruct H as (R & _ & D1 & D2).
  rewrite app_nil_r in C.
  destruct (rep_soft R) as (fin & Ef & F1 & F2).
  pose proof R as (l & Hm & P & U). pose proof (@iterate_spec K V hash _ _ Hm) as Ei.
  exists fin, l. split; auto. split; auto.
  rewrite ins_keys_entries, ins_vals_entries, dkeys_app, <- C, !map_app.
  repeat split; auto; apply Permutation_app; auto; rewrite P; auto.
Qed.

(** C08: size, iteration and key-set comparison of any two reachable maps.
    ([mspec_run] gives the finite map each history leaves.) *)
Theorem C08_size_iteration_same_keys : forall (ops1 ops2 : list (mop K V)) m1 m2 o1 o2 e1 e2,
  mapi_run equal hash MapNew ops1 = Ok (m1, o1, e1) ->
  mapi_run equal hash MapNew ops2 = Ok (m2, o2, e2) ->
  let '(s1, _, _) := mspec_run equal [] ops1 in
  let '(s2, _, _) := mspec_run equal [] ops2 in
  MapSize m1 = Ok (length s1) /\ uniq equal s1 /\
  (exists l, MapIterate m1 = Ok l /\ Permutation l s1) /\
  (exists b, MapContainsSameKeys equal hash m1 m2 = Ok b /\
     (b = true <-> forall k, shas equal s1 k = shas equal s2 k)).
Proof.
  intros ops1 ops2 m1 m2 o1 o2 e1 e2 E1 E2.
  destruct (run_refines EQ ops1 (@rep_new K V equal hash)) as (m & outs & evs & E & H).
  rewrite E1 in E. inversion E; subst m outs evs; clear E.
  destruct (run_refines EQ ops2 (@rep_new K V equal hash)) as (m & outs & evs & E & H').
  rewrite E2 in E. inversion E; subst m outs evs; clear E.
  destruct (mspec_run equal [] ops1) as [[s1 q1] d1]. destruct (mspec_run equal [] ops2) as [[s2 q2] d2].
  destruct H as (R1 & _). destruct H' as (R2 & _).
  pose proof R1 as (l & Hm & P & U).
  split; [rewrite (@size_spec K V hash _ _ Hm), (Permutation_length P); auto|].
  split; auto. split.
  - exists l. split; auto. apply (@iterate_spec K V hash _ _ Hm).
  - apply (contains_same_keys EQ R1 R2).
Qed.

(** C08, structure: a map that has become a hash table has a power-of-two number
    of buckets, at most 2^30 and at least the initial size, and its load counter
    is the number of entries. *)
Theorem C08_hash_table_shape : forall (ops : list (mop K V)) h outs evs,
  mapi_run equal hash MapNew ops = Ok (MHash h, outs, evs) ->
  (exists j, hsize h = 2 ^ j /\ j <= 30)%N /\ (hinit h <= hsize h)%N /\
  length (hbuckets h) = N.to_nat (hsize h) /\
  exists n, MapSize (MHash h) = Ok n /\ hload h = N.of_nat n.
Proof.
  intros ops h outs evs E.
  destruct (run_refines EQ ops (@rep_new K V equal hash)) as (m & outs0 & evs0 & E0 & H).
  rewrite E in E0. inversion E0; subst m outs0 evs0; clear E0.
  destruct (mspec_run equal [] ops) as [[s q] d]. destruct H as (R & _).
  destruct R as (l & Hm & P & U). pose proof (@size_spec K V hash _ _ Hm) as Es.
  destruct Hm as (cs & I & ->). pose proof I as [Hb Hs Hl Hp Hld Hin Hle].
  split; auto. split; auto. split; [rewrite Hb, map_length; auto|]. eauto.
Qed.

(** an array map never holds more than 14 entries *)
Theorem C08_array_map_small : forall (ops : list (mop K V)) a outs evs,
  mapi_run equal hash MapNew ops = Ok (MArr a, outs, evs) -> asize a <= 14.
Proof.
  intros ops a outs evs E.
  destruct (run_refines EQ ops (@rep_new K V equal hash)) as (m & outs0 & evs0 & E0 & H).
  rewrite E in E0. inversion E0; subst m outs0 evs0; clear E0.
  destruct (mspec_run equal [] ops) as [[s q] d]. destruct H as (R & _).
  destruct R as (l & [[j Hv] Hl Hs] & _). rewrite Hs, <- (map_length Some l).
  rewrite Hv, app_length in Hl. unfold TINY_LIMIT in Hl. lia.
Qed.
End T.
Print Assumptions C06_map_is_finite_map.
Print Assumptions C07_map_destroys_once.
Print Assumptions C07_map_soft_destroy_keys_only.
Print Assumptions C08_size_iteration_same_keys.
Print Assumptions C08_hash_table_shape.
Print Assumptions C08_array_map_small.

(** a history that crosses the conversion to a hash table, with colliding
    hashes: hypotheses satisfiable, conclusion non-trivial *)
Definition demo_ops : list (mop nat nat) :=
  map (fun i => MOInsert i (100 + i)) (seq 0 20) ++ [MORemove 3; MOInsert 4 7; MOGet 4; MOGet 3; MOSize].
Example C06_nonvacuous :
  (match mapi_run Nat.eqb (fun k => N.of_nat (k mod 3)) MapNew demo_ops with
   | Ok (MHash h, outs, evs) =>
       Some (hload h, skipn 20 outs, dkeys evs, dvals evs)
   | _ => None end)
  = Some (19%N, [WBool true; WBool true; WVal (Some 7); WVal None; WNat 19], [3; 4], [103; 104]).
Proof. vm_compute. reflexivity. Qed.
Example C06_hypothesis_met : equal_ok Nat.eqb (fun k => N.of_nat (k mod 3)).
Proof.
  constructor; intros.
  - apply Nat.eqb_refl.
  - apply Nat.eqb_eq in H. subst. apply Nat.eqb_refl.
  - apply Nat.eqb_eq in H, H0. subst. apply Nat.eqb_refl.
  - apply Nat.eqb_eq in H. congruence.
Qed.

(** ** Set *)
Section S.
Variable E : Type.
Variable equal : E -> E -> bool.
Variable hash : E -> N.
Hypothesis EQ : equal_ok equal hash.

(** a set reached by adding the elements of [l] to an empty set, in order *)
Fixpoint add_all (s : set_t E) (l : list E) : res (set_t E) :=
  match l with
  | [] => Ok s
  | e :: t => let* ' (s, _) := SetAdd equal hash s e in add_all s t
  end.

Lemma add_all_spec l : forall s P, srep equal hash s P -> exists s',
  add_all s l = Ok s' /\ srep equal hash s' (fun k => P k || existsb (fun e => equal e k) l).
Proof.
  induction l as [|e t IH]; intros s P R; simpl.
  - eexists; split; eauto. eapply srep_ext; [eauto|]. intros; rewrite orb_false_r; auto.
  - destruct (srep_add EQ e R) as (s1 & a & E1 & R1). rewrite E1. cbn [bind].
    destruct (IH s1 _ R1) as (s2 & E2 & R2). eexists; split; eauto.
    eapply srep_ext; [exact R2|]. intros k. simpl. rewrite !orb_assoc. f_equal. apply orb_comm.
Qed.

(** C08: SetIsEqual and SetJoin on sets built from any two element lists *)
Theorem C08_set_membership_equality_join : forall (l1 l2 : list E) (copy : E -> E),
  (forall e, equal (copy e) e = true) ->
  exists s1 s2, add_all (SetNew E) l1 = Ok s1 /\ add_all (SetNew E) l2 = Ok s2 /\
    (forall k, SetContains equal hash s1 k = Ok (existsb (fun e => equal e k) l1)) /\
    (exists b, SetIsEqual equal hash s1 s2 = Ok b /\
       (b = true <-> forall k, existsb (fun e => equal e k) l1 = existsb (fun e => equal e k) l2)) /\
    (exists s3 evs, SetJoin equal hash copy s1 s2 = Ok (s3, evs) /\
       forall k, SetContains equal hash s3 k = Ok (existsb (fun e => equal e k) (l1 ++ l2))).
Proof.
  intros l1 l2 copy Hc.
  destruct (add_all_spec l1 (srep_new equal hash)) as (s1 & E1 & R1).
  destruct (add_all_spec l2 (srep_new equal hash)) as (s2 & E2 & R2).
  exists s1, s2. split; auto. split; auto. split; [|split].
  - intros k. rewrite (srep_contains EQ k R1). auto.
  - destruct R1 as (m1 & M1 & H1), R2 as (m2 & M2 & H2).
    destruct (contains_same_keys EQ M1 M2) as (b & Eb & Hb). exists b. split; auto. rewrite Hb.
    split; intros Q k; specialize (Q k); rewrite H1, H2 in *; auto.
  - destruct (srep_join EQ copy Hc R1 R2) as (s3 & evs & E3 & R3). exists s3, evs. split; auto.
    intros k. rewrite (srep_contains EQ k R3). simpl. rewrite existsb_app. auto.
Qed.
End S.
Print Assumptions C08_set_membership_equality_join.

(** ** StringSet (C09) *)
Section SS.
Variable shash : list byte -> N.

(** C09: splitting.  [ps] are the pieces: any non-empty list of strings without
    the delimiter; the string is the pieces joined by the delimiter. *)
Theorem C09_split : forall (d : byte) (ps : list (list byte)),
  ps <> [] -> (forall p, In p ps -> ~ In d p) ->
  exists st evs, StringSetFromString shash (join [d] ps) d = Ok (st, evs) /\
    forall k, SetContains bytes_eqb shash st k = Ok true <->
              In k (match rev ps with [] :: _ => removelast ps | _ => ps end).
Proof.
  intros d ps Hne Hd.
  destruct (@addsplit_spec shash d _ _ _ Hne Hd (srep_new bytes_eqb shash)) as (st & evs & E & R).
  exists st, evs. split; auto. intros k. rewrite (srep_contains (bytes_equal_ok shash) k R). simpl.
  rewrite <- memb_in. unfold drop_last_empty. split; intros H; [inversion H|rewrite H]; auto.
Qed.

(** C09: every string is such a join, so the previous theorem covers all strings *)
Theorem C09_every_string_splits : forall (d : byte) (s : list byte),
  exists ps, ps <> [] /\ (forall p, In p ps -> ~ In d p) /\ s = join [d] ps.
Proof.
  intros d s. induction s as [|c t IH].
  - exists [[]]. split; [discriminate|]. split; auto. intros p [<-|[]] [].
  - destruct IH as (ps & Hne & Hd & ->). destruct ps as [|p ps]; [congruence|].
    destruct (beq_spec c d).
    + subst. exists ([] :: p :: ps). split; [discriminate|]. split; auto.
      intros q [<-|Hq]; auto.
    + exists ((c :: p) :: ps). split; [discriminate|]. split.
      * intros q [<-|Hq]; [|apply Hd; right; auto]. intros [->|Hi]; [congruence|]. apply (Hd p); auto. left; auto.
      * destruct ps; auto.
Qed.

(** C09: join then split.  [l] is what the set was built from; the hypotheses
    are that no element contains the delimiter and the element iterated last is
    not the empty string. *)
Theorem C09_join_split_round_trip : forall (d : byte) (l : list (list byte)) st,
  l <> [] -> (forall p, In p l -> ~ In d p) ->
  add_all bytes_eqb shash (SetNew (list byte)) l = Ok st ->
  exists order buf st' evs, SetIterate st = Ok order /\ StringSetToBuffer st d = Ok buf /\
    StringSetFromString shash buf d = Ok (st', evs) /\
    (last order [] <> [] -> SetIsEqual bytes_eqb shash st st' = Ok true).
Proof.
  intros d l st Hne Hd E.
  destruct (add_all_spec (bytes_equal_ok shash) l (srep_new bytes_eqb shash)) as (st0 & E0 & R).
  rewrite E in E0. inversion E0; subst st0; clear E0.
  destruct (tobuffer_spec d R) as (order & Eo & Ho & Eb).
  assert (forall k, In k order <-> In k l) as Hol.
  { intros k. rewrite <- Ho. simpl. apply memb_in. }
  assert (order <> []) as Hone.
  { destruct l as [|x l]; [congruence|]. intros C. subst. destruct (Hol x) as [_ Q]. destruct Q. left; auto. }
  assert (forall p, In p order -> ~ In d p) as Hod by (intros p Hp; apply Hd, Hol; auto).
  destruct (@addsplit_spec shash d _ _ _ Hone Hod (srep_new bytes_eqb shash)) as (st' & evs & Es & R').
  exists order, (join [d] order), st', evs. split; auto. split; auto. split; auto.
  intros Hlast.
  assert (drop_last_empty order = order) as Hdl.
  { unfold drop_last_empty. destruct (rev order) as [|r rs] eqn:Er; auto.
    assert (last order [] = r) as Hl.
    { rewrite <- (rev_involutive order), Er. simpl. apply last_last. }
    rewrite Hl in Hlast. destruct r; congruence. }
  rewrite Hdl in R'. unfold SetIsEqual.
  destruct R as (m1 & M1 & H1), R' as (m2 & M2 & H2).
  destruct (contains_same_keys (bytes_equal_ok shash) M1 M2) as (b & Ebb & Hb). rewrite Ebb. f_equal. apply Hb.
  intros k. rewrite H1, H2. simpl. apply eq_iff_eq_true. rewrite memb_in. change (memb bytes_eqb l k = true <-> In k order). rewrite memb_in. symmetry. apply Hol.
Qed.

(** without the last condition the claim fails: {""} joins to "" and splits to {} *)
Theorem C09_empty_element_lost_refuted : exists st st' evs b,
  add_all bytes_eqb shash (SetNew (list byte)) [[]] = Ok st /\
  StringSetToBuffer st ","%char = Ok [] /\
  StringSetFromString shash [] ","%char = Ok (st', evs) /\
  SetIsEqual bytes_eqb shash st st' = Ok b /\ b = false.
Proof.
  exists (MArr (mkA (Some ([], []) :: repeat None 13) 1)), MapNew, [], false.
  vm_compute. repeat split; auto.
Qed.
End SS.
Print Assumptions C09_split.
Print Assumptions C09_every_string_splits.
Print Assumptions C09_join_split_round_trip.
Print Assumptions C09_empty_element_lost_refuted.

Example C09_nonvacuous :
  let h := fun s => N.of_nat (length s) in
  exists st evs, StringSetFromString h (lit "a,,bc,") ","%char = Ok (st, evs) /\
    SetIterate st = Ok [lit "a"; []; lit "bc"].
Proof.
  exists (MArr (mkA (map (fun s => Some (s, s)) [lit "a"; []; lit "bc"] ++ repeat None 11) 3)), [].
  vm_compute. split; reflexivity.
Qed.
