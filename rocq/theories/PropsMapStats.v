(** C143: MapPrintStats. *)
From Coq Require Import Sorting.Sorted.
From Verif Require Import Prelude PreludeFacts MapModel MapSpec MapProofs PropsMap MapStatsModel.
Set Implicit Arguments.

Lemma aget_in (l : list nat) i : i < length l -> aget (map Some l) i = Ok (nth i l 0).
Proof. intros H. unfold aget. rewrite nth_error_map, (nth_error_nth' l 0 H). reflexivity. Qed.
Lemma nth_upd_nat (l : list nat) i x j : i < length l -> nth j (upd l i x) 0 = if j =? i then x else nth j l 0.
Proof.
  revert i j. induction l as [|a l IH]; intros i j H; cbn [length] in H; [lia|]. destruct i as [|i]; destruct j as [|j]; cbn [upd nth]; try reflexivity.
  rewrite IH by lia. reflexivity.
Qed.

(** ** the longest buckets *)
(** [rows] names the ten longest of [l]: in descending order, each once, with its length, and none that is not named is longer; once there
    are no more the rest is 0 *)
Definition tops (l : list nat) (rows : list (nat * nat)) : Prop :=
  StronglySorted (fun a b => snd b <= snd a) rows /\
  NoDup (map fst (filter (fun r => 0 <? snd r) rows)) /\
  (forall b n, In (b, n) rows -> 0 < n -> b < length l /\ nth b l 0 = n) /\
  (forall b, ~ (exists n, In (b, n) rows /\ 0 < n) -> forall r, In r rows -> nth b l 0 <= snd r).

Lemma longest_spec n : forall i l best, i + n = length l -> best < length l -> (forall j, j < i -> nth j l 0 <= nth best l 0) ->
  exists b, longest_loop n i (map Some l) best = Ok b /\ b < length l /\ forall j, nth j l 0 <= nth b l 0.
Proof.
  induction n as [|n IH]; intros i l best L B M; cbn [longest_loop].
  - exists best. split; [reflexivity|]. split; [exact B|]. intros j. destruct (Nat.lt_ge_cases j (length l)); [apply M; lia|]. rewrite nth_overflow by lia. lia.
  - rewrite !aget_in by lia. cbn [bind]. destruct (Nat.ltb_spec (nth best l 0) (nth i l 0)); apply IH; try lia.
    + intros j J. destruct (Nat.eq_dec j i) as [->|N]; [lia|]. specialize (M j ltac:(lia)). lia.
    + intros j J. destruct (Nat.eq_dec j i) as [->|N]; [lia|]. apply M. lia.
Qed.
Lemma top_spec k : forall l, l <> [] -> exists rows, top_loop k (length l) (map Some l) = Ok rows /\ length rows = k /\ tops l rows.
Proof.
  induction k as [|k IH]; intros l NE; cbn [top_loop].
  - exists []. split; [reflexivity|]. split; [reflexivity|]. repeat split; try constructor; intros; contradiction.
  - assert (L0 : 0 < length l) by (destruct l; [congruence|cbn; lia]).
    destruct (@longest_spec (length l) 0 l 0 eq_refl L0) as (b & E & B & M); [lia|]. rewrite E. cbn [bind]. rewrite aget_in by exact B. cbn [bind].
    rewrite aset_map by exact B. cbn [bind]. destruct (IH (upd l b 0)) as (rows & F & LR & S & ND & IN & OUT). { intros X. apply (f_equal (@length nat)) in X. rewrite length_upd in X. cbn in X. lia. }
    rewrite length_upd in F. rewrite F. cbn [bind]. eexists. split; [reflexivity|]. split; [cbn; lia|].
    assert (PV : forall c m, In (c, m) rows -> 0 < m -> c <> b /\ c < length l /\ nth c l 0 = m).
    { intros c m I P. destruct (IN c m I P) as [X Y]. rewrite length_upd in X. rewrite nth_upd_nat in Y by exact B. destruct (Nat.eqb_spec c b); [lia|]. auto. }
    assert (LE : forall r, In r rows -> snd r <= nth b l 0).
    { intros [c m] I. cbn. destruct (Nat.eq_dec m 0) as [->|NZ]; [lia|]. destruct (PV c m I ltac:(lia)) as (_ & _ & <-). apply M. }
    split; [|split; [|split]].
    + constructor; [exact S|]. rewrite Forall_forall. exact LE.
    + cbn [filter snd]. destruct (0 <? nth b l 0); [|exact ND]. cbn [map fst]. constructor; [|exact ND]. intros X. apply in_map_iff in X as ([c m] & <- & X). apply filter_In in X as [X P]. apply Nat.ltb_lt in P. cbn [snd] in P. cbn [fst] in *. destruct (PV c m X P) as [N _]. now apply N.
    + intros c m [X|X] P; [injection X as <- <-; auto|]. destruct (PV c m X P) as (_ & Y). exact Y.
    + intros c NP r [<-|X].
      * apply M.
      * destruct (Nat.eq_dec c b) as [->|N].
        { assert (Z : nth b l 0 = 0). { destruct (Nat.eq_dec (nth b l 0) 0); [assumption|]. exfalso. apply NP. exists (nth b l 0). split; [now left|lia]. } lia. }
        assert (Y : nth c (upd l b 0) 0 <= snd r). { apply OUT; [|exact X]. intros (m & I & P). apply NP. exists m. split; [now right|exact P]. }
        rewrite nth_upd_nat in Y by exact B. destruct (Nat.eqb_spec c b); [congruence|exact Y].
Qed.

Section T.
  Variables K V : Type.
  Variable equal : K -> K -> bool.
  Variable hash : K -> N.
  Hypothesis EQ : equal_ok equal hash.

  Lemma chain_spec (b : list (K * V)) : forall i l n, i < length l ->
    chain_loop b i (map Some l) n = Ok (map Some (upd l i (nth i l 0 + length b)), n + length b).
  Proof.
    induction b as [|e b IH]; intros i l n H; cbn [chain_loop].
    - cbn [length]. rewrite !Nat.add_0_r. f_equal. f_equal. f_equal. revert i H. induction l as [|a l IHl]; intros i H; cbn [length] in H; [lia|]. destruct i; cbn [upd nth]; [reflexivity|]. rewrite <- IHl by lia. reflexivity.
    - rewrite aget_in by exact H. cbn [bind]. rewrite aset_map by exact H. cbn [bind]. rewrite IH by (rewrite length_upd; exact H). rewrite nth_upd_nat by exact H. rewrite Nat.eqb_refl. cbn [length]. f_equal. f_equal; [|lia]. f_equal.
      rewrite <- !Nat.add_succ_comm. clear. generalize (S (nth i l 0) + length b) as y, (S (nth i l 0)) as x. intros y x. revert i. induction l as [|a l IHl]; intros [|i]; cbn [upd]; try reflexivity. now rewrite IHl.
  Qed.
  Definition nonempty (c : list (K * V)) : bool := match c with [] => false | _ => true end.
  Lemma bucket_spec cs : forall n i l ne nb, i + n = length cs -> length l = length cs -> (forall j, i <= j -> nth j l 0 = 0) -> (forall j, j < i -> nth j l 0 = length (nth j cs [])) ->
    bucket_loop n i (map Some cs) (map Some l) ne nb =
      Ok (map Some (map (@length _) cs), ne + length (concat (skipn i cs)), nb + length (filter nonempty (skipn i cs))).
  Proof.
    induction n as [|n IH]; intros i l ne nb L LL Z D; cbn [bucket_loop].
    - rewrite skipn_all2 by lia. cbn. rewrite !Nat.add_0_r. f_equal. f_equal. f_equal. f_equal. apply nth_ext with 0 0; [now rewrite map_length|]. intros j J. rewrite D by lia. change 0 with (length (@nil (K * V))). now rewrite map_nth.
    - assert (G : aget (map Some cs) i = Ok (nth i cs [])) by (assert (IL : i < length cs) by lia; unfold aget; rewrite nth_error_map, (nth_error_nth' cs [] IL); reflexivity). rewrite G. cbn [bind].
      rewrite chain_spec by lia. cbn [bind]. rewrite Z by lia. cbn [Nat.add].
      rewrite IH; [| |now rewrite length_upd| |].
      + assert (SK : skipn i cs = nth i cs [] :: skipn (S i) cs). { clear - L. revert i L. induction cs as [|c cs IHc]; intros i L; cbn [length] in L; [lia|]. destruct i; [reflexivity|]. cbn [skipn nth]. rewrite IHc by lia. reflexivity. }
        rewrite SK. cbn [concat filter]. rewrite app_length. f_equal. f_equal; [f_equal; lia|]. destruct (nth i cs []); cbn [nonempty length]; lia.
      + lia.
      + intros j J. rewrite nth_upd_nat by lia. destruct (Nat.eqb_spec j i); [lia|]. apply Z. lia.
      + intros j J. rewrite nth_upd_nat by lia. destruct (Nat.eqb_spec j i) as [->|]; [reflexivity|]. apply D. lia.
  Qed.

  (** how many of the entries belong to bucket [b] of [size] *)
  Definition in_bucket (size : N) (entries : list (K * V)) (b : nat) : nat :=
    length (filter (fun e => N.to_nat (N.land (hash (fst e)) (size - 1)) =? b) entries).
  Lemma placed_counts size : forall cs d, (forall i c e, nth_error cs i = Some c -> In e c -> bucket_of hash size (fst e) = d + i) ->
    forall b, in_bucket size (concat cs) (d + b) = nth b (map (@length _) cs) 0 /\ (forall x, x < d -> in_bucket size (concat cs) x = 0).
  Proof.
    induction cs as [|c cs IH]; intros d P b; [destruct b; split; auto|].
    assert (PC : forall i c0 e, nth_error cs i = Some c0 -> In e c0 -> bucket_of hash size (fst e) = S d + i) by (intros i c0 e N I; rewrite (P (S i) c0 e N I); lia).
    assert (CO : forall x, in_bucket size (concat (c :: cs)) x = (if x =? d then length c else 0) + in_bucket size (concat cs) x).
    { intros x. unfold in_bucket. cbn [concat]. rewrite filter_app, app_length. f_equal. assert (Q : forall e, In e c -> N.to_nat (N.land (hash (fst e)) (size - 1)) = d) by (intros e I; specialize (P 0 c e eq_refl I); unfold bucket_of in P; lia).
      clear - Q. induction c as [|e c IHc]; [destruct (x =? d); reflexivity|]. cbn [filter]. rewrite (Q e) by now left. specialize (IHc ltac:(intros; apply Q; now right)). rewrite (Nat.eqb_sym d x). destruct (x =? d); cbn [length]; lia. }
    split.
    - rewrite CO. destruct b as [|b].
      + rewrite Nat.add_0_r, Nat.eqb_refl. cbn [map nth]. destruct (IH (S d) PC 0) as [_ X]. rewrite X by lia. lia.
      + destruct (Nat.eqb_spec (d + S b) d); [lia|]. cbn [map nth]. destruct (IH (S d) PC b) as [X _]. replace (d + S b) with (S d + b) by lia. exact X.
    - intros x X. rewrite CO. destruct (Nat.eqb_spec x d); [lia|]. destruct (IH (S d) PC 0) as [_ Y]. now apply Y; lia.
  Qed.

  (** what MapPrintStats says of any map a program can have *)
  Theorem C143_statistics : forall (ops : list (mop K V)) m outs evs, mapi_run equal hash MapNew ops = Ok (m, outs, evs) ->
    exists entries, MapIterate m = Ok entries /\
    match m with
    | MArr _ => MapPrintStats m = Ok None
    | MHash h => exists st, MapPrintStats m = Ok (Some st) /\
        st_buckets st = N.to_nat (hsize h) /\ st_elements st = length entries /\
        st_nonempty st = length (filter (fun b => 0 <? in_bucket (hsize h) entries b) (seq 0 (N.to_nat (hsize h)))) /\
        st_average st = (st_elements st, st_nonempty st) /\ length (st_longest st) = 10 /\
        tops (map (in_bucket (hsize h) entries) (seq 0 (N.to_nat (hsize h)))) (st_longest st)
    end.
  Proof.
    intros ops m outs evs E. destruct (run_refines EQ ops (@rep_new K V equal hash)) as (m0 & outs0 & evs0 & E0 & H).
    rewrite E in E0. inversion E0; subst m0 outs0 evs0; clear E0. destruct (mspec_run equal [] ops) as [[s q] d]. destruct H as (R & _).
    destruct R as (l & Hm & _ & _). exists l. split; [exact (@iterate_spec K V hash _ _ Hm)|].
    destruct m as [a|h]; [reflexivity|]. destruct Hm as (cs & [Hb [j [Hs Hj]] Hl Hp _ _ _] & ->).
    assert (CNT : map (in_bucket (hsize h) (concat cs)) (seq 0 (N.to_nat (hsize h))) = map (@length _) cs).
    { apply nth_ext with 0 0; [now rewrite !map_length, seq_length, Hl|]. intros b B. rewrite map_length, seq_length in B.
      rewrite (nth_indep _ 0 (in_bucket (hsize h) (concat cs) 0)) by (rewrite map_length, seq_length; exact B). rewrite map_nth, seq_nth by exact B. cbn [Nat.add].
      destruct (@placed_counts (hsize h) cs 0 (fun i c e N I => Hp i c e N I) b) as [X _]. exact X. }
    unfold MapPrintStats, HashMapPrintStats. rewrite Hb.
    assert (Z : repeat (Some 0) (N.to_nat (hsize h)) = map Some (repeat 0 (length cs))) by (rewrite Hl; now rewrite map_repeat).
    rewrite Z, (@bucket_spec cs (N.to_nat (hsize h)) 0 (repeat 0 (length cs)) 0 0); [|lia|now rewrite repeat_length|intros k _; apply nth_repeat|intros k X; lia].
    cbn [bind]. destruct (@top_spec 10 (map (@length _) cs)) as (rows & T & L10 & TP). { destruct cs; [|discriminate]. exfalso. cbn in Hl. rewrite Hs in Hl. assert (2 ^ j <> 0)%N by (apply N.pow_nonzero; lia). lia. }
    rewrite map_length, Hl in T. rewrite T. cbn [bind]. eexists. split; [reflexivity|]. cbn [st_buckets st_elements st_nonempty st_average st_longest skipn]. rewrite !Nat.add_0_l.
    split; [reflexivity|]. split; [reflexivity|]. split; [|split; [reflexivity|split; [exact L10|rewrite CNT; exact TP]]].
    transitivity (length (filter (fun n => 0 <? n) (map (@length (K * V)) cs))).
    - clear. induction cs as [|c cs IH]; [reflexivity|]. cbn [filter map]. destruct c; cbn [nonempty length Nat.ltb Nat.leb]; cbn [length]; now rewrite IH.
    - rewrite <- CNT. generalize (seq 0 (N.to_nat (hsize h))) as q0. generalize (in_bucket (hsize h) (concat cs)) as f. clear. intros f q. induction q as [|x q IH]; [reflexivity|]. cbn [map filter]. destruct (0 <? f x); cbn [length]; now rewrite IH.
  Qed.
End T.
Print Assumptions C143_statistics.
(** 20 keys that fall into three buckets of 128 *)
Example C143_example :
  match mapi_run Nat.eqb (fun k => N.of_nat (k mod 3)) MapNew (map (fun i => @MOInsert nat nat i i) (seq 0 20)) with
  | Ok (m, _, _) => MapPrintStats m = Ok (Some (mkStats 128 3 20 (20, 3) [(0, 7); (1, 7); (2, 6); (0, 0); (0, 0); (0, 0); (0, 0); (0, 0); (0, 0); (0, 0)]))
  | _ => False end.
Proof. vm_compute. reflexivity. Qed.
(** the average of a table from which all has been removed is 0 divided by 0, not a number *)
Theorem C143_average_of_nothing_refuted : exists ops : list (mop nat nat),
  match mapi_run Nat.eqb (fun k => N.of_nat (k mod 3)) MapNew ops with
  | Ok (m, _, _) => match MapPrintStats m with Ok (Some st) => st_average st = (0, 0) | _ => False end
  | _ => False end.
Proof. exists (map (fun i => @MOInsert nat nat i i) (seq 0 20) ++ map (fun i => @MORemove nat nat i) (seq 0 20)). vm_compute. reflexivity. Qed.
Print Assumptions C143_average_of_nothing_refuted.
