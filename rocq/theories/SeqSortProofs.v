(** Correctness of QuickSortRecursive / SeqSort *)
From Verif Require Import Prelude PreludeFacts SeqModel SeqSpec SeqProofs.
Set Implicit Arguments.

Section Sort.
Variable A : Type.
Notation ptr := (option A).
Variable cmp : ptr -> ptr -> Z.
Variable P : ptr -> Prop.
Hypothesis Hcmp : total_preorder P cmp.
Notation "l @ i" := (nth i l (None : ptr)) (at level 9).

(** [xs'] is [xs] with only cells lo..hi-1 rearranged *)
Definition rearr (lo hi : nat) (xs xs' : list ptr) : Prop :=
  length xs' = length xs /\ Permutation xs xs' /\
  (forall k, k < lo \/ hi <= k -> xs' @ k = xs @ k) /\
  (forall k, lo <= k < hi -> exists k', lo <= k' < hi /\ xs' @ k = xs @ k').

Lemma rearr_refl lo hi xs : rearr lo hi xs xs.
Proof. repeat split; auto. intros k Hk; eauto. Qed.

Lemma rearr_trans lo hi a b c : rearr lo hi a b -> rearr lo hi b c -> rearr lo hi a c.
Proof.
  intros (L1 & P1 & O1 & I1) (L2 & P2 & O2 & I2). repeat split.
  - congruence.
  - eapply Permutation_trans; eauto.
  - intros k Hk. rewrite O2, O1; auto.
  - intros k Hk. destruct (I2 k Hk) as (k1 & H1 & ->). apply I1; auto.
Qed.

Lemma rearr_widen lo hi lo' hi' a b : lo' <= lo -> hi <= hi' -> rearr lo hi a b -> rearr lo' hi' a b.
Proof.
  intros H1 H2 (L & Q & O & I). repeat split; auto.
  - intros k Hk. apply O; lia.
  - intros k Hk. destruct (Nat.lt_ge_cases k lo); [|destruct (Nat.lt_ge_cases k hi)].
    + exists k; split; [lia|apply O; lia].
    + destruct (I k) as (k' & Hk' & E); [lia|]. exists k'; split; [lia|auto].
    + exists k; split; [lia|apply O; lia].
Qed.

Lemma rearr_swap lo hi xs i j : hi <= length xs -> lo <= i < hi -> lo <= j < hi ->
  rearr lo hi xs (swapl xs i j).
Proof.
  intros H Hi Hj. repeat split.
  - apply swapl_length.
  - apply swapl_perm; lia.
  - intros k Hk. rewrite swapl_nth by lia.
    destruct (Nat.eqb_spec k j); [lia|]. destruct (Nat.eqb_spec k i); [lia|auto].
  - intros k Hk. rewrite swapl_nth by lia.
    destruct (Nat.eqb_spec k j); [exists i; auto|].
    destruct (Nat.eqb_spec k i); [exists j; auto|exists k; auto].
Qed.

Lemma Forall_rearr lo hi xs xs' : rearr lo hi xs xs' -> Forall P xs -> Forall P xs'.
Proof. intros (_ & Q & _) F. eapply Permutation_Forall; eauto. Qed.

Lemma Forall_at xs k : Forall P xs -> k < length xs -> P (xs @ k).
Proof. intros F H. rewrite Forall_forall in F. apply F, nth_In; auto. Qed.

Lemma cmp_refl a : P a -> cmp a a = 0%Z.
Proof. intros H. pose proof (tp_sym Hcmp H H). lia. Qed.

Lemma cmp_ge a b : P a -> P b -> (cmp a b >= 0)%Z -> (cmp b a <= 0)%Z.
Proof. intros Ha Hb H. pose proof (tp_sym Hcmp Ha Hb). lia. Qed.

Lemma scan_l_rep fuel : forall xs jk pivot l k,
  l <= k -> k < length xs -> (cmp (xs @ k) pivot >= 0)%Z -> k - l < fuel ->
  exists l', scan_l cmp fuel (map Some xs ++ jk) pivot l = Ok l' /\ l <= l' <= k /\
    (cmp (xs @ l') pivot >= 0)%Z /\ (forall i, l <= i < l' -> (cmp (xs @ i) pivot < 0)%Z).
Proof.
  induction fuel as [|f IH]; intros xs jk pivot l k Hl Hk Hc Hf; [lia|]. cbn [scan_l].
  rewrite (@aget_rep _ xs jk l None) by lia. cbn [bind].
  destruct (Z.ltb_spec (cmp (xs @ l) pivot) 0) as [H|H].
  - assert (l <> k) by (intros ->; lia).
    destruct (IH xs jk pivot (S l) k) as (l' & E & B & C & D); auto; try lia.
    exists l'. repeat split; auto; try lia.
    intros i Hi. destruct (Nat.eq_dec i l) as [->|]; auto. apply D; lia.
  - exists l. repeat split; auto; try lia.
Qed.

Lemma scan_r_rep fuel : forall xs jk pivot r k,
  k <= r -> r < length xs -> (cmp (xs @ k) pivot <= 0)%Z -> r - k < fuel ->
  exists r', scan_r cmp fuel (map Some xs ++ jk) pivot r = Ok r' /\ k <= r' <= r /\
    (cmp (xs @ r') pivot <= 0)%Z /\ (forall i, r' < i <= r -> (cmp (xs @ i) pivot > 0)%Z).
Proof.
  induction fuel as [|f IH]; intros xs jk pivot r k Hl Hk Hc Hf; [lia|]. cbn [scan_r].
  rewrite (@aget_rep _ xs jk r None) by lia. cbn [bind].
  destruct (Z.ltb_spec 0 (cmp (xs @ r) pivot)) as [H|H].
  - assert (r <> k) by (intros ->; lia). destruct r as [|r]; [lia|].
    destruct (IH xs jk pivot r k) as (r' & E & B & C & D); auto; try lia.
    exists r'. repeat split; auto; try lia.
    intros i Hi. destruct (Nat.eq_dec i (S r)) as [->|]; try lia. apply D; lia.
  - exists r. repeat split; auto; try lia.
Qed.

Lemma partition_rep fuel : forall xs jk pivot lo hi l r,
  hi <= length xs -> lo <= l -> l <= hi -> lo <= r -> r < hi ->
  (S r - l + 1) / 2 + 1 <= fuel ->
  (forall k, lo <= k < l -> (cmp (xs @ k) pivot <= 0)%Z) ->
  (forall k, r < k < hi -> (cmp (xs @ k) pivot >= 0)%Z) ->
  (l <= r -> exists k, l <= k < hi /\ (cmp (xs @ k) pivot >= 0)%Z) ->
  (l <= r -> exists k, lo <= k <= r /\ (cmp (xs @ k) pivot <= 0)%Z) ->
  ((lo < l /\ r + 1 < hi) \/
   (l = lo /\ r + 1 = hi /\ exists p, lo < p < hi /\ cmp (xs @ p) pivot = 0%Z)) ->
  exists xs' l' r',
    partition cmp fuel (map Some xs ++ jk) pivot l r = Ok (map Some xs' ++ jk, l', r') /\
    rearr lo hi xs xs' /\ r' < l' /\ lo < l' <= hi /\ lo <= r' /\ r' + 1 < hi /\
    (forall k, lo <= k < l' -> (cmp (xs' @ k) pivot <= 0)%Z) /\
    (forall k, r' < k < hi -> (cmp (xs' @ k) pivot >= 0)%Z).
Proof.
  induction fuel as [|f IH]; intros xs jk pivot lo hi l r Hh Hlol Hlhi Hlor Hrhi Hf I1 I2 E1 E2 I4; [lia|].
  cbn [partition]. destruct (Nat.leb_spec l r) as [Hlr|Hlr].
  - destruct (E1 Hlr) as (k1 & Hk1 & C1). destruct (E2 Hlr) as (k2 & Hk2 & C2).
    rewrite app_length, map_length.
    destruct (@scan_l_rep (S (length xs + length jk)) xs jk pivot l k1) as (l1 & EL & BL & CL & DL); auto; try lia.
    rewrite EL. cbn [bind].
    destruct (@scan_r_rep (S (length xs + length jk)) xs jk pivot r k2) as (r1 & ER & BR & CR & DR); auto; try lia.
    rewrite ER. cbn [bind].
    assert (J1 : forall k, lo <= k < l1 -> (cmp (xs @ k) pivot <= 0)%Z).
    { intros k Hk. destruct (Nat.lt_ge_cases k l); [apply I1; lia|].
      specialize (DL k ltac:(lia)); lia. }
    assert (J2 : forall k, r1 < k < hi -> (cmp (xs @ k) pivot >= 0)%Z).
    { intros k Hk. destruct (Nat.lt_ge_cases r k); [apply I2; lia|].
      specialize (DR k ltac:(lia)); lia. }
    destruct (Nat.leb_spec l1 r1) as [Hx|Hx].
    + rewrite (@swap_rep _ _ xs jk) by (auto; lia). cbn [bind].
      assert (Hr1 : lo < r1).
      { destruct I4 as [[H1 H2]|(-> & H2 & p & Hp & Cp)]; [lia|].
        destruct (Nat.lt_ge_cases r1 p) as [Hq|]; [|lia].
        destruct (Nat.lt_ge_cases r p); [lia|]. specialize (DR p ltac:(lia)); lia. }
      destruct r1 as [|r2]; [lia|].
      assert (Hsw : forall k, (swapl xs l1 (S r2)) @ k =
        if k =? S r2 then xs @ l1 else if k =? l1 then xs @ (S r2) else xs @ k)
        by (intros; apply swapl_nth; lia).
      destruct (IH (swapl xs l1 (S r2)) jk pivot lo hi (S l1) r2) as (xs' & l' & r' & E & Q);
        try (rewrite ?swapl_length; lia).
      * intros k Hk. rewrite Hsw. destruct (Nat.eqb_spec k (S r2)); subst.
        { assert (l1 = S r2) by lia. subst. exact CR. }
        destruct (Nat.eqb_spec k l1); subst; [exact CR|]. apply J1; lia.
      * intros k Hk. rewrite Hsw. destruct (Nat.eqb_spec k (S r2)); subst; [exact CL|].
        destruct (Nat.eqb_spec k l1); subst; [lia|]. apply J2; lia.
      * intros Hle. exists (S r2). split; [lia|]. rewrite Hsw, Nat.eqb_refl. exact CL.
      * intros Hle. exists l1. split; [lia|]. rewrite Hsw.
        destruct (Nat.eqb_spec l1 (S r2)); [lia|]. rewrite Nat.eqb_refl. exact CR.
      * exists xs', l', r'. split; [exact E|]. destruct Q as (Q0 & Q).
        split; [|exact Q]. eapply rearr_trans; [|exact Q0]. apply rearr_swap; lia.
    + (* crossed: the next test exits *)
      destruct (IH xs jk pivot lo hi l1 r1) as (xs' & l' & r' & E & Q); auto; try lia; try (intros; exfalso; lia).
      * exists xs', l', r'. split; [exact E|]. exact Q.
  - exists xs, l, r. split; [reflexivity|]. split; [apply rearr_refl|].
    destruct I4 as [[H1 H2]|(H1 & H2 & p & Hp & Cp)]; [|lia].
    repeat split; auto; lia.
Qed.

Lemma quicksort_rep fuel : forall xs jk base n, Forall P xs ->
  base + n <= length xs -> n < fuel ->
  exists xs', QuickSortRecursive cmp fuel (map Some xs ++ jk) base n = Ok (map Some xs' ++ jk) /\
    rearr base (base + n) xs xs' /\
    (forall i j, base <= i -> i <= j -> j < base + n -> (cmp (xs' @ i) (xs' @ j) <= 0)%Z).
Proof.
  induction fuel as [|f IH]; intros xs jk base n HP Hn Hf; [lia|].
  cbn [QuickSortRecursive]. destruct (Nat.ltb_spec n 2) as [H2|H2].
  - exists xs. split; [reflexivity|]. split; [apply rearr_refl|].
    intros i j Hi Hij Hj. assert (i = j) as -> by lia.
    rewrite cmp_refl; [lia|]. apply Forall_at; auto; lia.
  - set (p := base + n / 2). assert (Hp : base < p < base + n) by (unfold p; lia).
    rewrite (@aget_rep _ xs jk p None) by lia. cbn [bind].
    set (pivot := xs @ p). assert (Pp : P pivot) by (apply Forall_at; auto; lia).
    assert (Cp : cmp (xs @ p) pivot = 0%Z) by (apply cmp_refl; auto).
    destruct (@partition_rep (S n) xs jk pivot base (base + n) base (base + n - 1))
      as (x1 & l & r & E & R1 & Hrl & Hl & Hr0 & Hr & Ple & Pge); try lia.
    { intros _. exists p. lia. }
    { intros _. exists p. lia. }
    { right. split; [auto|]. split; [lia|]. exists p. lia. }
    rewrite E. cbn [bind].
    pose proof (Forall_rearr R1 HP) as HP1. pose proof R1 as (L1 & _).
    destruct (IH x1 jk base (r - base + 1)) as (x2 & E2 & R2 & S2); auto; try lia.
    rewrite E2. cbn [bind].
    pose proof (Forall_rearr R2 HP1) as HP2. pose proof R2 as (L2 & _ & O2 & I2).
    destruct (IH x2 jk l (base + n - l)) as (x3 & E3 & R3 & S3); auto; try lia.
    rewrite E3. exists x3. split; [reflexivity|].
    pose proof (Forall_rearr R3 HP2) as HP3. pose proof R3 as (L3 & _ & O3 & I3).
    split.
    { eapply rearr_trans; [exact R1|]. eapply rearr_trans.
      - eapply rearr_widen; [| |exact R2]; lia.
      - eapply rearr_widen; [| |exact R3]; lia. }
    (* every element left of l is <= pivot, every element right of r is >= pivot *)
    assert (Q1 : forall k, base <= k < l -> (cmp (x3 @ k) pivot <= 0)%Z).
    { intros k Hk. rewrite O3 by lia. destruct (Nat.lt_ge_cases k (base + (r - base + 1))).
      - destruct (I2 k) as (k' & Hk' & ->); [lia|]. apply Ple; lia.
      - rewrite O2 by lia. apply Ple; lia. }
    assert (Q2 : forall k, r < k < base + n -> (cmp (x3 @ k) pivot >= 0)%Z).
    { intros k Hk. destruct (Nat.lt_ge_cases k l).
      - rewrite O3, O2 by lia. apply Pge; lia.
      - destruct (I3 k) as (k' & Hk' & ->); [lia|]. rewrite O2 by lia. apply Pge; lia. }
    intros i j Hi Hij Hj.
    destruct (Nat.lt_ge_cases j (base + (r - base + 1))) as [C1|C1].
    + rewrite !O3 by lia. apply S2; lia.
    + destruct (Nat.lt_ge_cases i l) as [C2|C2].
      * apply (@tp_trans _ _ _ Hcmp _ pivot); auto; try (apply Forall_at; auto; lia).
        { apply cmp_ge; auto; [apply Forall_at; auto; lia|]. apply Q2; lia. }
      * apply S3; lia.
Qed.

Lemma sort_rep (s : seq A) l : rep s l -> Forall P l -> (Z.of_nat (length l) <= 2147483647)%Z ->
  exists s' l', SeqSort cmp s = Ok s' /\ rep s' l' /\ Permutation l l' /\
    (forall i j, i <= j -> j < length l' -> (cmp (l' @ i) (l' @ j) <= 0)%Z) /\
    sdtor s' = sdtor s /\ slog s' = slog s.
Proof.
  intros (jk & Hd & Hl & Hc & Hp) HP HZ. unfold SeqSort. rewrite Hl, Hd.
  destruct (Z.leb_spec (Z.of_nat (length l)) 2147483647); [|lia].
  destruct (@quicksort_rep (S (length l)) l jk 0 (length l) HP) as (l' & E & R & S); try lia.
  rewrite E. cbn [bind]. pose proof R as (L & Q & _).
  eexists _, l'. split; [reflexivity|]. split; [|split; [auto|split; [|auto]]].
  - exists jk; simpl. repeat split; lia.
  - intros i j Hij Hj. apply S; lia.
Qed.

Lemma softsort_rep (s : seq A) l : rep s l -> Forall P l -> (Z.of_nat (length l) <= 2147483647)%Z ->
  exists s' l', SeqSoftSort cmp s = Ok s' /\ rep s' l' /\ Permutation l l' /\
    (forall i j, i <= j -> j < length l' -> (cmp (l' @ i) (l' @ j) <= 0)%Z).
Proof.
  intros R HP HZ. unfold SeqSoftSort, SeqLength. rewrite (rep_len R).
  destruct (Nat.eqb_spec (length l) 0) as [E|E].
  - exists (SeqNew A 0 false), []. split; [reflexivity|]. split; [apply rep_new|].
    destruct l; simpl in E; [|lia]. split; [auto|]. simpl; lia.
  - pose proof (getrange_rep 0 (length l - 1) R) as G.
    destruct (Nat.leb_spec 0 (length l - 1)); [|lia].
    destruct (Nat.ltb_spec (length l - 1) (length l)); [|lia]. cbn [andb] in G.
    destruct G as (t & Ht & Rt & _). rewrite Ht. cbn [bind]. rewrite slice_all in Rt.
    destruct (sort_rep Rt HP HZ) as (s' & l' & H1 & H2 & H3 & H4 & _). eauto 8.
Qed.

(** a sorted list is split by every key comparable with it *)
Lemma sorted_split_by key (l : list ptr) : Forall P l -> P key ->
  (forall i j, i <= j -> j < length l -> (cmp (l @ i) (l @ j) <= 0)%Z) -> split_by cmp key l.
Proof.
  intros HP Hk HS i j Hij Hj.
  assert (Pi : P (l @ i)) by (apply Forall_at; auto; lia).
  assert (Pj : P (l @ j)) by (apply Forall_at; auto; lia).
  specialize (HS i j Hij Hj).
  pose proof (tp_sym Hcmp Hk Pi). pose proof (tp_sym Hcmp Hk Pj). pose proof (tp_sym Hcmp Pi Pj).
  pose proof (tp_trans Hcmp Hk Pi Pj). pose proof (tp_trans Hcmp Pi Pj Hk).
  pose proof (tp_trans Hcmp Pj Hk Pi).
  repeat split; lia.
Qed.
End Sort.

(** ** statements used by PropsSeq.v *)
Lemma new_list_rep A cap d (l : list (option A)) s :
  append_list (SeqNew A cap d) l = Ok s -> rep s l /\ sdtor s = d /\ slog s = [].
Proof.
  intros H. destruct (append_list_rep l (rep_new A cap d)) as (s' & H1 & R & D & L).
  rewrite H1 in H. injection H as <-. auto.
Qed.

Lemma C01_lemma : forall (A : Type) (cmp : option A -> option A -> Z) (cap : nat) (d : bool)
         (ops : list (op A)) l outs dst rel,
  spec_run cmp [] ops = Some (l, outs, dst, rel) ->
  exists s, api_run cmp (SeqNew A cap d) ops = Ok (s, outs) /\ items s = Ok l /\
            SeqLength s = length l.
Proof.
  intros A cmp cap d ops l outs dst rel H.
  destruct (@run_refines A cmp ops _ _ _ _ _ _ (rep_new A cap d) H) as (s & H1 & R & _).
  exists s. split; [auto|]. split; [apply items_rep; auto|apply rep_len; auto].
Qed.

Lemma C01_guard_lemma : forall (A : Type) (cmp : option A -> option A -> Z) (cap : nat) (d : bool)
         (ops : list (op A)) l outs dst rel o s,
  spec_run cmp [] ops = Some (l, outs, dst, rel) ->
  api_run cmp (SeqNew A cap d) ops = Ok (s, outs) ->
  spec_step cmp l o = None -> api_step cmp s o = Abort.
Proof.
  intros A cmp cap d ops l outs dst rel o s H H1 H2.
  destruct (@run_refines A cmp ops _ _ _ _ _ _ (rep_new A cap d) H) as (s' & H1' & R & _).
  rewrite H1 in H1'. injection H1' as <-. eapply step_guard; eauto.
Qed.

Lemma append_self_diverges : forall (A : Type) (s : seq A) (l : list (option A)), l <> [] ->
  append_list (SeqNew A 0 false) l = Ok s ->
  forall fuel, SeqAppendSelf fuel s = Fuel.
Proof.
  intros A s l Hne H fuel. apply new_list_rep in H. destruct H as (R & _).
  unfold SeqAppendSelf.
  assert (G : forall fuel (s : seq A) l i, rep s l -> i < length l -> SeqAppendSelf_loop fuel s i = Fuel).
  { clear. induction fuel as [|f IH]; intros s l i R H; cbn [SeqAppendSelf_loop]; auto.
    rewrite (rep_len R). destruct (Nat.ltb_spec i (length l)); [|lia].
    rewrite (SeqAt_rep R) by auto. cbn [bind].
    destruct (append_rep (nth i l None) R) as (s1 & E & R1 & _). rewrite E. cbn [bind].
    apply (IH s1 (l ++ [nth i l None])); auto. rewrite app_length; simpl; lia. }
  apply G with (l := l); auto. destruct l; [congruence|simpl; lia].
Qed.

Lemma C02_lemma : forall (A : Type) (cmp : option A -> option A -> Z) (cap : nat)
         (ops : list (op A)) l outs dst rel,
  spec_run cmp [] ops = Some (l, outs, dst, rel) ->
  exists s, api_run cmp (SeqNew A cap true) ops = Ok (s, outs) /\
            slog s = dst /\ SeqDestroy s = Ok (dst ++ l) /\
            Permutation (flat_map (@given A) ops) (dst ++ rel ++ l).
Proof.
  intros A cmp cap ops l outs dst rel H.
  destruct (@run_refines A cmp ops _ _ _ _ _ _ (rep_new A cap true) H) as (s & H1 & R & D & L).
  simpl in L. exists s. split; [auto|]. split; [auto|]. split.
  - rewrite (destroy_rep R), L, D. reflexivity.
  - pose proof (@spec_run_account A cmp ops _ _ _ _ _ H) as P. rewrite app_nil_r in P. exact P.
Qed.

Lemma C02_nodtor_lemma : forall (A : Type) (cmp : option A -> option A -> Z) (cap : nat)
         (ops : list (op A)) l outs dst rel,
  spec_run cmp [] ops = Some (l, outs, dst, rel) ->
  exists s, api_run cmp (SeqNew A cap false) ops = Ok (s, outs) /\ SeqDestroy s = Ok [].
Proof.
  intros A cmp cap ops l outs dst rel H.
  destruct (@run_refines A cmp ops _ _ _ _ _ _ (rep_new A cap false) H) as (s & H1 & R & D & L).
  exists s. split; [auto|]. rewrite (destroy_rep R), L, D. reflexivity.
Qed.

Lemma C03_lemma : forall (A : Type) (cmp : option A -> option A -> Z) (cap : nat) (d : bool)
         (l : list (option A)) (s : seq A),
  append_list (SeqNew A cap d) l = Ok s ->
  total_preorder (fun x => In x l) cmp ->
  (Z.of_nat (length l) <= 2147483647)%Z ->
  exists s' l', SeqSort cmp s = Ok s' /\ items s' = Ok l' /\ Permutation l l' /\
    (forall i j, i <= j -> j < length l' -> (cmp (nth i l' None) (nth j l' None) <= 0)%Z).
Proof.
  intros A cmp cap d l s H T Z. apply new_list_rep in H. destruct H as (R & _).
  destruct (@sort_rep A cmp _ T s l R) as (s' & l' & H1 & R' & P & S & _); auto.
  { apply Forall_forall; auto. }
  exists s', l'. split; [auto|]. split; [apply items_rep; auto|auto].
Qed.

Lemma C03_soft_lemma : forall (A : Type) (cmp : option A -> option A -> Z) (cap : nat) (d : bool)
         (l : list (option A)) (s : seq A),
  append_list (SeqNew A cap d) l = Ok s ->
  total_preorder (fun x => In x l) cmp ->
  (Z.of_nat (length l) <= 2147483647)%Z ->
  exists s' l', SeqSoftSort cmp s = Ok s' /\ items s' = Ok l' /\ items s = Ok l /\
    Permutation l l' /\
    (forall i j, i <= j -> j < length l' -> (cmp (nth i l' None) (nth j l' None) <= 0)%Z).
Proof.
  intros A cmp cap d l s H T Z. apply new_list_rep in H. destruct H as (R & _).
  destruct (@softsort_rep A cmp _ T s l R) as (s' & l' & H1 & R' & P & S); auto.
  { apply Forall_forall; auto. }
  exists s', l'. split; [auto|]. split; [apply items_rep; auto|].
  split; [apply items_rep; auto|auto].
Qed.

Lemma C03_bad_cmp : exists (cmp : option nat -> option nat -> Z) (l : list (option nat)) s,
    append_list (SeqNew nat 0 false) l = Ok s /\ SeqSort cmp s = UB.
Proof.
  exists (fun _ _ => (-1)%Z), [Some 1; Some 2],
    (mkSeq [Some (Some 1); Some (Some 2)] 2 2 false []).
  split; vm_compute; reflexivity.
Qed.

Lemma C04_lemma : forall (A : Type) (cmp : option A -> option A -> Z) (cap : nat) (d : bool)
         (l : list (option A)) (s : seq A) key,
  append_list (SeqNew A cap d) l = Ok s ->
  total_preorder (fun x => In x (key :: l)) cmp ->
  (forall i j, i <= j -> j < length l -> (cmp (nth i l None) (nth j l None) <= 0)%Z) ->
  (exists i, SeqBinaryIndexOf cmp s key = Ok (Some i) /\ i < length l /\
             cmp key (nth i l None) = 0%Z /\ SeqBinaryLookup cmp s key = Ok (nth i l None)) \/
  (SeqBinaryIndexOf cmp s key = Ok None /\ SeqBinaryLookup cmp s key = Ok None /\
   forall x, In x l -> cmp key x <> 0%Z).
Proof.
  intros A cmp cap d l s key H T S. apply new_list_rep in H. destruct H as (R & _).
  assert (F : Forall (fun x => In x (key :: l)) l) by (apply Forall_forall; simpl; auto).
  assert (K : In key (key :: l)) by (simpl; auto).
  pose proof (@sorted_split_by A cmp _ T key l F K S) as SB.
  destruct (binary_rep R SB) as (r & E & Hr). unfold SeqBinaryLookup. rewrite E. cbn [bind].
  destruct r as [i|].
  - left. destruct Hr as [H1 H2]. exists i. repeat split; auto. apply (aget_of R); auto.
  - right. auto.
Qed.

Lemma find_at A (f : option A -> bool) l i : i < length l -> f (nth i l None) = true ->
  (forall k, k < i -> f (nth k l None) = false) -> find f l = Some (nth i l None).
Proof.
  revert i; induction l as [|x t IH]; intros i Hi H1 H2; simpl in *; [lia|].
  destruct i as [|i].
  - rewrite H1; auto.
  - rewrite (H2 0) by lia. apply IH; auto; [lia|]. intros k Hk. apply (H2 (S k)); lia.
Qed.

Lemma find_none_in A (f : option A -> bool) l : (forall x, In x l -> f x = false) -> find f l = None.
Proof.
  induction l as [|x t IH]; simpl; intros H; auto. rewrite H by auto. apply IH; auto.
Qed.

Lemma C04_linear_lemma : forall (A : Type) (cmp : option A -> option A -> Z) (cap : nat) (d : bool)
         (l : list (option A)) (s : seq A) key,
  append_list (SeqNew A cap d) l = Ok s ->
  (exists i, SeqIndexOf cmp s key = Ok (Some i) /\ i < length l /\
             cmp key (nth i l None) = 0%Z /\ SeqLookup cmp s key = Ok (nth i l None) /\
             forall k, k < i -> cmp key (nth k l None) <> 0%Z) \/
  (SeqIndexOf cmp s key = Ok None /\ SeqLookup cmp s key = Ok None /\
   forall x, In x l -> cmp key x <> 0%Z).
Proof.
  intros A cmp cap d l s key H. apply new_list_rep in H. destruct H as (R & _).
  destruct (indexof_rep cmp key R) as (r & E & Hr). rewrite E, (lookup_rep cmp key R).
  destruct r as [i|].
  - left. destruct Hr as (H1 & H2 & H3). exists i. repeat split; auto.
    rewrite (@find_at A _ l i); auto; [lia|]. intros k Hk. specialize (H3 k Hk). lia.
  - right. repeat split; auto. rewrite find_none_in; auto. intros x Hx. specialize (Hr x Hx). lia.
Qed.

Lemma C05_lemma : forall (A : Type) (cap : nat) (d : bool) (l : list (option A)) (s : seq A) (rnd : nat -> nat),
  append_list (SeqNew A cap d) l = Ok s ->
  exists s' l', SeqShuffle s rnd = Ok s' /\ items s' = Ok l' /\ Permutation l l'.
Proof.
  intros A cap d l s rnd H. apply new_list_rep in H. destruct H as (R & _).
  destruct (shuffle_rep rnd R) as (s' & l' & H1 & R' & P & _). exists s', l'.
  split; [auto|]. split; [apply items_rep; auto|auto].
Qed.

Lemma C05_onto_lemma : forall (A : Type) (cap : nat) (d : bool) (l l' : list (option A)) (s : seq A),
  append_list (SeqNew A cap d) l = Ok s -> Permutation l l' ->
  exists rnd s', SeqShuffle s rnd = Ok s' /\ items s' = Ok l'.
Proof.
  intros A cap d l l' s H P. apply new_list_rep in H. destruct H as (R & _).
  destruct (shuffle_onto R P) as (rnd & s' & H1 & R'). exists rnd, s'.
  split; [auto|]. apply items_rep; auto.
Qed.

Lemma C05_reverse_lemma : forall (A : Type) (cap : nat) (d : bool) (l : list (option A)) (s : seq A),
  append_list (SeqNew A cap d) l = Ok s ->
  exists s', SeqReverse s = Ok s' /\ items s' = Ok (rev l).
Proof.
  intros A cap d l s H. apply new_list_rep in H. destruct H as (R & _).
  destruct (reverse_rep R) as (s' & H1 & R' & _). exists s'.
  split; [auto|]. apply items_rep; auto.
Qed.
