(** C127: keys and signatures own their numbers.  C128: methods own their names. *)
From Verif Require Import Prelude PreludeFacts Str CryptoModel.
Set Implicit Arguments.

(** ** C127 *)
(** the addresses among pointers *)
Fixpoint somes (l : list ptr) : list nat := match l with [] => [] | Some a :: l => a :: somes l | None :: l => somes l end.
(** all point to different numbers that are allocated *)
Definition owned (l : list ptr) (live : list nat) : Prop := NoDup (somes l) /\ incl (somes l) live.
(** what a field holds after a call with [new] for it *)
Definition latest (new old : ptr) : ptr := match new with Some _ => new | None => old end.
(** the numbers replaced, of pairs of an old and a new pointer *)
Fixpoint replaced (l : list (ptr * ptr)) : list nat :=
  match l with [] => [] | (Some a, Some _) :: l => a :: replaced l | _ :: l => replaced l end.
Definition without (live gone : list nat) : list nat := filter (fun a => negb (existsb (Nat.eqb a) gone)) live.

Lemma without_nil live : without live [] = live.
Proof. unfold without. induction live as [|a l IH]; [reflexivity|]. cbn [filter existsb negb]. f_equal. exact IH. Qed.
Lemma without_In a live gone : In a (without live gone) <-> In a live /\ ~ In a gone.
Proof.
  unfold without. rewrite filter_In, negb_true_iff. split; intros [H N]; (split; [exact H|]).
  - intros I. assert (existsb (Nat.eqb a) gone = true) by (apply existsb_exists; exists a; rewrite Nat.eqb_refl; auto). congruence.
  - destruct (existsb (Nat.eqb a) gone) eqn:E; [|reflexivity]. apply existsb_exists in E as [b [I E]]. apply Nat.eqb_eq in E. subst b. contradiction.
Qed.
Lemma BN_free_null live : BN_free live None = Ok live. Proof. reflexivity. Qed.
Lemma BN_free_more live gone a : In a live -> ~ In a gone -> BN_free (without live gone) (Some a) = Ok (without live (gone ++ [a])).
Proof.
  intros I N. cbn. replace (existsb (Nat.eqb a) (without live gone)) with true by (symmetry; apply existsb_exists; exists a; rewrite Nat.eqb_refl, without_In; auto). f_equal.
  unfold without. clear. induction live as [|b live IH]; [reflexivity|]. cbn [filter]. rewrite existsb_app. cbn [existsb]. rewrite orb_false_r.
  destruct (existsb (Nat.eqb b) gone); cbn [negb orb]; [exact IH|]. cbn [filter]. destruct (b =? a); cbn [negb]; rewrite IH; reflexivity.
Qed.
Lemma owned_In x l live : owned l live -> In (Some x) l -> In x live.
Proof. intros [_ I] H. apply I. clear I. induction l as [|[a|] l IH]; [destruct H| |]; cbn; destruct H as [E|H]; try discriminate; [injection E as <-; now left|right; auto|auto]. Qed.
(** frees of different held numbers *)
Ltac proj := cbn [bind app null negb latest rsa_n rsa_e rsa_d rsa_p rsa_q rsa_dmp1 rsa_dmq1 rsa_iqmp dsa_p dsa_q dsa_g dsa_pub_key dsa_priv_key sig_r sig_s dh_p dh_q dh_g dh_pub_key dh_priv_key dh_length].
Ltac frees O := repeat
  (match goal with
  | |- context [BN_free ?l None] => rewrite (BN_free_null l)
  | |- context [BN_free (without ?l ?g) (Some ?a)] =>
      rewrite (@BN_free_more l g a) by (first [apply (@owned_In a _ _ O); cbn; tauto | destruct O as [O _]; cbn in O |- *; repeat (let N := fresh "N" in apply NoDup_cons_iff in O as [N O]; cbn in N); intuition congruence])
  | |- context [BN_free ?l (Some ?a)] => is_var l; rewrite <- (without_nil l) at 1
  end; proj).

Definition RSA_fields (r : RSA) : list ptr := [rsa_n r; rsa_e r; rsa_d r; rsa_p r; rsa_q r; rsa_dmp1 r; rsa_dmq1 r; rsa_iqmp r].
Definition DSA_fields (d : DSA) : list ptr := [dsa_p d; dsa_q d; dsa_g d; dsa_pub_key d; dsa_priv_key d].
Definition SIG_fields (s : SIG) : list ptr := [sig_r s; sig_s s].
Definition DH_fields (d : DH) : list ptr := [dh_p d; dh_q d; dh_g d; dh_pub_key d; dh_priv_key d].

Theorem C127_RSA_set0_key k n e d live : owned [rsa_n k; rsa_e k; rsa_d k] live ->
  RSA_set0_key k n e d live =
    if (null (rsa_n k) && null n) || (null (rsa_e k) && null e) then Ok (false, k, live)
    else Ok (true, mkRSA (latest n (rsa_n k)) (latest e (rsa_e k)) (latest d (rsa_d k)) (rsa_p k) (rsa_q k) (rsa_dmp1 k) (rsa_dmq1 k) (rsa_iqmp k), without live (replaced [(rsa_n k, n); (rsa_e k, e); (rsa_d k, d)])).
Proof.
  intros O. unfold RSA_set0_key. destruct (_ || _); [reflexivity|]. destruct k as [fn fe fd fp fq fdmp1 fdmq1 fiqmp]. proj. cbn [rsa_n rsa_e rsa_d rsa_p rsa_q rsa_dmp1 rsa_dmq1 rsa_iqmp] in O.
  destruct n, e, d; proj; destruct fn, fe, fd; cbn [replaced]; frees O; rewrite ?without_nil; reflexivity.
Qed.
Theorem C127_RSA_set0_factors k p q live : owned [rsa_p k; rsa_q k] live ->
  RSA_set0_factors k p q live =
    if (null (rsa_p k) && null p) || (null (rsa_q k) && null q) then Ok (false, k, live)
    else Ok (true, mkRSA (rsa_n k) (rsa_e k) (rsa_d k) (latest p (rsa_p k)) (latest q (rsa_q k)) (rsa_dmp1 k) (rsa_dmq1 k) (rsa_iqmp k), without live (replaced [(rsa_p k, p); (rsa_q k, q)])).
Proof.
  intros O. unfold RSA_set0_factors. destruct (_ || _); [reflexivity|]. destruct k as [fn fe fd fp fq fdmp1 fdmq1 fiqmp]. proj. cbn [rsa_n rsa_e rsa_d rsa_p rsa_q rsa_dmp1 rsa_dmq1 rsa_iqmp] in O.
  destruct p, q; proj; destruct fp, fq; cbn [replaced]; frees O; rewrite ?without_nil; reflexivity.
Qed.
Theorem C127_RSA_set0_crt_params k dmp1 dmq1 iqmp live : owned [rsa_dmp1 k; rsa_dmq1 k; rsa_iqmp k] live ->
  RSA_set0_crt_params k dmp1 dmq1 iqmp live =
    if (null (rsa_dmp1 k) && null dmp1) || (null (rsa_dmq1 k) && null dmq1) || (null (rsa_iqmp k) && null iqmp) then Ok (false, k, live)
    else Ok (true, mkRSA (rsa_n k) (rsa_e k) (rsa_d k) (rsa_p k) (rsa_q k) (latest dmp1 (rsa_dmp1 k)) (latest dmq1 (rsa_dmq1 k)) (latest iqmp (rsa_iqmp k)), without live (replaced [(rsa_dmp1 k, dmp1); (rsa_dmq1 k, dmq1); (rsa_iqmp k, iqmp)])).
Proof.
  intros O. unfold RSA_set0_crt_params. destruct (_ || _); [reflexivity|]. destruct k as [fn fe fd fp fq fdmp1 fdmq1 fiqmp]. proj. cbn [rsa_n rsa_e rsa_d rsa_p rsa_q rsa_dmp1 rsa_dmq1 rsa_iqmp] in O.
  destruct dmp1, dmq1, iqmp; proj; destruct fdmp1, fdmq1, fiqmp; cbn [replaced]; frees O; rewrite ?without_nil; reflexivity.
Qed.
Theorem C127_DSA_set0_pqg k p q g live : owned [dsa_p k; dsa_q k; dsa_g k] live ->
  DSA_set0_pqg k p q g live =
    if (null (dsa_p k) && null p) || (null (dsa_q k) && null q) || (null (dsa_g k) && null g) then Ok (false, k, live)
    else Ok (true, mkDSA (latest p (dsa_p k)) (latest q (dsa_q k)) (latest g (dsa_g k)) (dsa_pub_key k) (dsa_priv_key k), without live (replaced [(dsa_p k, p); (dsa_q k, q); (dsa_g k, g)])).
Proof.
  intros O. unfold DSA_set0_pqg. destruct (_ || _); [reflexivity|]. destruct k as [fp fq fg fpub_key fpriv_key]. proj. cbn [dsa_p dsa_q dsa_g dsa_pub_key dsa_priv_key] in O.
  destruct p, q, g; proj; destruct fp, fq, fg; cbn [replaced]; frees O; rewrite ?without_nil; reflexivity.
Qed.
Theorem C127_DSA_set0_key k pub_key priv_key live : owned [dsa_pub_key k; dsa_priv_key k] live ->
  DSA_set0_key k pub_key priv_key live =
    if (null (dsa_pub_key k) && null pub_key) then Ok (false, k, live)
    else Ok (true, mkDSA (dsa_p k) (dsa_q k) (dsa_g k) (latest pub_key (dsa_pub_key k)) (latest priv_key (dsa_priv_key k)), without live (replaced [(dsa_pub_key k, pub_key); (dsa_priv_key k, priv_key)])).
Proof.
  intros O. unfold DSA_set0_key. destruct (_ && _); [reflexivity|]. destruct k as [fp fq fg fpub_key fpriv_key]. proj. cbn [dsa_p dsa_q dsa_g dsa_pub_key dsa_priv_key] in O.
  destruct pub_key, priv_key; proj; destruct fpub_key, fpriv_key; cbn [replaced]; frees O; rewrite ?without_nil; reflexivity.
Qed.
Theorem C127_DH_set0_key k pub_key priv_key live : owned [dh_pub_key k; dh_priv_key k] live ->
  DH_set0_key k pub_key priv_key live =
    if (null (dh_pub_key k) && null pub_key) then Ok (false, k, live)
    else Ok (true, mkDH (dh_p k) (dh_q k) (dh_g k) (latest pub_key (dh_pub_key k)) (latest priv_key (dh_priv_key k)) (dh_length k), without live (replaced [(dh_pub_key k, pub_key); (dh_priv_key k, priv_key)])).
Proof.
  intros O. unfold DH_set0_key. destruct (_ && _); [reflexivity|]. destruct k as [fp fq fg fpub_key fpriv_key flength]. proj. cbn [dh_p dh_q dh_g dh_pub_key dh_priv_key dh_length] in O.
  destruct pub_key, priv_key; proj; destruct fpub_key, fpriv_key; cbn [replaced]; frees O; rewrite ?without_nil; reflexivity.
Qed.
Theorem C127_SIG_set0 k r s live : owned (SIG_fields k) live ->
  SIG_set0 k r s live = if null r || null s then Ok (false, k, live) else Ok (true, mkSIG r s, without live (somes (SIG_fields k))).
Proof.
  intros O. unfold SIG_set0. destruct (null r || null s); [reflexivity|]. destruct k as [fr fs]. proj. unfold SIG_fields in *. cbn [sig_r sig_s] in *.
  destruct fr, fs; cbn [somes]; frees O; rewrite ?without_nil; reflexivity.
Qed.
(** of DH also the length, which becomes that of q if q is given *)
Theorem C127_DH_set0_pqg bits k p q g live : owned ([dh_p k; dh_q k; dh_g k] ++ [q]) live ->
  DH_set0_pqg bits k p q g live =
    if (null (dh_p k) && null p) || (null (dh_g k) && null g) then Ok (false, k, live)
    else Ok (true, mkDH (latest p (dh_p k)) (latest q (dh_q k)) (latest g (dh_g k)) (dh_pub_key k) (dh_priv_key k) (match q with Some a => bits a | None => dh_length k end),
             without live (replaced [(dh_p k, p); (dh_q k, q); (dh_g k, g)])).
Proof.
  intros O. unfold DH_set0_pqg. destruct (_ || _); [reflexivity|]. destruct k as [fp fq fg fpub_key fpriv_key flength]. proj. cbn [dh_p dh_q dh_g app] in O.
  destruct q as [q|].
  2:{ destruct p, g; proj; destruct fp, fq, fg; cbn [replaced]; frees O; rewrite ?without_nil; reflexivity. }
  assert (QL : In q live) by (apply (@owned_In q _ _ O); cbn; tauto).
  assert (QN : fp <> Some q /\ fq <> Some q /\ fg <> Some q).
  { destruct O as [O _]. repeat split; intros EQ; destruct fp, fq, fg; try discriminate; try injection EQ as ->; cbn in O; repeat (let N := fresh "N" in apply NoDup_cons_iff in O as [N O]; cbn in N); intuition congruence. }
  assert (EX : forall gone, ~ In q gone -> existsb (Nat.eqb q) (without live gone) = true).
  { intros gone N. apply existsb_exists. exists q. rewrite Nat.eqb_refl, without_In. auto. }
  assert (EX0 : existsb (Nat.eqb q) live = true) by (apply existsb_exists; exists q; rewrite Nat.eqb_refl; auto).
  destruct QN as (Q1 & Q2 & Q3).
  destruct p, g; proj; destruct fp, fq, fg; cbn [replaced]; frees O; rewrite ?without_nil; rewrite ?EX0, ?EX by (cbn; intuition congruence); reflexivity.
Qed.

(** ** What the caller relies on, over histories of calls *)
(** A call with the arguments [args] on an object that held [old]: if it fails nothing changed and the arguments are still the caller's; if it
    succeeds the object holds the arguments, and exactly the numbers it held and no longer holds are freed. *)
Definition keeps (old args new : list ptr) (ok : bool) (live live' : list nat) : Prop :=
  if ok then (forall a, In (Some a) args -> In (Some a) new) /\ (forall a, In (Some a) new -> In (Some a) old \/ In (Some a) args) /\
             (forall a, In a live' <-> In a live /\ (In (Some a) old -> In (Some a) new)) /\ owned new live'
  else new = old /\ live' = live.
Lemma somes_In a l : In a (somes l) <-> In (Some a) l.
Proof. induction l as [|[b|] l IH]; cbn; [tauto|rewrite IH; intuition congruence|rewrite IH; intuition congruence]. Qed.
Lemma somes_app a b : somes (a ++ b) = somes a ++ somes b.
Proof. induction a as [|[x|] a IH]; cbn; [reflexivity|now rewrite IH|exact IH]. Qed.
(** fields as old and new pointer *)
Definition olds (l : list (ptr * ptr)) := map fst l.
Definition news (l : list (ptr * ptr)) := map (fun x => latest (snd x) (fst x)) l.
Lemma replaced_In a l : In a (replaced l) <-> exists b, In (Some a, Some b) l.
Proof.
  induction l as [|[[x|] [y|]] l IH]; cbn; [firstorder|..]; rewrite ?IH; split.
  - intros [->|[b I]]; eauto.
  - intros [b [E|I]]; [injection E as -> ->; auto|eauto].
  - intros [b I]; eauto.
  - intros [b [E|I]]; [discriminate|eauto].
  - intros [b I]; eauto.
  - intros [b [E|I]]; [discriminate|eauto].
  - intros [b I]; eauto.
  - intros [b [E|I]]; [discriminate|eauto].
Qed.
Lemma NoDup_left (A : Type) (a b : list A) : NoDup (a ++ b) -> NoDup a.
Proof. induction a as [|x a IH]; intros N; constructor; inversion N; subst; [rewrite in_app_iff in *; tauto|auto]. Qed.
Lemma step_keeps (l : list (ptr * ptr)) live : owned (olds l ++ map snd l) live ->
  keeps (olds l) (map snd l) (news l) true live (without live (replaced l)).
Proof.
  intros [ND IN]. unfold keeps. rewrite somes_app in ND, IN.
  assert (DIS : forall a, In (Some a) (olds l) -> In (Some a) (map snd l) -> False).
  { intros a I J. apply somes_In in I, J. clear IN. revert I J. generalize dependent (somes (map snd l)). intros m ND I J.
    apply in_split in I as (u & v & E). rewrite E in ND. rewrite <- app_assoc in ND. cbn in ND. apply NoDup_remove_2 in ND. apply ND. rewrite !in_app_iff. tauto. }
  assert (NW : forall a, In (Some a) (news l) <-> In (Some a) (map snd l) \/ exists o, In (Some a, None) l /\ o = @None nat).
  { intros a. unfold news. rewrite !in_map_iff. split.
    - intros ([o [n|]] & E & I); cbn in E; [left; exists (o, Some n); auto|]. subst o. right. eauto.
    - intros [([o n] & E & I)|(o & I & _)]; [exists (o, n); cbn in *; subst n; auto|exists (Some a, None); auto]. }
  split; [intros a I; apply NW; auto|]. split.
  { intros a I. apply NW in I as [I|(o & I & _)]; [auto|]. left. apply in_map_iff. exists (Some a, None). auto. }
  assert (UNI : forall a n n', In (Some a, n) l -> In (Some a, n') l -> n = n').
  { intros a n n' I J. assert (NDO : NoDup (somes (olds l))) by (eapply NoDup_left; exact ND). clear -I J NDO. induction l as [|[x y] l IH]; [destruct I|].
    cbn in NDO. destruct I as [I|I], J as [J|J].
    - congruence.
    - injection I as -> ->. cbn in NDO. apply NoDup_cons_iff in NDO as [NI _]. exfalso. apply NI, somes_In, in_map_iff. exists (Some a, n'). auto.
    - injection J as -> ->. cbn in NDO. apply NoDup_cons_iff in NDO as [NI _]. exfalso. apply NI, somes_In, in_map_iff. exists (Some a, n). auto.
    - apply IH; auto. destruct x; [apply NoDup_cons_iff in NDO; tauto|exact NDO]. }
  assert (LV : forall a, In a (without live (replaced l)) <-> In a live /\ (In (Some a) (olds l) -> In (Some a) (news l))).
  { intros a. rewrite without_In, replaced_In. split; intros [I H]; (split; [exact I|]).
    - intros O. apply in_map_iff in O as ([o n] & E & J). cbn in E. subst o. destruct n as [n|]; [exfalso; eauto|]. apply NW. right. eauto.
    - intros [b J]. assert (O : In (Some a) (olds l)) by (apply in_map_iff; exists (Some a, Some b); auto). specialize (H O). apply NW in H as [H|(o & H & _)]; [eauto|].
      pose proof (UNI _ _ _ J H). discriminate. }
  split; [exact LV|]. split.
  - clear -ND. assert (G : forall l, NoDup (somes (olds l) ++ somes (map snd l)) -> NoDup (somes (news l)) /\ forall a, In a (somes (news l)) -> In a (somes (olds l)) \/ In a (somes (map snd l))).
    { clear. induction l as [|[x y] l IH]; intros ND; [split; [constructor|intros a []]|].
      assert (ND' : NoDup (somes (olds l) ++ somes (map snd l))).
      { destruct x as [x|], y as [y|]; cbn in ND; try (apply NoDup_cons_iff in ND as [_ ND]); try (apply NoDup_remove_1 in ND); exact ND. }
      destruct (IH ND') as [I1 I2]. destruct x as [x|], y as [y|]; cbn [news olds map latest fst snd somes] in *; fold (news l) in *; fold (olds l) in *.
      - cbn in ND. apply NoDup_cons_iff in ND as [NX ND]. apply NoDup_remove in ND as [_ NY]. split.
        + constructor; [|exact I1]. intros I. apply I2 in I. apply NY, in_app_iff. tauto.
        + intros a [<-|I]; cbn; [tauto|]. apply I2 in I. tauto.
      - cbn in ND. apply NoDup_cons_iff in ND as [NX ND]. split.
        + constructor; [|exact I1]. intros I. apply I2 in I. apply NX, in_app_iff. tauto.
        + intros a [<-|I]; cbn; [tauto|]. apply I2 in I. tauto.
      - apply NoDup_remove in ND as [_ NY]. split.
        + constructor; [|exact I1]. intros I. apply I2 in I. apply NY, in_app_iff. tauto.
        + intros a [<-|I]; cbn; [tauto|]. apply I2 in I. tauto.
      - auto. }
    apply G, ND.
  - intros a I. apply somes_In in I. apply LV. split; [|auto]. apply IN, in_app_iff. rewrite !somes_In. apply NW in I as [I|(o & I & _)]; [auto|]. left. apply in_map_iff. exists (Some a, None). auto.
Qed.

Section History.
  Variables T C : Type.
  Variable fields : T -> list ptr.
  Variable args : C -> list ptr.
  Variable exec : T -> C -> list nat -> res (bool * T * list nat).
  (** the calls one after the other; which of them succeeded *)
  Fixpoint calls (l : list C) (k : T) (live : list nat) : res (list bool * T * list nat) :=
    match l with
    | [] => Ok ([], k, live)
    | c :: l => let* ' (ok, k, live) := exec k c live in let* ' (oks, k, live) := calls l k live in Ok (ok :: oks, k, live)
    end.
  (** the arguments of the calls that succeeded *)
  Fixpoint taken (l : list C) (oks : list bool) : list ptr :=
    match l, oks with c :: l, ok :: oks => (if ok then args c else []) ++ taken l oks | _, _ => [] end.
  Lemma taken_sub l oks x : In x (taken l oks) -> In x (flat_map args l).
  Proof. revert oks. induction l as [|c l IH]; intros [|[|] oks]; cbn; try tauto; rewrite ?in_app_iff; intros H; intuition eauto. Qed.
  Hypothesis good : forall k c live, owned (fields k ++ args c) live -> exists ok k' live', exec k c live = Ok (ok, k', live') /\ keeps (fields k) (args c) (fields k') ok live live'.
  Lemma history l : forall k live, owned (fields k ++ flat_map args l) live -> exists oks k' live',
    calls l k live = Ok (oks, k', live') /\ length oks = length l /\ owned (fields k') live' /\
    (forall a, In (Some a) (fields k') -> In (Some a) (fields k ++ taken l oks)) /\
    (forall a, In a live' <-> In a live /\ (In (Some a) (fields k ++ taken l oks) -> In (Some a) (fields k'))).
  Proof.
    induction l as [|c l IH]; intros k live O.
    { exists [], k, live. cbn in *. rewrite app_nil_r in *. split; [reflexivity|]. split; [reflexivity|]. split; [exact O|]. split; [auto|]. tauto. }
    cbn [flat_map calls] in *. rewrite app_assoc in O.
    assert (O1 : owned (fields k ++ args c) live).
    { destruct O as [N I]. rewrite somes_app in N, I. split; [eapply NoDup_left; exact N|]. intros a J. apply I, in_app_iff. auto. }
    assert (DIS : forall a, In (Some a) (fields k ++ args c) -> In (Some a) (flat_map args l) -> False).
    { intros a I J. apply somes_In in I, J. destruct O as [N _]. rewrite somes_app in N. apply in_split in I as (u & v & E). rewrite E in N. rewrite <- app_assoc in N. cbn in N.
      apply NoDup_remove_2 in N. apply N. rewrite !in_app_iff. tauto. }
    assert (NR : NoDup (somes (flat_map args l))).
    { destruct O as [N _]. rewrite somes_app in N. clear -N. induction (somes (fields k ++ args c)) as [|x m IH]; [exact N|]. inversion N; auto. }
    assert (IR : incl (somes (flat_map args l)) live). { destruct O as [_ I]. rewrite somes_app in I. intros a J. apply I, in_app_iff. auto. }
    assert (DSJ : forall (A : Type) (x y : list A), NoDup x -> NoDup y -> (forall a, In a x -> In a y -> False) -> NoDup (x ++ y)).
    { clear. induction x as [|a x IH]; intros y X Y D; [exact Y|]. inversion X as [|? ? N X']; subst. cbn. constructor; [|apply IH; auto; intros b I J; apply (D b); [right|]; auto].
      rewrite in_app_iff. intros [I|I]; [contradiction|]. apply (D a); [left; reflexivity|exact I]. }
    destruct (@good k c live O1) as (ok & k1 & live1 & E & K). rewrite E. cbn [bind]. destruct ok; unfold keeps in K.
    - destruct K as (K1 & K2 & K3 & K4).
      assert (O2 : owned (fields k1 ++ flat_map args l) live1).
      { destruct K4 as [N I]. split; rewrite somes_app.
        - apply DSJ; auto. intros a J1 J2. apply somes_In in J1, J2. apply (DIS a); [|exact J2]. apply in_app_iff. auto.
        - apply incl_app; [exact I|]. intros a J. apply K3. split; [apply IR, J|]. intros J2. exfalso. apply (DIS a); [apply in_app_iff; auto|now apply somes_In]. }
      destruct (IH k1 live1 O2) as (oks & k' & live' & E' & L & O' & S' & F'). exists (true :: oks), k', live'. rewrite E'. cbn [bind length taken].
      split; [reflexivity|]. split; [lia|]. split; [exact O'|].
      assert (SUB : forall a, In (Some a) (fields k') -> In (Some a) (fields k ++ args c ++ taken l oks)).
      { intros a I. apply S' in I. rewrite !in_app_iff in *. destruct I as [I|I]; [apply K2 in I; tauto|tauto]. }
      split; [exact SUB|]. intros a. rewrite F', K3. rewrite !in_app_iff. split.
      + intros [[I1 I2] I3]. split; [exact I1|]. intros [J|[J|J]]; [apply I3; left; auto|apply I3; left; apply K1, J|apply I3; right; exact J].
      + intros [I1 I2]. assert (OLD : In (Some a) (fields k) -> In (Some a) (fields k1)).
        { intros J. assert (J2 : In (Some a) (fields k')) by (apply I2; auto). apply S' in J2. apply in_app_iff in J2 as [J2|J2]; [exact J2|]. exfalso.
          apply (DIS a); [apply in_app_iff; auto|eapply taken_sub; exact J2]. }
        split; [split; [exact I1|exact OLD]|]. intros [J|J]; [apply K2 in J; apply I2; tauto|apply I2; tauto].
    - destruct K as [K1 K2]. subst live1.
      assert (O2 : owned (fields k1 ++ flat_map args l) live).
      { rewrite K1. destruct O1 as [N I]. rewrite somes_app in N, I. split; rewrite somes_app.
        - apply DSJ; auto; [eapply NoDup_left; exact N|]. intros a J1 J2. apply (DIS a); [apply in_app_iff; left; now apply somes_In|now apply somes_In].
        - apply incl_app; [|exact IR]. intros a J. apply I, in_app_iff. auto. }
      destruct (IH k1 live O2) as (oks & k' & live' & E' & L & O' & S' & F'). rewrite K1 in S', F'. exists (false :: oks), k', live'. rewrite E'. cbn [bind length taken app].
      split; [reflexivity|]. split; [lia|]. split; [exact O'|]. auto.
  Qed.
End History.

Lemma replaced_none p l : replaced ((p, None) :: l) = replaced l.
Proof. destruct p; reflexivity. Qed.
Lemma owned_part l m live : (forall a b c, m = a ++ b ++ c -> l = b -> owned m live -> owned l live).
Proof.
  intros a b c -> -> [N I]. rewrite !somes_app in *. split.
  - eapply NoDup_left. induction (somes a) as [|x u IH]; [exact N|]. apply IH; [now inversion N|]. intros y J. apply I. now right.
  - intros x J. apply I. rewrite !in_app_iff. tauto.
Qed.
Lemma step_good l args live : somes (map snd l) = somes args -> owned (olds l ++ args) live -> keeps (olds l) args (news l) true live (without live (replaced l)).
Proof.
  intros E O. assert (O' : owned (olds l ++ map snd l) live) by (unfold owned in *; rewrite somes_app, E, <- somes_app; exact O).
  destruct (step_keeps l O') as (K1 & K2 & K3 & K4). assert (X : forall a, In (Some a) args <-> In (Some a) (map snd l)) by (intros a; rewrite <- !somes_In, E; tauto).
  split; [intros a I; apply K1, X, I|]. split; [intros a I; apply K2 in I; rewrite X; tauto|]. auto.
Qed.
Lemma replaced_cons o n x l : replaced ((o, n) :: x :: l) = replaced [(o, n)] ++ replaced (x :: l).
Proof. destruct o, n; reflexivity. Qed.
Ltac gone_ok := repeat rewrite replaced_cons; rewrite ?replaced_none; cbn [replaced app]; rewrite ?app_nil_r; reflexivity.
(** a setter that does what its equation says *)
Lemma setter_good (T : Type) (fields : T -> list ptr) args (k k' : T) live (cond : bool) l gone r :
  owned (fields k ++ args) live -> olds l = fields k -> news l = fields k' -> somes (map snd l) = somes args ->
  replaced l = gone -> r = (if cond then Ok (false, k, live) else Ok (true, k', without live gone)) ->
  exists ok k1 live1, r = Ok (ok, k1, live1) /\ keeps (fields k) args (fields k1) ok live live1.
Proof.
  intros O E1 E2 E3 <- ->. destruct cond; [exists false, k, live; repeat split|]. eexists true, k', _. split; [reflexivity|]. rewrite <- E1, <- E2. apply step_good; [exact E3|]. rewrite E1. exact O.
Qed.
Inductive rsa_call := SetKey (n e d : ptr) | SetFactors (p q : ptr) | SetCrt (dmp1 dmq1 iqmp : ptr).
Definition rsa_args (c : rsa_call) : list ptr := match c with SetKey n e d => [n; e; d] | SetFactors p q => [p; q] | SetCrt dmp1 dmq1 iqmp => [dmp1; dmq1; iqmp] end.
Definition rsa_exec (r : RSA) (c : rsa_call) (live : list nat) := match c with SetKey n e d => RSA_set0_key r n e d live | SetFactors p q => RSA_set0_factors r p q live | SetCrt dmp1 dmq1 iqmp => RSA_set0_crt_params r dmp1 dmq1 iqmp live end.
(** The numbers a key has got (at first, or by calls that succeeded) and no longer holds are freed, all others are not; the key never holds a
    freed number, whatever the calls, if every number is passed once. *)
Theorem C127_RSA_history l r live : owned (RSA_fields r ++ flat_map rsa_args l) live -> exists oks r' live',
  calls rsa_exec l r live = Ok (oks, r', live') /\ length oks = length l /\ owned (RSA_fields r') live' /\
  (forall a, In a live' <-> In a live /\ (In (Some a) (RSA_fields r ++ taken rsa_args l oks) -> In (Some a) (RSA_fields r'))).
Proof.
  intros O. destruct (@history RSA rsa_call RSA_fields rsa_args rsa_exec) with (l := l) (k := r) (live := live) as (oks & r' & live' & E & L & O' & _ & F); [|exact O|eauto 10].
  clear. intros r c live O. destruct c as [n e d|p q|dmp1 dmq1 iqmp]; cbn [rsa_args rsa_exec] in *.
  - eapply (@setter_good RSA RSA_fields) with (l := [(rsa_n r, n); (rsa_e r, e); (rsa_d r, d); (rsa_p r, None); (rsa_q r, None); (rsa_dmp1 r, None); (rsa_dmq1 r, None); (rsa_iqmp r, None)]); [exact O|reflexivity| | | |rewrite C127_RSA_set0_key by (apply (@owned_part [rsa_n r; rsa_e r; rsa_d r] (RSA_fields r ++ [n; e; d]) live [] [rsa_n r; rsa_e r; rsa_d r] [rsa_p r; rsa_q r; rsa_dmp1 r; rsa_dmq1 r; rsa_iqmp r; n; e; d] eq_refl eq_refl O)); reflexivity].
    + destruct n, e, d; reflexivity.
    + destruct n, e, d; reflexivity.
    + gone_ok.
  - eapply (@setter_good RSA RSA_fields) with (l := [(rsa_n r, None); (rsa_e r, None); (rsa_d r, None); (rsa_p r, p); (rsa_q r, q); (rsa_dmp1 r, None); (rsa_dmq1 r, None); (rsa_iqmp r, None)]); [exact O|reflexivity| | | |rewrite C127_RSA_set0_factors by (apply (@owned_part [rsa_p r; rsa_q r] (RSA_fields r ++ [p; q]) live [rsa_n r; rsa_e r; rsa_d r] [rsa_p r; rsa_q r] [rsa_dmp1 r; rsa_dmq1 r; rsa_iqmp r; p; q] eq_refl eq_refl O)); reflexivity].
    + destruct p, q; reflexivity.
    + destruct p, q; reflexivity.
    + gone_ok.
  - eapply (@setter_good RSA RSA_fields) with (l := [(rsa_n r, None); (rsa_e r, None); (rsa_d r, None); (rsa_p r, None); (rsa_q r, None); (rsa_dmp1 r, dmp1); (rsa_dmq1 r, dmq1); (rsa_iqmp r, iqmp)]); [exact O|reflexivity| | | |rewrite C127_RSA_set0_crt_params by (apply (@owned_part [rsa_dmp1 r; rsa_dmq1 r; rsa_iqmp r] (RSA_fields r ++ [dmp1; dmq1; iqmp]) live [rsa_n r; rsa_e r; rsa_d r; rsa_p r; rsa_q r] [rsa_dmp1 r; rsa_dmq1 r; rsa_iqmp r] [dmp1; dmq1; iqmp] eq_refl eq_refl O)); reflexivity].
    + destruct dmp1, dmq1, iqmp; reflexivity.
    + destruct dmp1, dmq1, iqmp; reflexivity.
    + gone_ok.
Qed.
Inductive dsa_call := SetPqg (p q g : ptr) | SetDsaKey (pub_key priv_key : ptr).
Definition dsa_args (c : dsa_call) : list ptr := match c with SetPqg p q g => [p; q; g] | SetDsaKey pub_key priv_key => [pub_key; priv_key] end.
Definition dsa_exec (r : DSA) (c : dsa_call) (live : list nat) := match c with SetPqg p q g => DSA_set0_pqg r p q g live | SetDsaKey pub_key priv_key => DSA_set0_key r pub_key priv_key live end.
Theorem C127_DSA_history l r live : owned (DSA_fields r ++ flat_map dsa_args l) live -> exists oks r' live',
  calls dsa_exec l r live = Ok (oks, r', live') /\ length oks = length l /\ owned (DSA_fields r') live' /\
  (forall a, In a live' <-> In a live /\ (In (Some a) (DSA_fields r ++ taken dsa_args l oks) -> In (Some a) (DSA_fields r'))).
Proof.
  intros O. destruct (@history DSA dsa_call DSA_fields dsa_args dsa_exec) with (l := l) (k := r) (live := live) as (oks & r' & live' & E & L & O' & _ & F); [|exact O|eauto 10].
  clear. intros r c live O. destruct c as [p q g|pub_key priv_key]; cbn [dsa_args dsa_exec] in *.
  - eapply (@setter_good DSA DSA_fields) with (l := [(dsa_p r, p); (dsa_q r, q); (dsa_g r, g); (dsa_pub_key r, None); (dsa_priv_key r, None)]); [exact O|reflexivity| | | |rewrite C127_DSA_set0_pqg by (apply (@owned_part [dsa_p r; dsa_q r; dsa_g r] (DSA_fields r ++ [p; q; g]) live [] [dsa_p r; dsa_q r; dsa_g r] [dsa_pub_key r; dsa_priv_key r; p; q; g] eq_refl eq_refl O)); reflexivity].
    + destruct p, q, g; reflexivity.
    + destruct p, q, g; reflexivity.
    + gone_ok.
  - eapply (@setter_good DSA DSA_fields) with (l := [(dsa_p r, None); (dsa_q r, None); (dsa_g r, None); (dsa_pub_key r, pub_key); (dsa_priv_key r, priv_key)]); [exact O|reflexivity| | | |rewrite C127_DSA_set0_key by (apply (@owned_part [dsa_pub_key r; dsa_priv_key r] (DSA_fields r ++ [pub_key; priv_key]) live [dsa_p r; dsa_q r; dsa_g r] [dsa_pub_key r; dsa_priv_key r] [pub_key; priv_key] eq_refl eq_refl O)); reflexivity].
    + destruct pub_key, priv_key; reflexivity.
    + destruct pub_key, priv_key; reflexivity.
    + gone_ok.
Qed.
Lemma owned_pqg p q g (r : DH) live : owned (DH_fields r ++ [p; q; g]) live -> owned ([dh_p r; dh_q r; dh_g r] ++ [q]) live.
Proof.
  unfold DH_fields, owned. rewrite !somes_app. intros [N I].
  change (somes [dh_p r; dh_q r; dh_g r; dh_pub_key r; dh_priv_key r]) with (somes ([dh_p r; dh_q r; dh_g r] ++ [dh_pub_key r; dh_priv_key r])) in N, I.
  rewrite somes_app in N, I. set (A := somes [dh_p r; dh_q r; dh_g r]) in *. set (B := somes [dh_pub_key r; dh_priv_key r]) in *.
  change [p; q; g] with ([p] ++ [q] ++ [g]) in N, I. rewrite !somes_app in N, I. split.
  - assert (G : forall (x y z : list nat), NoDup (x ++ y ++ z) -> NoDup (x ++ z)).
    { clear. intros x y z. induction x as [|a x IH]; cbn; intros N; [induction y as [|b y IH]; [exact N|apply IH; now inversion N]|].
      inversion N as [|? ? NI N']; subst. constructor; [|apply IH; exact N']. rewrite !in_app_iff in *. tauto. }
    apply (@G A (B ++ somes [p]) (somes [q])). rewrite <- app_assoc in N. rewrite <- app_assoc.
    apply (@NoDup_left nat _ (somes [g])). rewrite <- !app_assoc. exact N.
  - intros a J. apply I. rewrite !in_app_iff in *. tauto.
Qed.
Inductive dh_call := SetDhPqg (p q g : ptr) | SetDhKey (pub_key priv_key : ptr).
Definition dh_args (c : dh_call) : list ptr := match c with SetDhPqg p q g => [p; q; g] | SetDhKey pub_key priv_key => [pub_key; priv_key] end.
Definition dh_exec (bits : nat -> Z) (r : DH) (c : dh_call) (live : list nat) := match c with SetDhPqg p q g => DH_set0_pqg bits r p q g live | SetDhKey pub_key priv_key => DH_set0_key r pub_key priv_key live end.
Theorem C127_DH_history bits l r live : owned (DH_fields r ++ flat_map dh_args l) live -> exists oks r' live',
  calls (dh_exec bits) l r live = Ok (oks, r', live') /\ length oks = length l /\ owned (DH_fields r') live' /\
  (forall a, In a live' <-> In a live /\ (In (Some a) (DH_fields r ++ taken dh_args l oks) -> In (Some a) (DH_fields r'))).
Proof.
  intros O. destruct (@history DH dh_call DH_fields dh_args (dh_exec bits)) with (l := l) (k := r) (live := live) as (oks & r' & live' & E & L & O' & _ & F); [|exact O|eauto 10].
  clear. intros r c live O. destruct c as [p q g|pub_key priv_key]; cbn [dh_args dh_exec] in *.
  - eapply (@setter_good DH DH_fields) with (l := [(dh_p r, p); (dh_q r, q); (dh_g r, g); (dh_pub_key r, None); (dh_priv_key r, None)]); [exact O|reflexivity| | | |rewrite C127_DH_set0_pqg by (apply (@owned_pqg p q g r live O)); reflexivity].
    + destruct p, q, g; reflexivity.
    + destruct p, q, g; reflexivity.
    + gone_ok.
  - eapply (@setter_good DH DH_fields) with (l := [(dh_p r, None); (dh_q r, None); (dh_g r, None); (dh_pub_key r, pub_key); (dh_priv_key r, priv_key)]); [exact O|reflexivity| | | |rewrite C127_DH_set0_key by (apply (@owned_part [dh_pub_key r; dh_priv_key r] (DH_fields r ++ [pub_key; priv_key]) live [dh_p r; dh_q r; dh_g r] [dh_pub_key r; dh_priv_key r] [pub_key; priv_key] eq_refl eq_refl O)); reflexivity].
    + destruct pub_key, priv_key; reflexivity.
    + destruct pub_key, priv_key; reflexivity.
    + gone_ok.
Qed.
Theorem C127_SIG_history l k live : owned (SIG_fields k ++ flat_map (fun c => [fst c; snd c]) l) live -> exists oks k' live',
  calls (fun k c live => SIG_set0 k (fst c) (snd c) live) l k live = Ok (oks, k', live') /\ length oks = length l /\ owned (SIG_fields k') live' /\
  (forall a, In a live' <-> In a live /\ (In (Some a) (SIG_fields k ++ taken (fun c => [fst c; snd c]) l oks) -> In (Some a) (SIG_fields k'))).
Proof.
  intros O. destruct (@history SIG (ptr * ptr) SIG_fields (fun c => [fst c; snd c]) (fun k c live => SIG_set0 k (fst c) (snd c) live)) with (l := l) (k := k) (live := live) as (oks & k' & live' & E & L & O' & _ & F); [|exact O|eauto 10].
  clear. intros k [r s] live O. cbn [fst snd] in *. rewrite C127_SIG_set0 by (apply (@owned_part (SIG_fields k) (SIG_fields k ++ [r; s]) live [] (SIG_fields k) [r; s] eq_refl eq_refl O)).
  destruct (null r || null s) eqn:NS; [exists false, k, live; repeat split|]. destruct r as [r|], s as [s|]; try discriminate.
  pose proof (@step_good [(sig_r k, Some r); (sig_s k, Some s)] [Some r; Some s] live eq_refl O) as K.
  eexists true, _, _. split; [reflexivity|]. replace (somes (SIG_fields k)) with (replaced [(sig_r k, Some r); (sig_s k, Some s)]); [exact K|].
  destruct k as [[x|] [y|]]; reflexivity.
Qed.
(** the getters give what is held, to places that are given *)
Theorem C127_get r d s h a b c (x := Some a) (y := Some b) (z := Some c) :
  RSA_get0_key r x y z = (Some (rsa_n r), Some (rsa_e r), Some (rsa_d r)) /\ RSA_get0_factors r x y = (Some (rsa_p r), Some (rsa_q r)) /\
  RSA_get0_crt_params r x y z = (Some (rsa_dmp1 r), Some (rsa_dmq1 r), Some (rsa_iqmp r)) /\
  DSA_get0_pqg d x y z = (Some (dsa_p d), Some (dsa_q d), Some (dsa_g d)) /\ DSA_get0_key d x y = (Some (dsa_pub_key d), Some (dsa_priv_key d)) /\
  SIG_get0 s x y = (Some (sig_r s), Some (sig_s s)) /\
  DH_get0_pqg h x y z = (Some (dh_p h), Some (dh_q h), Some (dh_g h)) /\ DH_get0_key h x y = (Some (dh_pub_key h), Some (dh_priv_key h)) /\
  RSA_get0_key r None None None = (None, None, None) /\ DSA_get0_pqg d None y None = (None, Some (dsa_q d), None).
Proof. repeat split. Qed.
(** a number passed again is freed while the key holds it *)
Theorem C127_same_number_refuted : let r := mkRSA (Some 1) (Some 2) None None None None None None in
  owned (RSA_fields r) [1; 2] /\ exists r', RSA_set0_key r (Some 1) None None [1; 2] = Ok (true, r', [2]) /\ rsa_n r' = Some 1.
Proof. split; [split; [repeat constructor; cbn; intuition discriminate|intros a; cbn; tauto]|]. eexists. split; reflexivity. Qed.
Example C127_nonvacuous : let r := mkRSA None None None None None None None None in
  owned (RSA_fields r ++ flat_map rsa_args [SetKey (Some 1) None None; SetKey (Some 2) (Some 3) None; SetKey (Some 4) None (Some 5)]) [1; 2; 3; 4; 5] /\
  calls rsa_exec [SetKey (Some 1) None None; SetKey (Some 2) (Some 3) None; SetKey (Some 4) None (Some 5)] r [1; 2; 3; 4; 5]
    = Ok ([false; true; true], mkRSA (Some 4) (Some 3) (Some 5) None None None None None, [1; 3; 4; 5]).
Proof. split; [split; [repeat constructor; cbn; intuition discriminate|intros a; cbn; tauto]|reflexivity]. Qed.
Print Assumptions C127_RSA_set0_key.
Print Assumptions C127_RSA_set0_factors.
Print Assumptions C127_RSA_set0_crt_params.
Print Assumptions C127_DSA_set0_pqg.
Print Assumptions C127_DSA_set0_key.
Print Assumptions C127_DH_set0_key.
Print Assumptions C127_DH_set0_pqg.
Print Assumptions C127_SIG_set0.
Print Assumptions C127_RSA_history.
Print Assumptions C127_DSA_history.
Print Assumptions C127_DH_history.
Print Assumptions C127_SIG_history.
Print Assumptions C127_get.
Print Assumptions C127_same_number_refuted.

(** ** C128 *)
(** a method at [a] whose name is the text [t] *)
Definition method_named (h : mheap) (a : nat) (m : METHOD) (t : list byte) : Prop := method_at h a = Ok m /\ text_at h (meth_name m) = Ok t.
Lemma fresh_not h : ~ In (fresh h) (map fst h).
Proof.
  unfold fresh. intros I. assert (G : forall l x, In x l -> x <= fold_right Nat.max 0 l) by (induction l as [|y l IH]; cbn; intros x []; [lia|specialize (IH _ H); lia]).
  apply G in I. lia.
Qed.
Lemma filter_absent (h : mheap) a : ~ In a (map fst h) -> filter (fun x => negb (fst x =? a)) h = h.
Proof.
  induction h as [|[b o] h IH]; intros N; [reflexivity|]. cbn in *. destruct (Nat.eqb_spec b a); [tauto|]. cbn [negb]. f_equal. apply IH. tauto.
Qed.
Lemma map_absent (h : mheap) a o : ~ In a (map fst h) -> map (fun x => if fst x =? a then (a, o) else x) h = h.
Proof. induction h as [|[b p] h IH]; intros N; [reflexivity|]. cbn in *. destruct (Nat.eqb_spec b a); [tauto|]. f_equal. apply IH. tauto. Qed.
Lemma lookup_skip h b o a : a <> b -> lookup ((b, o) :: h) a = lookup h a.
Proof. intros N. unfold lookup. cbn. destruct (Nat.eqb_spec b a); [congruence|reflexivity]. Qed.
Lemma lookup_hit h a o : lookup ((a, o) :: h) a = Ok o.
Proof. unfold lookup. cbn. rewrite Nat.eqb_refl. reflexivity. Qed.
Lemma lookup_In h a o : lookup h a = Ok o -> In a (map fst h).
Proof.
  unfold lookup. destruct (find _ h) as [[x p]|] eqn:F; [|discriminate]. intros _. apply find_some in F as [I E]. cbn in E. apply Nat.eqb_eq in E. subst x.
  apply in_map_iff. exists (a, p). auto.
Qed.
Lemma method_In h a m : method_at h a = Ok m -> In a (map fst h).
Proof. unfold method_at. destruct (lookup h a) eqn:E; try discriminate. intros _. eapply lookup_In; eauto. Qed.
Lemma text_In h a t : text_at h a = Ok t -> In a (map fst h).
Proof. unfold text_at. destruct (lookup h a) eqn:E; try discriminate. intros _. eapply lookup_In; eauto. Qed.
Definition rename (m : METHOD) (a : nat) : METHOD := mkMETHOD a (meth_priv_enc m) (meth_priv_dec m) (meth_finish m) (meth_other m).
(** the heap with one more method and its name *)
Definition with_method (h : mheap) (r nm : nat) (m : METHOD) (t : list byte) : mheap := (nm, OText t) :: (r, OMethod m) :: h.
Definition apart (h : mheap) (r nm : nat) : Prop := r <> nm /\ ~ In r (map fst h) /\ ~ In nm (map fst h).
(** A copy of a method has its functions and a name of its own with the same text; the former contents of memory are unchanged, and are all
    there is if memory runs out at any point. *)
Theorem C128_dup h a m t ok1 ok2 : method_named h a m t ->
  if ok1 && ok2 then exists r nm, RSA_meth_dup h a ok1 ok2 = Ok (Some r, with_method h r nm (rename m nm) t) /\ apart h r nm
  else RSA_meth_dup h a ok1 ok2 = Ok (None, h).
Proof.
  intros [M T]. unfold RSA_meth_dup. rewrite M. cbn [bind]. destruct ok1; cbn [malloc andb]; [|reflexivity].
  pose proof (fresh_not h) as F. set (r := fresh h) in *. clearbody r.
  assert (NA : a <> r) by (intros ->; apply F; eapply method_In; eauto). assert (NN : meth_name m <> r) by (intros <-; apply F; eapply text_In; eauto).
  unfold method_at, text_at in *. rewrite (lookup_skip h (OMethod m) NA), M. cbn [bind]. rewrite (lookup_skip h (OMethod m) NN). rewrite T. cbn [bind].
  destruct ok2; cbn [malloc].
  - pose proof (fresh_not ((r, OMethod m) :: h)) as F2. set (nm := fresh ((r, OMethod m) :: h)) in *. clearbody nm. cbn in F2.
    rewrite lookup_skip by tauto. rewrite lookup_hit. cbn [bind]. unfold mstore. rewrite lookup_skip by tauto. rewrite lookup_hit. cbn [bind map fst].
    destruct (Nat.eqb_spec nm r); [subst; tauto|]. rewrite Nat.eqb_refl, map_absent by exact F. exists r, nm. split; [reflexivity|]. unfold apart. intuition congruence.
  - unfold mfree. rewrite lookup_hit. cbn [bind filter fst]. rewrite Nat.eqb_refl. cbn [negb]. rewrite filter_absent by exact F. reflexivity.
Qed.
(** operations on a method *)
Inductive mop := SetName (name : nat) (ok : bool) | SetEnc (f : nat) | SetDec (f : nat) | SetFinish (f : nat).
Definition mexec (h : mheap) (r : nat) (o : mop) : res mheap :=
  match o with
  | SetName name ok => let* ' (_, h) := RSA_meth_set1_name h r name ok in Ok h
  | SetEnc f => RSA_meth_set_priv_enc h r f
  | SetDec f => RSA_meth_set_priv_dec h r f
  | SetFinish f => RSA_meth_set_finish h r f
  end.
Fixpoint mops (h : mheap) (r : nat) (l : list mop) : res mheap := match l with [] => Ok h | o :: l => let* h := mexec h r o in mops h r l end.
(** a new name: a copy of the text, also if that is the method's own name; the former one is freed; nothing changes without memory *)
Theorem C128_set1_name h r nm m t name u (ok : bool) : apart h r nm -> meth_name m = nm -> text_at (with_method h r nm m t) name = Ok u ->
  if ok then exists nm', RSA_meth_set1_name (with_method h r nm m t) r name ok = Ok (true, with_method h r nm' (rename m nm') u) /\ apart h r nm'
  else RSA_meth_set1_name (with_method h r nm m t) r name ok = Ok (false, with_method h r nm m t).
Proof.
  intros (A1 & A2 & A3) MN T. unfold RSA_meth_set1_name. rewrite T. cbn [bind]. destruct ok; cbn [malloc]; [|reflexivity].
  pose proof (fresh_not (with_method h r nm m t)) as F. set (x := fresh _) in *. clearbody x. cbn in F.
  unfold method_at, with_method in *. rewrite !lookup_skip by intuition congruence. rewrite lookup_hit. cbn [bind]. rewrite MN. unfold mfree. rewrite lookup_skip by intuition congruence. rewrite lookup_hit. cbn [bind filter fst].
  destruct (Nat.eqb_spec x nm); [subst; tauto|]. cbn [negb]. rewrite Nat.eqb_refl. cbn [negb]. destruct (Nat.eqb_spec r nm); [congruence|]. cbn [negb]. rewrite filter_absent by exact A3.
  unfold mstore. rewrite lookup_skip by intuition congruence. rewrite lookup_hit. cbn [bind map fst]. destruct (Nat.eqb_spec x r); [subst; tauto|]. rewrite Nat.eqb_refl, map_absent by exact A2.
  exists x. split; [reflexivity|]. unfold apart. intuition congruence.
Qed.
Lemma setter h r nm m t m' : apart h r nm -> (let* m0 := method_at (with_method h r nm m t) r in Ok m0) = Ok m /\ mstore (with_method h r nm m t) r (OMethod m') = Ok (with_method h r nm m' t).
Proof.
  intros (A1 & A2 & A3). unfold method_at, mstore, with_method. rewrite !lookup_skip by congruence. rewrite !lookup_hit. cbn [bind map fst]. split; [reflexivity|].
  destruct (Nat.eqb_spec nm r); [congruence|]. rewrite Nat.eqb_refl, map_absent by exact A2. reflexivity.
Qed.
(** the functions are set one by one *)
Theorem C128_functions h r nm m t f : apart h r nm -> let H := with_method h r nm in
  RSA_meth_set_priv_enc (H m t) r f = Ok (H (mkMETHOD (meth_name m) f (meth_priv_dec m) (meth_finish m) (meth_other m)) t) /\
  RSA_meth_set_priv_dec (H m t) r f = Ok (H (mkMETHOD (meth_name m) (meth_priv_enc m) f (meth_finish m) (meth_other m)) t) /\
  RSA_meth_set_finish (H m t) r f = Ok (H (mkMETHOD (meth_name m) (meth_priv_enc m) (meth_priv_dec m) f (meth_other m)) t).
Proof.
  intros A H. assert (G : method_at (H m t) r = Ok m).
  { destruct A as (A1 & A2 & A3). unfold method_at, H, with_method. rewrite lookup_skip, lookup_hit by congruence. reflexivity. }
  unfold RSA_meth_set_priv_enc, RSA_meth_set_priv_dec, RSA_meth_set_finish. rewrite G. cbn [bind]. repeat split; apply (setter m t _ A).
Qed.
Theorem C128_free h r nm m t : apart h r nm -> meth_name m = nm -> RSA_meth_free (with_method h r nm m t) (Some r) = Ok h /\ RSA_meth_free h None = Ok h.
Proof.
  intros (A1 & A2 & A3) MN. split; [|reflexivity]. unfold RSA_meth_free, method_at, mfree, with_method. rewrite lookup_skip, lookup_hit by congruence. cbn [bind]. rewrite MN, lookup_hit. cbn [bind filter fst].
  rewrite Nat.eqb_refl. cbn [negb]. destruct (Nat.eqb_spec r nm); [congruence|]. cbn [negb]. rewrite filter_absent by exact A3. rewrite lookup_hit. cbn [bind filter fst]. rewrite Nat.eqb_refl. cbn [negb].
  rewrite filter_absent by exact A2. reflexivity.
Qed.
(** A copy, whatever is done to it (names taken from texts that exist before), and its end leave memory as it was. *)
Theorem C128_life h a m t l : method_named h a m t -> (forall name ok, In (SetName name ok) l -> exists u, text_at h name = Ok u) ->
  exists r h1 h2, RSA_meth_dup h a true true = Ok (Some r, h1) /\ mops h1 r l = Ok h2 /\ (forall x, In x (map fst h) -> lookup h2 x = lookup h x) /\ RSA_meth_free h2 (Some r) = Ok h.
Proof.
  intros M N. destruct (@C128_dup h a m t true true M) as (r & nm & E & A). exists r, (with_method h r nm (rename m nm) t).
  assert (G : forall l, (forall name ok, In (SetName name ok) l -> exists u, text_at h name = Ok u) -> forall nm m t, apart h r nm -> meth_name m = nm ->
    exists nm' m' t', mops (with_method h r nm m t) r l = Ok (with_method h r nm' m' t') /\ apart h r nm' /\ meth_name m' = nm').
  { clear. induction l as [|o l IH]; intros N nm m t A MN; [exists nm, m, t; auto|]. cbn [mops].
    assert (N' : forall name ok, In (SetName name ok) l -> exists u, text_at h name = Ok u) by (intros; eapply N; right; eauto).
    destruct o as [name ok|f|f|f]; cbn [mexec].
    - destruct (N name ok (or_introl eq_refl)) as [u U].
      assert (T : text_at (with_method h r nm m t) name = Ok u).
      { pose proof (@text_In _ _ _ U) as I. destruct A as (A1 & A2 & A3). unfold text_at, with_method. rewrite !lookup_skip by (intros ->; contradiction). exact U. }
      pose proof (@C128_set1_name h r nm m t name u ok A MN T) as S. destruct ok.
      + destruct S as (nm' & -> & A'). cbn [bind]. apply IH; auto.
      + rewrite S. cbn [bind]. apply IH; auto.
    - rewrite (proj1 (@C128_functions h r nm m t f A)). cbn [bind]. apply IH; auto.
    - rewrite (proj1 (proj2 (@C128_functions h r nm m t f A))). cbn [bind]. apply IH; auto.
    - rewrite (proj2 (proj2 (@C128_functions h r nm m t f A))). cbn [bind]. apply IH; auto. }
  destruct (G l N nm (rename m nm) t A eq_refl) as (nm' & m' & t' & E2 & A' & MN). exists (with_method h r nm' m' t'). split; [exact E|]. split; [exact E2|]. split.
  - intros x I. destruct A' as (A1 & A2 & A3). unfold with_method. rewrite !lookup_skip by (intros ->; contradiction). reflexivity.
  - apply C128_free; auto.
Qed.
Example C128_nonvacuous : let h := [(1, OMethod (mkMETHOD 2 10 11 12 13)); (2, OText (lit "rsa")); (3, OText (lit "mine"))] in
  method_named h 1 (mkMETHOD 2 10 11 12 13) (lit "rsa") /\
  (let* ' (r, h) := RSA_meth_dup h 1 true true in match r with Some r => let* h := mops h r [SetName 3 true; SetEnc 20] in method_at h r | None => Abort end) = Ok (mkMETHOD 6 20 11 12 13).
Proof. repeat split. Qed.
Print Assumptions C128_dup.
Print Assumptions C128_set1_name.
Print Assumptions C128_functions.
Print Assumptions C128_free.
Print Assumptions C128_life.
