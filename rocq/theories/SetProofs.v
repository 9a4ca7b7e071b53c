From Verif Require Import Prelude PreludeFacts MapModel MapSpec MapProofs Str StrFacts SetModel.
Set Implicit Arguments.

Section S.
Variable E : Type.
Variable equal : E -> E -> bool.
Variable hash : E -> N.
Hypothesis EQ : equal_ok equal hash.

(** the set holds exactly the elements equal to a member of [l] *)
Definition memb (l : list E) (k : E) : bool := existsb (fun e => equal e k) l.

(** [s] represents the predicate *)
Definition srep (s : set_t E) (P : E -> bool) : Prop :=
  exists m, rep equal hash s m /\ forall k, shas equal m k = P k.

Lemma srep_ext s P Q : srep s P -> (forall k, P k = Q k) -> srep s Q.
Proof. intros (m & R & H) HQ. exists m. split; auto. intros. rewrite H. auto. Qed.

Lemma srep_contains s P k : srep s P -> SetContains equal hash s k = Ok (P k).
Proof.
  intros (m & R & H). unfold SetContains, MapHasKey. rewrite (rep_getraw EQ k R). cbn [bind].
  rewrite find_existsb. f_equal. apply H.
Qed.

Lemma srep_new : srep (SetNew E) (fun _ => false).
Proof. exists []. split; [apply rep_new|]. auto. Qed.

Lemma shas_insert (m : list (E * E)) e v k : 
  shas equal ((e, v) :: srest equal m e) k = equal e k || shas equal m k.
Proof.
  unfold shas, srest. simpl. destruct (equal e k) eqn:Ee; simpl; auto.
  induction m as [|x t IH]; simpl; auto.
  destruct (equal (fst x) e) eqn:Ex; simpl.
  - destruct (equal (fst x) k) eqn:Ek; simpl; auto.
    exfalso. rewrite (eqk_comm EQ) in Ex. rewrite (eq_trans_k EQ _ _ _ Ex Ek) in Ee. discriminate.
  - rewrite IH. auto.
Qed.

Lemma srep_add s P e : srep s P -> exists s' evs,
  SetAdd equal hash s e = Ok (s', evs) /\ srep s' (fun k => equal e k || P k).
Proof.
  intros (m & R & H). unfold SetAdd.
  destruct (rep_insert EQ e e R) as (m' & evs & Em & R' & D). rewrite Em. cbn [bind].
  eexists _, _. split; [reflexivity|]. exists ((e, e) :: srest equal m e). split; auto.
  intros k. rewrite shas_insert, H. auto.
Qed.

Lemma join_loop_spec copy l : forall s P, srep s P -> exists s' evs,
  join_loop equal hash copy s l = Ok (s', evs) /\ srep s' (fun k => P k || memb (map copy l) k).
Proof.
  induction l as [|e t IH]; intros s P R; simpl.
  - eexists _, _. split; [reflexivity|]. eapply srep_ext; [eauto|]. intros. rewrite orb_false_r. auto.
  - destruct (srep_add (copy e) R) as (s1 & a & E1 & R1). rewrite E1. cbn [bind].
    destruct (IH s1 _ R1) as (s2 & b & E2 & R2). rewrite E2. cbn [bind].
    eexists _, _. split; [reflexivity|]. eapply srep_ext; [exact R2|]. intros k. simpl.
    rewrite !orb_assoc. f_equal. apply orb_comm.
Qed.

Lemma memb_map_copy copy l k : (forall e, equal (copy e) e = true) -> memb (map copy l) k = memb l k.
Proof.
  intros H. unfold memb. induction l as [|e t IH]; simpl; auto. rewrite IH. f_equal.
  specialize (H e). rewrite (eqk_comm EQ (copy e)), (eqk_comm EQ e).
  apply (eqk_trans_r EQ). apply (eq_sym_k EQ). auto.
Qed.

Lemma srep_iterate s P : srep s P -> exists l, SetIterate s = Ok l /\ (forall k, memb l k = P k) /\
  SetSize s = Ok (length l) /\ (forall i j d, i < j < length l -> equal (nth i l d) (nth j l d) = false).
Proof.
  intros (m & (l & Hm & Pm & U) & H). unfold SetIterate. rewrite (@iterate_spec E E hash _ _ Hm). cbn [bind].
  exists (map fst l). split; auto. split; [|split].
  - intros k. rewrite <- H. unfold memb, shas. rewrite <- (existsb_perm _ Pm).
    clear. induction l; simpl; auto. rewrite IHl. auto.
  - unfold SetSize. rewrite (@size_spec E E hash _ _ Hm), map_length. auto.
  - assert (uniq equal l) as Ul by (eapply uniq_perm; [eauto|symmetry; eauto|auto]).
    clear - Ul EQ. induction Ul as [|e l He Ul IH]; simpl; intros i j d Hij; [lia|].
    destruct i, j; try lia.
    + assert (In (nth j (map fst l) d) (map fst l)) as Hi by (apply nth_In; lia).
      apply in_map_iff in Hi. destruct Hi as (x & Ex & Hx). rewrite <- Ex.
      rewrite (eqk_comm EQ). auto.
    + apply IH. lia.
Qed.

Lemma srep_join copy s1 s2 P1 P2 : (forall e, equal (copy e) e = true) -> srep s1 P1 -> srep s2 P2 ->
  exists s' evs, SetJoin equal hash copy s1 s2 = Ok (s', evs) /\ srep s' (fun k => P1 k || P2 k).
Proof.
  intros Hc R1 R2. unfold SetJoin. destruct (srep_iterate R2) as (l & El & Hl & _). rewrite El. cbn [bind].
  destruct (join_loop_spec copy l R1) as (s' & evs & E' & R'). rewrite E'.
  eexists _, _. split; [reflexivity|]. eapply srep_ext; [exact R'|]. intros k. simpl.
  rewrite memb_map_copy by auto. rewrite Hl. auto.
Qed.
End S.

Section SS.
Variable shash : list byte -> N.
Notation str := (list byte).

Lemma bytes_equal_ok : equal_ok bytes_eqb shash.
Proof.
  constructor.
  - apply bytes_eqb_refl.
  - intros a b H. apply bytes_eqb_eq in H. subst. apply bytes_eqb_refl.
  - intros a b c H1 H2. apply bytes_eqb_eq in H1, H2. subst. apply bytes_eqb_refl.
  - intros a b H. apply bytes_eqb_eq in H. congruence.
Qed.

Lemma memb_in (l : list str) k : memb bytes_eqb l k = true <-> In k l.
Proof.
  unfold memb. rewrite existsb_exists. split.
  - intros (x & H & E). apply bytes_eqb_eq in E. subst. auto.
  - intros H. exists k. split; auto. apply bytes_eqb_refl.
Qed.

(** drop a trailing empty piece *)
Definition drop_last_empty (ps : list str) : list str :=
  match rev ps with [] :: _ => removelast ps | _ => ps end.

Lemma addsplit_piece p : forall st prev (s : str) d, ~ In d p ->
  addsplit_loop shash st prev (p ++ s) d = addsplit_loop shash st (prev ++ p) s d.
Proof.
  induction p as [|c p IH]; intros st prev s d H; simpl.
  - rewrite app_nil_r. auto.
  - destruct (beq_spec c d); [subst; exfalso; apply H; left; auto|].
    rewrite IH by (intros C; apply H; right; auto). rewrite <- app_assoc. auto.
Qed.

Lemma dle_cons p q ps : drop_last_empty (p :: q :: ps) = p :: drop_last_empty (q :: ps).
Proof.
  unfold drop_last_empty. change (rev (p :: q :: ps)) with (rev (q :: ps) ++ [p]).
  destruct (rev (q :: ps)) as [|r rs] eqn:Er.
  - apply (f_equal (@length _)) in Er. rewrite rev_length in Er. simpl in Er. lia.
  - simpl app. destruct r; auto.
Qed.

Lemma addsplit_spec d ps : forall st P, ps <> [] -> (forall p, In p ps -> ~ In d p) ->
  srep bytes_eqb shash st P ->
  exists st' evs, addsplit_loop shash st [] (join [d] ps) d = Ok (st', evs) /\
    srep bytes_eqb shash st' (fun k => P k || memb bytes_eqb (drop_last_empty ps) k).
Proof.
  induction ps as [|p [|q ps] IH]; intros st P Hne Hd R; [congruence| |].
  - simpl join. pose proof (@addsplit_piece p st [] [] d (Hd p (or_introl eq_refl))) as Q.
    rewrite app_nil_r in Q. rewrite Q.
    simpl. destruct p as [|c p].
    + simpl. eexists _, _. split; [reflexivity|]. eapply srep_ext; [eauto|]. intros. simpl. rewrite orb_false_r; auto.
    + destruct (srep_add bytes_equal_ok (c :: p) R) as (s1 & a & E1 & R1). rewrite E1.
      eexists _, _. split; [reflexivity|]. eapply srep_ext; [eauto|]. intros k. simpl.
      rewrite orb_false_r. apply orb_comm.
  - change (join [d] (p :: q :: ps)) with (p ++ d :: join [d] (q :: ps)).
    rewrite addsplit_piece by (apply Hd; left; auto).
    cbn [addsplit_loop app]. rewrite beq_refl.
    destruct (srep_add bytes_equal_ok p R) as (s1 & a & E1 & R1). rewrite E1. cbn [bind].
    destruct (IH s1 _ ltac:(discriminate) (fun x Hx => Hd x (or_intror Hx)) R1) as (s2 & b & E2 & R2).
    rewrite E2. cbn [bind]. eexists _, _. split; [reflexivity|]. eapply srep_ext; [exact R2|].
    intros k. rewrite dle_cons. unfold memb. simpl existsb. simpl. rewrite !orb_assoc. f_equal. apply orb_comm.
Qed.

Lemma tobuf_spec d l : forall pos size buf, size = pos + length l ->
  tobuf_loop l d pos size buf = buf ++ join [d] l.
Proof.
  induction l as [|e [|f l] IH]; intros pos size buf Hs; cbn [tobuf_loop].
  - simpl. rewrite app_nil_r. auto.
  - simpl in Hs. destruct (Z.ltb_spec (Z.of_nat pos) (Z.of_nat size - 1)); [lia|]. auto.
  - simpl in Hs. destruct (Z.ltb_spec (Z.of_nat pos) (Z.of_nat size - 1)); [|lia].
    change (tobuf_loop (f :: l) d (S pos) size ((buf ++ e) ++ [d]) = buf ++ e ++ [d] ++ join [d] (f :: l)).
    rewrite IH by (simpl; lia). rewrite <- !app_assoc. auto.
Qed.

Lemma tobuffer_spec st P d : srep bytes_eqb shash st P -> exists l,
  SetIterate st = Ok l /\ (forall k, P k = true <-> In k l) /\
  StringSetToBuffer st d = Ok (join [d] l).
Proof.
  intros R. destruct (srep_iterate bytes_equal_ok R) as (l & El & Hl & Hs & _).
  exists l. split; auto. split.
  - intros k. rewrite <- Hl. apply memb_in.
  - unfold StringSetToBuffer. rewrite Hs, El. cbn [bind]. rewrite tobuf_spec by lia. auto.
Qed.
End SS.
