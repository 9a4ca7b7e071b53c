(** Lemmas behind PropsJsonMap.v. *)
From Verif Require Import Prelude PreludeFacts Str StrFacts Libc LibcFacts CmpSpec CmpFacts NumModel NumSpec NumProofs.
From Verif Require Import JsonModel JsonFacts JsonSpec JsonSafe JsonRead.
From Coq Require Import Lia Permutation.
Set Implicit Arguments.
Local Open Scope char_scope.

(** * Lookup *)
Lemma get_in kvs k v : NoDup (map fst kvs) -> (JsonObjectGet kvs k = Some v <-> In (k, v) kvs).
Proof.
  induction kvs as [|[k' v'] r IH]; cbn [JsonObjectGet map fst]; intros ND; [split; [discriminate|intros []]|].
  inversion ND as [|? ? NI ND']; subst. destruct (bytes_eqb k k') eqn:E.
  - apply bytes_eqb_eq in E. subst k'. split; [intros [= ->]; now left|].
    intros [[= ->]|H]; [reflexivity|]. exfalso. apply NI. now apply (in_map fst) in H.
  - apply bytes_eqb_neq in E. rewrite IH by assumption. split; [now right|]. intros [[= -> ->]|H]; [congruence|exact H].
Qed.
Lemma get_none kvs k : JsonObjectGet kvs k = None <-> ~ In k (map fst kvs).
Proof.
  induction kvs as [|[k' v'] r IH]; cbn [JsonObjectGet map fst]; [split; [intros _ []|reflexivity]|].
  destruct (bytes_eqb k k') eqn:E.
  - apply bytes_eqb_eq in E. subst k'. split; [discriminate|]. intros H. exfalso. apply H. now left.
  - apply bytes_eqb_neq in E. rewrite IH. cbn. split; [intros H [K|K]; [congruence|auto]|tauto].
Qed.
Lemma get_same a b k : NoDup (map fst a) -> Permutation a b -> JsonObjectGet a k = JsonObjectGet b k.
Proof.
  intros ND P. assert (ND' : NoDup (map fst b)) by (eapply Permutation_NoDup; [apply Permutation_map; exact P|exact ND]).
  destruct (JsonObjectGet a k) as [v|] eqn:E.
  - apply get_in in E; [|assumption]. symmetry. apply get_in; [assumption|]. now apply (Permutation_in _ P).
  - apply get_none in E. symmetry. apply get_none. intros H. apply E.
    apply (Permutation_in k (Permutation_sym (Permutation_map fst P))). exact H.
Qed.
Lemma get_without kvs k k' : JsonObjectGet (without k kvs) k' = if bytes_eqb k k' then None else JsonObjectGet kvs k'.
Proof.
  unfold without. induction kvs as [|[x v] r IH]; cbn [filter JsonObjectGet fst]; [now destruct (bytes_eqb k k')|].
  destruct (bytes_eqb k x) eqn:E; cbn [negb JsonObjectGet].
  - apply bytes_eqb_eq in E. subst x. rewrite IH. destruct (bytes_eqb k k') eqn:E2; [reflexivity|].
    destruct (bytes_eqb k' k) eqn:E3; [|reflexivity]. apply bytes_eqb_eq in E3. subst. rewrite bytes_eqb_refl in E2. discriminate.
  - rewrite IH. destruct (bytes_eqb k' x) eqn:E3; [|reflexivity]. apply bytes_eqb_eq in E3. subst x. now rewrite E.
Qed.
Lemma get_app a b k : JsonObjectGet (a ++ b) k = match JsonObjectGet a k with Some v => Some v | None => JsonObjectGet b k end.
Proof. induction a as [|[x v] a IH]; cbn [app JsonObjectGet]; [reflexivity|]. destruct (bytes_eqb k x); auto. Qed.
Lemma bytes_eqb_sym a b : bytes_eqb a b = bytes_eqb b a.
Proof.
  destruct (bytes_eqb a b) eqn:E; [apply bytes_eqb_eq in E; subst; now rewrite bytes_eqb_refl|].
  destruct (bytes_eqb b a) eqn:E2; [apply bytes_eqb_eq in E2; subst; now rewrite bytes_eqb_refl in E|reflexivity].
Qed.
Lemma get_append kvs k e k' : NoDup (map fst kvs) ->
  JsonObjectGet (JsonObjectAppendElement kvs k e) k' = if bytes_eqb k k' then Some e else JsonObjectGet kvs k'.
Proof.
  intros ND. rewrite append_without, get_app, get_without by assumption. cbn [JsonObjectGet]. rewrite (bytes_eqb_sym k' k).
  destruct (bytes_eqb k k'); [reflexivity|]. now destruct (JsonObjectGet kvs k').
Qed.
Lemma index_get kvs k : match index_of kvs k with Some _ => exists v, JsonObjectGet kvs k = Some v | None => JsonObjectGet kvs k = None end.
Proof.
  induction kvs as [|[x v] r IH]; cbn [index_of JsonObjectGet]; [reflexivity|].
  destruct (bytes_eqb k x); [eauto|]. destruct (index_of r k); cbn; exact IH.
Qed.
Lemma remove_fst kvs k : fst (JsonObjectRemoveKey kvs k) = match JsonObjectGet kvs k with Some _ => true | None => false end.
Proof.
  unfold JsonObjectRemoveKey. assert (H := index_get kvs k). destruct (index_of kvs k); cbn; [destruct H as [v ->]|rewrite H]; reflexivity.
Qed.
Lemma detach_spec kvs k : NoDup (map fst kvs) -> JsonObjectDetachKey kvs k = (JsonObjectGet kvs k, without k kvs).
Proof.
  intros ND. assert (H := @remove_key_without kvs k ND). unfold JsonObjectDetachKey, JsonObjectRemoveKey in *.
  assert (G := index_get kvs k). destruct (index_of kvs k); cbn [snd] in *; [now rewrite H|]. rewrite <- H, G. reflexivity.
Qed.

(** * Copying *)
Section Copy.
  Variable fmt4 : list byte -> list byte.
  Notation JsonCopy := (JsonCopy fmt4).
  Lemma copy_arr_loop l : Forall (fun c => JsonCopy c = Ok c) l -> forall acc,
    (fix loop (l : list json) (acc : list json) := match l with
                     | [] => Ok acc
                     | c :: r => let* c' := JsonCopy c in loop r (JsonArrayAppendElement acc c')
                     end) l acc = Ok (acc ++ l).
  Proof.
    induction 1 as [|c l H _ IH]; intros acc; [now rewrite app_nil_r|]. rewrite H. cbn [bind]. rewrite IH.
    unfold JsonArrayAppendElement. now rewrite <- app_assoc.
  Qed.
  Lemma append_copies_spec l : Forall (fun c => JsonCopy c = Ok c) l -> forall acc, append_copies fmt4 l acc = Ok (acc ++ l).
  Proof. exact (copy_arr_loop (l := l)). Qed.
  Lemma append_members_spec l : Forall (fun kv => JsonCopy (snd kv) = Ok (snd kv)) l -> forall acc,
    append_members fmt4 l acc = Ok (append_all l acc).
  Proof.
    induction 1 as [|[k c] l H _ IH]; intros acc; [reflexivity|]. cbn [append_members snd] in *. rewrite H. cbn [bind]. apply IH.
  Qed.
  Lemma last_wins_distinct l : NoDup (map fst l) -> last_wins l = l.
  Proof.
    induction l as [|[k v] r IH]; cbn; intros ND; [reflexivity|]. inversion ND as [|? ? NI ND']; subst.
    replace (existsb (fun m => bytes_eqb k (fst m)) r) with false; [now rewrite IH|].
    symmetry. apply not_true_iff_false. intros H. apply existsb_exists in H. destruct H as (m & I1 & E). apply bytes_eqb_eq in E. subst k.
    apply NI. now apply in_map.
  Qed.
  Lemma copy_obj l : NoDup (map fst l) -> Forall (fun kv => JsonCopy (snd kv) = Ok (snd kv)) l -> JsonCopy (JObj l) = Ok (JObj l).
  Proof.
    intros ND H. cbn [JsonModel.JsonCopy]. change ((let* out := append_members fmt4 l [] in Ok (JObj out)) = Ok (JObj l)).
    rewrite append_members_spec by exact H. cbn [bind]. now rewrite append_all_nil, last_wins_distinct.
  Qed.
  Lemma copy_arr l : Forall (fun c => JsonCopy c = Ok c) l -> JsonCopy (JArr l) = Ok (JArr l).
  Proof. intros H. cbn [JsonModel.JsonCopy]. rewrite copy_arr_loop by exact H. reflexivity. Qed.
  Lemma append_indexed_spec l : Forall (fun c => JsonCopy c = Ok c) l -> forall i acc,
    append_indexed fmt4 l i acc = Ok (append_all (combine (map (fun n => sdec (Z.of_nat n)) (seq i (length l))) l) acc).
  Proof.
    induction 1 as [|c l H _ IH]; intros i acc; [reflexivity|]. cbn [append_indexed]. rewrite H. cbn [bind]. rewrite IH. reflexivity.
  Qed.

  Lemma get_append_all ms : forall acc k, NoDup (map fst acc) ->
    JsonObjectGet (append_all ms acc) k = match JsonObjectGet (rev ms) k with Some v => Some v | None => JsonObjectGet acc k end.
  Proof.
    induction ms as [|[x v] r IH]; intros acc k ND; [reflexivity|].
    change (append_all ((x, v) :: r) acc) with (append_all r (JsonObjectAppendElement acc x v)).
    rewrite IH by now apply append_NoDup. cbn [rev]. rewrite get_app. cbn [JsonObjectGet]. rewrite get_append by assumption.
    rewrite (bytes_eqb_sym k x). destruct (JsonObjectGet (rev r) k); [reflexivity|]. now destruct (bytes_eqb x k).
  Qed.
  Lemma append_all_NoDup ms : forall acc, NoDup (map fst acc) -> NoDup (map fst (append_all ms acc)).
  Proof.
    induction ms as [|[x v] r IH]; intros acc ND; [exact ND|].
    change (append_all ((x, v) :: r) acc) with (append_all r (JsonObjectAppendElement acc x v)). apply IH. now apply append_NoDup.
  Qed.
End Copy.

(** reading back a printed integer *)
Lemma exit_sdec z : (- 2 ^ 63 <= z < 2 ^ 63)%Z -> StringToLongExitOnError (sdec z) = Ok z.
Proof.
  intros R. unfold StringToLongExitOnError. rewrite (@StringToLong_reads (sdec z) z [] (sdec_cstr z) (reads_sdec z) Logic.I).
  replace ((z <? LONG_MIN)%Z || (LONG_MAX <? z)%Z) with false; [reflexivity|].
  symmetry. apply orb_false_iff. unfold LONG_MIN, LONG_MAX. split; apply Z.ltb_ge; lia.
Qed.
Lemma to_int_id z : (- 2 ^ 31 <= z < 2 ^ 31)%Z -> to_int z = z.
Proof. intros R. unfold to_int. rewrite Z.mod_small by lia. lia. Qed.
Lemma to_int_range z : (- 2 ^ 31 <= to_int z < 2 ^ 31)%Z.
Proof. unfold to_int. assert (H := Z.mod_pos_bound (z + 2 ^ 31) (2 ^ 32)). lia. Qed.

(** * Comparing *)
Section Compare.
  Variable strcmp : list byte -> list byte -> Z.
  Hypothesis HC : strcmp_ok strcmp.
  Notation JsonCompare := (JsonCompare strcmp).
  Lemma strcmp_zero a b : (strcmp a b = 0)%Z <-> a = b.
  Proof.
    assert (K := compares_sgn (proj1 (HC a b))). unfold zcmp in K. destruct (lexcmp a b) eqn:E.
    - apply lexcmp_eq in E. split; [auto|]. intros _. destruct (strcmp a b); cbn in K; congruence.
    - split; [intros H; rewrite H in K; discriminate|]. intros ->. now rewrite lexcmp_refl in E.
    - split; [intros H; rewrite H in K; discriminate|]. intros ->. now rewrite lexcmp_refl in E.
  Qed.
  Lemma len_diff_self n : len_diff n n = 0%Z.
  Proof. unfold len_diff. rewrite Z.sub_diag. reflexivity. Qed.
  Lemma compare_self j : JsonCompare j j = 0%Z.
  Proof.
    induction j as [t v|cs IH|kvs IH] using json_nested_ind; cbn [JsonModel.JsonCompare].
    - now apply strcmp_zero.
    - rewrite len_diff_self. cbv zeta. change ((0 =? 0)%Z) with true. cbv iota. induction IH as [|c l H _ IH']; [reflexivity|]. rewrite H. exact IH'.
    - rewrite len_diff_self. cbv zeta. change ((0 =? 0)%Z) with true. cbv iota. induction IH as [|[k c] l H _ IH']; [reflexivity|]. cbn [snd] in H.
      rewrite (proj2 (strcmp_zero k k) eq_refl). change ((0 =? 0)%Z) with true. cbv iota. rewrite H. exact IH'.
  Qed.
  Lemma len_diff_zero a b : (Z.of_nat a < 2 ^ 31)%Z -> (Z.of_nat b < 2 ^ 31)%Z -> (len_diff a b = 0%Z <-> a = b).
  Proof. intros A B. unfold len_diff. rewrite to_int_id by lia. lia. Qed.
  Lemma compare_arr x y : JsonCompare (JArr x) (JArr y) = len_diff (length x) (length y).
  Proof.
    cbn [JsonModel.JsonCompare]. cbv zeta. destruct (Z.eqb_spec (len_diff (length x) (length y)) 0) as [E|E]; [|reflexivity]. rewrite E. clear E.
    induction x as [|c l IH]; [reflexivity|]. rewrite compare_self. exact IH.
  Qed.
  Lemma compare_obj x y : JsonCompare (JObj x) (JObj y) = len_diff (length x) (length y).
  Proof.
    cbn [JsonModel.JsonCompare]. cbv zeta. destruct (Z.eqb_spec (len_diff (length x) (length y)) 0) as [E|E]; [|reflexivity]. rewrite E. clear E.
    induction x as [|[k c] l IH]; [reflexivity|]. rewrite (proj2 (strcmp_zero k k) eq_refl). change ((0 =? 0)%Z) with true. cbv iota.
    rewrite compare_self. exact IH.
  Qed.
End Compare.
