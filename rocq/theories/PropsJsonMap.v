(** C47, C49, C67-C69: JSON objects as maps, copying, comparing, walking, selecting,
    JSON5 escaping. *)
From Verif Require Import Prelude PreludeFacts Str StrFacts Libc LibcFacts CmpSpec NumModel NumSpec NumProofs EditModel PropsEdit2.
From Verif Require Import JsonModel JsonFacts JsonSpec JsonSafe JsonRead JsonMapProofs.
From Coq Require Import Lia Permutation.
Set Implicit Arguments.
Local Open Scope char_scope.

(** * C47 *)

(** histories of calls on one object *)
Inductive oop :=
| OAppend (k : list byte) (v : json) | ORemove (k : list byte) | ODetach (k : list byte)
| OGet (k : list byte) | OLength | OReverse.
Inductive oret := RUnit | RBool (b : bool) | RJson (o : option json) | RLen (n : nat).
Definition ocall (kvs : list (list byte * json)) (o : oop) : oret * list (list byte * json) :=
  match o with
  | OAppend k v => (RUnit, JsonObjectAppendElement kvs k v)
  | ORemove k => let '(b, kvs) := JsonObjectRemoveKey kvs k in (RBool b, kvs)
  | ODetach k => let '(r, kvs) := JsonObjectDetachKey kvs k in (RJson r, kvs)
  | OGet k => (RJson (JsonObjectGet kvs k), kvs)
  | OLength => (RLen (JsonLength (JObj kvs)), kvs)
  | OReverse => (RUnit, JsonContainerReverse kvs)
  end.
Fixpoint ocalls (kvs : list (list byte * json)) (os : list oop) : list oret * list (list byte * json) :=
  match os with
  | [] => ([], kvs)
  | o :: os => let '(r, kvs) := ocall kvs o in let '(rs, kvs) := ocalls kvs os in (r :: rs, kvs)
  end.

(** the map they must implement *)
Definition kmap := list byte -> option json.
Definition kset (m : kmap) (k : list byte) (o : option json) : kmap := fun x => if bytes_eqb k x then o else m x.
Definition size (m : kmap) (n : nat) : Prop :=
  exists ks, NoDup ks /\ (forall k, In k ks <-> m k <> None) /\ length ks = n.
Definition present (o : option json) : bool := match o with Some _ => true | None => false end.
Inductive ospec : kmap -> list oop -> list oret -> kmap -> Prop :=
| os_nil m : ospec m [] [] m
| os_append m k v os rs m' : ospec (kset m k (Some v)) os rs m' -> ospec m (OAppend k v :: os) (RUnit :: rs) m'
| os_remove m k os rs m' : ospec (kset m k None) os rs m' -> ospec m (ORemove k :: os) (RBool (present (m k)) :: rs) m'
| os_detach m k os rs m' : ospec (kset m k None) os rs m' -> ospec m (ODetach k :: os) (RJson (m k) :: rs) m'
| os_get m k os rs m' : ospec m os rs m' -> ospec m (OGet k :: os) (RJson (m k) :: rs) m'
| os_length m n os rs m' : size m n -> ospec m os rs m' -> ospec m (OLength :: os) (RLen n :: rs) m'
| os_reverse m os rs m' : ospec m os rs m' -> ospec m (OReverse :: os) (RUnit :: rs) m'.

Lemma size_of kvs m : NoDup (map fst kvs) -> (forall k, JsonObjectGet kvs k = m k) -> size m (length kvs).
Proof.
  intros ND H. exists (map fst kvs). split; [exact ND|]. split; [|apply map_length].
  intros k. rewrite <- H. destruct (JsonObjectGet kvs k) eqn:E.
  - split; [discriminate|]. intros _. apply get_in in E; [|exact ND]. now apply (in_map fst) in E.
  - apply get_none in E. tauto.
Qed.
Lemma C47_lemma os : forall kvs (m : kmap), NoDup (map fst kvs) -> (forall k, JsonObjectGet kvs k = m k) ->
  exists m', ospec m os (fst (ocalls kvs os)) m' /\
    NoDup (map fst (snd (ocalls kvs os))) /\ (forall k, JsonObjectGet (snd (ocalls kvs os)) k = m' k).
Proof.
  induction os as [|o os IH]; intros kvs m ND H; [exists m; split; [constructor|auto]|].
  cbn [ocalls]. destruct o as [k v|k|k|k| |]; cbn [ocall].
  - destruct (IH (JsonObjectAppendElement kvs k v) (kset m k (Some v))) as (m' & A & B & C).
    + now apply append_NoDup.
    + intros x. rewrite get_append by assumption. unfold kset. now rewrite H.
    + exists m'. destruct (ocalls _ os) as [rs kvs']. cbn [fst snd] in *. split; [now constructor|auto].
  - assert (E1 := remove_fst kvs k). assert (E2 := @remove_key_without kvs k ND). destruct (JsonObjectRemoveKey kvs k) as [b kvs1]. cbn [fst snd] in E1, E2. subst.
    destruct (IH (without k kvs) (kset m k None)) as (m' & A & B & C).
    + now apply NoDup_without.
    + intros x. rewrite get_without. unfold kset. now rewrite H.
    + exists m'. destruct (ocalls _ os) as [rs kvs']. cbn [fst snd] in *. rewrite H. split; [now constructor|auto].
  - rewrite (@detach_spec kvs k ND).
    destruct (IH (without k kvs) (kset m k None)) as (m' & A & B & C).
    + now apply NoDup_without.
    + intros x. rewrite get_without. unfold kset. now rewrite H.
    + exists m'. destruct (ocalls _ os) as [rs kvs']. cbn [fst snd] in *. rewrite H. split; [now constructor|auto].
  - destruct (IH kvs m ND H) as (m' & A & B & C). exists m'. destruct (ocalls _ os) as [rs kvs']. cbn [fst snd] in *. rewrite H. split; [now constructor|auto].
  - destruct (IH kvs m ND H) as (m' & A & B & C). exists m'. destruct (ocalls _ os) as [rs kvs']. cbn [fst snd JsonLength] in *.
    split; [constructor; [now apply size_of|exact A]|auto].
  - destruct (IH (JsonContainerReverse kvs) m) as (m' & A & B & C).
    + unfold JsonContainerReverse. rewrite map_rev. now apply NoDup_rev.
    + intros x. rewrite <- H. symmetry. apply get_same; [exact ND|apply Permutation_rev].
    + exists m'. destruct (ocalls _ os) as [rs kvs']. cbn [fst snd] in *. split; [now constructor|auto].
Qed.
(** every history on a fresh object returns what the map returns, and leaves an object
    with distinct names that looks up as the map does and has its size *)
Theorem C47_object_histories : forall os,
  exists m', ospec (fun _ => None) os (fst (ocalls [] os)) m' /\
    NoDup (map fst (snd (ocalls [] os))) /\
    (forall k, JsonObjectGet (snd (ocalls [] os)) k = m' k) /\
    size m' (JsonLength (JObj (snd (ocalls [] os)))).
Proof.
  intros os. destruct (@C47_lemma os [] (fun _ => None)) as (m' & A & B & C); [constructor|reflexivity|].
  exists m'. repeat (split; [assumption|]). cbn [JsonLength]. now apply size_of.
Qed.
Print Assumptions C47_object_histories.

(** the members are kept in the order of the last append of each name *)
Theorem C47_append_order : forall ms,
  snd (ocalls [] (map (fun m => OAppend (fst m) (snd m)) ms)) = last_wins ms.
Proof.
  intros ms. rewrite <- append_all_nil. generalize (@nil (list byte * json)).
  induction ms as [|[k v] ms IH]; intros acc; [reflexivity|]. cbn [map ocalls ocall fst snd].
  change (append_all ((k, v) :: ms) acc) with (append_all ms (JsonObjectAppendElement acc k v)). rewrite <- IH.
  now destruct (ocalls (JsonObjectAppendElement acc k v) _).
Qed.
Print Assumptions C47_append_order.

Example C47_nonvacuous :
  ocalls [] [OAppend (lit "a") JsonNullCreate; OAppend (lit "b") (JArr []); OAppend (lit "a") (JObj []); OLength;
             OGet (lit "a"); ORemove (lit "b"); ODetach (lit "c"); OLength] =
  ([RUnit; RUnit; RUnit; RLen 2; RJson (Some (JObj [])); RBool true; RJson None; RLen 1], [(lit "a", JObj [])]).
Proof. reflexivity. Qed.

(** arrays: removing a range keeps exactly the elements outside it, in order *)
Theorem C47_array_remove_range : forall cs start fin cs', JsonArrayRemoveRange cs start fin = Ok cs' ->
  exists a b c, cs = a ++ b ++ c /\ cs' = a ++ c /\ length a = start /\ length b = fin - start + 1.
Proof.
  intros cs start fin cs' H. unfold JsonArrayRemoveRange in H.
  destruct ((fin <? length cs) && (start <=? fin))%nat eqn:E; [|discriminate]. injection H as <-.
  apply andb_true_iff in E. destruct E as [E1 E2]. apply Nat.ltb_lt in E1. apply Nat.leb_le in E2.
  exists (firstn start cs), (firstn (fin - start + 1) (skipn start cs)), (skipn (S fin) cs).
  split; [|split; [reflexivity|split]].
  - replace (skipn (S fin) cs) with (skipn (fin - start + 1) (skipn start cs)) by (rewrite skipn_skipn; f_equal; lia).
    now rewrite !firstn_skipn.
  - rewrite firstn_length. lia.
  - rewrite firstn_length, skipn_length. lia.
Qed.
Print Assumptions C47_array_remove_range.
Theorem C47_array_access : forall cs e d i,
  JsonLength (JArr (JsonArrayAppendElement cs e)) = S (length cs) /\
  JsonAt (JArr (JsonArrayAppendElement cs e)) (length cs) = Ok e /\
  (i < length cs -> JsonAt (JArr (JsonArrayAppendElement cs e)) i = Ok (nth i cs d)) /\
  (length cs < i -> JsonAt (JArr (JsonArrayAppendElement cs e)) i = Abort) /\
  (i < length cs -> JsonAt (JArr (JsonContainerReverse cs)) i = Ok (nth (length cs - S i) cs d)).
Proof.
  intros cs e d i. unfold JsonArrayAppendElement, JsonAt, JsonContainerReverse. cbn [JsonLength children bind].
  split; [rewrite app_length; cbn; lia|]. split; [rewrite nth_error_app2, Nat.sub_diag by lia; reflexivity|].
  split; [intros H; rewrite nth_error_app1 by lia; rewrite (nth_error_nth' cs d H); reflexivity|].
  split; [intros H; replace (nth_error (cs ++ [e]) i) with (@None json); [reflexivity|symmetry; apply nth_error_None; rewrite app_length; cbn; lia]|].
  intros H. rewrite (nth_error_nth' _ d) by (rewrite rev_length; lia). rewrite rev_nth by lia. reflexivity.
Qed.
Print Assumptions C47_array_access.

(** * C49 *)
Section Copy.
  Variable fmt4 : list byte -> list byte.
  (** trees whose numbers are in the form the copy prints: integers in the range of int
      in canonical decimal, reals as printed by %.4f in at most 31 characters *)
  Inductive copyable : json -> Prop :=
  | cp_string v : copyable (JPrim PString v)
  | cp_int z : (- 2 ^ 31 <= z < 2 ^ 31)%Z -> copyable (JPrim PInt (sdec z))
  | cp_real v : firstn 31 (fmt4 v) = v -> copyable (JPrim PReal v)
  | cp_true : copyable (JPrim PBool (lit "true"))
  | cp_false : copyable (JPrim PBool (lit "false"))
  | cp_null : copyable (JPrim PNull (lit "null"))
  | cp_arr cs : Forall copyable cs -> copyable (JArr cs)
  | cp_obj kvs : NoDup (map fst kvs) -> Forall (fun kv => copyable (snd kv)) kvs -> copyable (JObj kvs).

  Theorem C49_copy_partial : forall j, copyable j -> JsonCopy fmt4 j = Ok j.
  Proof.
    induction j as [t v|cs IH|kvs IH] using json_nested_ind; intros H; inversion H as [w|z R|w F| | | |cs' F|kvs' ND F]; subst; try reflexivity.
    - cbn [JsonCopy JsonPrimitiveCopy]. unfold JsonPrimitiveGetAsInteger. rewrite exit_sdec by lia. cbn [bind].
      unfold JsonIntegerCreate. now rewrite to_int_id.
    - cbn [JsonCopy JsonPrimitiveCopy]. unfold JsonRealCreate. now rewrite F.
    - apply copy_arr. rewrite Forall_forall in *. auto.
    - apply copy_obj; [exact ND|]. rewrite Forall_forall in *. auto.
  Qed.

  (** merging copyable trees *)
  Theorem C47_merge_arrays : forall a b, copyable (JArr a) -> copyable (JArr b) ->
    JsonMerge fmt4 (JArr a) (JArr b) = Ok (JArr (a ++ b)).
  Proof.
    intros a b HA HB. inversion HA; inversion HB; subst. cbn [JsonMerge]. unfold JsonArrayMergeArray.
    rewrite append_copies_spec by (rewrite Forall_forall in *; intros; apply C49_copy_partial; auto). cbn [bind].
    rewrite append_copies_spec by (rewrite Forall_forall in *; intros; apply C49_copy_partial; auto). reflexivity.
  Qed.
  Theorem C47_merge_objects : forall a b, copyable (JObj a) -> copyable (JObj b) ->
    exists r, JsonMerge fmt4 (JObj a) (JObj b) = Ok (JObj r) /\ NoDup (map fst r) /\
      forall k, JsonObjectGet r k = match JsonObjectGet b k with Some v => Some v | None => JsonObjectGet a k end.
  Proof.
    intros a b HA HB. assert (EA := C49_copy_partial HA). inversion HA; inversion HB; subst.
    cbn [JsonMerge]. unfold JsonObjectMergeObject, copied_object. rewrite EA. cbn [bind].
    rewrite append_members_spec by (rewrite Forall_forall in *; intros; apply C49_copy_partial; auto). cbn [bind].
    eexists. split; [reflexivity|]. split; [now apply append_all_NoDup|].
    intros k. rewrite get_append_all by assumption.
    rewrite <- (@get_same b (rev b) k); [reflexivity|assumption|apply Permutation_rev].
  Qed.
  (** an array merged with an object, in either order, overrides the members named by
      the decimal indices *)
  Theorem C47_merge_object_array : forall a b, copyable (JObj a) -> copyable (JArr b) ->
    exists r, JsonMerge fmt4 (JObj a) (JArr b) = Ok (JObj r) /\ JsonMerge fmt4 (JArr b) (JObj a) = Ok (JObj r) /\
      NoDup (map fst r) /\
      (forall i v, nth_error b i = Some v -> JsonObjectGet r (sdec (Z.of_nat i)) = Some v) /\
      (forall k, (forall i, i < length b -> k <> sdec (Z.of_nat i)) -> JsonObjectGet r k = JsonObjectGet a k).
  Proof.
    intros a b HA HB. assert (EA := C49_copy_partial HA). inversion HA; inversion HB; subst.
    cbn [JsonMerge]. unfold JsonObjectMergeArray, copied_object. rewrite EA. cbn [bind].
    rewrite append_indexed_spec by (rewrite Forall_forall in *; intros; apply C49_copy_partial; auto). cbn [bind].
    set (ms := combine _ b). eexists. split; [reflexivity|]. split; [reflexivity|]. split; [now apply append_all_NoDup|].
    assert (LK : map fst ms = map (fun n => sdec (Z.of_nat n)) (seq 0 (length b))).
    { unfold ms. assert (G : forall A B (x : list A) (y : list B), length x = length y -> map fst (combine x y) = x).
      { clear. induction x as [|p x IHx]; intros [|q y] L; try discriminate; [reflexivity|]. cbn. f_equal. apply IHx. now injection L. }
      apply G. now rewrite map_length, seq_length. }
    assert (NDm : NoDup (map fst ms)).
    { rewrite LK. apply FinFun.Injective_map_NoDup; [|apply seq_NoDup]. intros x y E.
      assert (R1 := reads_sdec (Z.of_nat x)). rewrite E in R1. destruct (reads_unique R1 (reads_sdec (Z.of_nat y))). lia. }
    split.
    - intros i v Hv. rewrite get_append_all by assumption.
      assert (G : JsonObjectGet (rev ms) (sdec (Z.of_nat i)) = Some v).
      { apply get_in; [rewrite map_rev; now apply NoDup_rev|]. rewrite <- in_rev. unfold ms.
        assert (Hi : i < length b) by (apply nth_error_Some; rewrite Hv; discriminate).
        replace (sdec (Z.of_nat i), v) with (nth i (combine (map (fun n => sdec (Z.of_nat n)) (seq 0 (length b))) b) (sdec (Z.of_nat 0), v)).
        - apply nth_In. rewrite combine_length, map_length, seq_length. lia.
        - rewrite combine_nth by now rewrite map_length, seq_length.
          rewrite (@map_nth nat (list byte) (fun n => sdec (Z.of_nat n)) (seq 0 (length b)) 0), seq_nth by exact Hi.
          rewrite (nth_error_nth b i v Hv). reflexivity. }
      now rewrite G.
    - intros k Hk. rewrite get_append_all by assumption.
      assert (G : JsonObjectGet (rev ms) k = None).
      { apply get_none. rewrite map_rev, <- in_rev, LK. intros IN. apply in_map_iff in IN. destruct IN as (n & <- & IN). apply in_seq in IN. apply (Hk n); [lia|reflexivity]. }
      now rewrite G.
  Qed.
End Copy.
Print Assumptions C49_copy_partial.
Print Assumptions C47_merge_arrays.
Print Assumptions C47_merge_objects.
Print Assumptions C47_merge_object_array.

(** integers made by JsonIntegerCreate are always copyable, those made by
    JsonIntegerCreate64 only within the range of int: beyond it the copy is another number *)
Theorem C49_int_create_copies : forall fmt4 z, JsonCopy fmt4 (JsonIntegerCreate z) = Ok (JsonIntegerCreate z).
Proof. intros. apply C49_copy_partial. apply cp_int. apply to_int_range. Qed.
Print Assumptions C49_int_create_copies.
Theorem C49_int64_refuted : exists z, (- 2 ^ 63 <= z < 2 ^ 63)%Z /\
  forall fmt4, JsonCopy fmt4 (JsonIntegerCreate64 z) = Ok (JsonIntegerCreate64 (z - 2 ^ 32)).
Proof. exists 4294967295%Z. split; [lia|]. intros fmt4. vm_compute. reflexivity. Qed.
Print Assumptions C49_int64_refuted.
(** a number with an exponent that the parser classifies as integer makes the copy exit *)
Theorem C49_exponent_refuted : exists j, JsonParse (lit "[1e5]") = Ok (POk j (lit "]")) /\
  forall fmt4, JsonCopy fmt4 j = Abort.
Proof. exists (JArr [JPrim PInt (lit "1e5")]). split; [reflexivity|]. intros fmt4. vm_compute. reflexivity. Qed.
Print Assumptions C49_exponent_refuted.

Example C49_nonvacuous : forall fmt4, fmt4 (lit "0.5000") = lit "0.5000" ->
  copyable fmt4 (JObj [(lit "a", JArr [JPrim PInt (lit "-7"); JPrim PReal (lit "0.5000")]); (lit "b", JPrim PString (lit "x"))]).
Proof.
  intros fmt4 E. apply cp_obj; [cbn; repeat (apply NoDup_cons; [cbn; intuition discriminate|]); constructor|].
  apply Forall_cons; [|apply Forall_cons; [apply cp_string|constructor]]. apply cp_arr.
  apply Forall_cons; [apply (@cp_int fmt4 (-7)); lia|]. apply Forall_cons; [apply cp_real; now rewrite E|constructor].
Qed.

(** what JsonCompare decides: primitives by their text alone, containers by kind and
    number of children alone *)
Theorem C49_compare_exact : forall strcmp a b, strcmp_ok strcmp ->
  (Z.of_nat (JsonLength a) < 2 ^ 31)%Z -> (Z.of_nat (JsonLength b) < 2 ^ 31)%Z ->
  (JsonCompare strcmp a b = 0%Z <->
   match a, b with
   | JPrim _ x, JPrim _ y => x = y
   | JArr x, JArr y => length x = length y
   | JObj x, JObj y => length x = length y
   | _, _ => False
   end).
Proof.
  intros strcmp a b HC LA LB.
  destruct a as [t v|cs|kvs], b as [t' v'|cs'|kvs']; cbn [JsonLength] in *; try (cbn; split; [discriminate|intros []]).
  - now apply strcmp_zero.
  - rewrite compare_arr by exact HC. now apply len_diff_zero.
  - rewrite compare_obj by exact HC. now apply len_diff_zero.
Qed.
Print Assumptions C49_compare_exact.
(** equal trees compare equal, but not only those *)
Theorem C49_compare_equal_partial : forall strcmp j, strcmp_ok strcmp -> JsonCompare strcmp j j = 0%Z.
Proof. intros strcmp j H. now apply compare_self. Qed.
Print Assumptions C49_compare_equal_partial.
Theorem C49_compare_refuted : forall strcmp, strcmp_ok strcmp ->
  exists a b, ~ same_tree a b /\ JsonCompare strcmp a b = 0%Z.
Proof.
  intros strcmp HC. exists (JArr [JsonIntegerCreate 1]), (JArr [JsonIntegerCreate 2]). split.
  - intros H. inversion H as [|x y F|]; subst. inversion F as [|? ? ? ? K]; subst. inversion K.
  - now rewrite compare_arr.
Qed.
Print Assumptions C49_compare_refuted.

(** * C67 *)
Section Walk.
  Variable St : Type.
  Variables vobj varr vprim : option (json -> St -> St * bool).
  (** every element of the tree, parents before children, children in order *)
  Fixpoint preorder (j : json) : list json :=
    match j with
    | JPrim _ _ => [j]
    | JArr cs => j :: flat_map preorder cs
    | JObj kvs => j :: flat_map (fun kv => preorder (snd kv)) kvs
    end.
  (** the visitor of the element's kind is asked; a missing one lets the walk go on *)
  Definition asked (j : json) (st : St) : St * bool :=
    let v := match j with JPrim _ _ => vprim | JArr _ => varr | JObj _ => vobj end in
    match v with Some f => f j st | None => (st, true) end.
  (** visiting a list of elements up to the first that answers false *)
  Fixpoint visited (js : list json) (st : St) : St * bool :=
    match js with
    | [] => (st, true)
    | j :: r => let '(st, go) := asked j st in if go then visited r st else (st, false)
    end.
  Lemma visited_app a : forall b st, visited (a ++ b) st = let '(st, go) := visited a st in if go then visited b st else (st, false).
  Proof. induction a as [|j a IH]; intros b st; cbn [app visited]; [reflexivity|]. destruct (asked j st) as [st' []]; [apply IH|reflexivity]. Qed.
  Theorem C67_walk_preorder : forall j st, JsonWalk vobj varr vprim j st = visited (preorder j) st.
  Proof.
    induction j as [t v|cs IH|kvs IH] using json_nested_ind; intros st.
    - cbn [JsonWalk preorder visited]. unfold asked, visit. destruct vprim as [f|]; [destruct (f _ st) as [st' []]|]; reflexivity.
    - cbn [JsonWalk preorder visited]. unfold asked, visit.
      destruct (match varr with Some f => f (JArr cs) st | None => (st, true) end) as [st' []]; [|reflexivity].
      generalize dependent st'. induction IH as [|c cs H _ IH']; intros st'; [reflexivity|]. cbn [flat_map]. rewrite visited_app, H.
      destruct (visited (preorder c) st') as [st2 []]; [apply IH'|reflexivity].
    - cbn [JsonWalk preorder visited]. unfold asked, visit.
      destruct (match vobj with Some f => f (JObj kvs) st | None => (st, true) end) as [st' []]; [|reflexivity].
      generalize dependent st'. induction IH as [|[k c] cs H _ IH']; intros st'; [reflexivity|]. cbn [flat_map snd] in *. rewrite visited_app, H.
      destruct (visited (preorder c) st') as [st2 []]; [apply IH'|reflexivity].
  Qed.
End Walk.
Print Assumptions C67_walk_preorder.
Example C67_nonvacuous :
  let note := Some (fun j st => (st ++ [JsonLength j], negb (JsonLength j =? 3)%nat)) in
  JsonWalk note None note (JArr [JObj [(lit "a", JPrim PString (lit "x")); (lit "b", JPrim PString (lit "xyz"))]; JPrim PNull (lit "null")]) [] = ([2; 1; 3], false).
Proof. reflexivity. Qed.

(** * C68 *)
(** [at_path j path r]: following the indices from [j] leads to [r].  An array index is a
    non-empty string of decimal digits. *)
Inductive at_path : json -> list (list byte) -> json -> Prop :=
| at_here j : at_path j [] j
| at_member kvs k c p r : In (k, c) kvs -> at_path c p r -> at_path (JObj kvs) (k :: p) r
| at_element cs ds c p r : ds <> [] -> Forall digit ds -> nth_error cs (N.to_nat (undec ds)) = Some c ->
    at_path c p r -> at_path (JArr cs) (ds :: p) r.
(** names are strings; a numeric one is not empty and fits a long *)
Definition index_ok (s : list byte) : Prop :=
  is_cstr s /\ s <> [] /\ (Forall digit s -> (Z.of_N (undec s) <= LONG_MAX)%Z).

Lemma digit_isdigit c : digit c <-> isdigit c = true.
Proof.
  split; [intros H; cbn in H; repeat (destruct H as [<-|H]; [reflexivity|]); destruct H|].
  unfold digit. destruct c as [[] [] [] [] [] [] [] []]; vm_compute; intros H; first [discriminate H|tauto].
Qed.
Lemma digits_reads ds : ds <> [] -> Forall digit ds -> NumSpec.reads ds (Z.of_N (undec ds)) [].
Proof.
  intros NE H. exists [], [], ds. split; [now rewrite app_nil_r|]. split; [intros c []|]. split; [exact NE|].
  split; [intros c K; apply digit_isdigit; rewrite Forall_forall in H; auto|]. split; [reflexivity|]. left. split; [now left|reflexivity].
Qed.
Lemma select_lemma : forall path j, distinct_names j -> Forall index_ok path ->
  exists o, JsonSelect j path = Ok o /\ forall r, (o = Some r <-> at_path j path r).
Proof.
  induction path as [|ix path IH]; intros j D F; cbn [JsonSelect].
  { exists (Some j). split; [reflexivity|]. intros r. split; [intros [= ->]; constructor|]. intros H. now inversion H. }
  inversion F as [|? ? (HC & HN & HM) F']; subst. destruct j as [t v|cs|kvs].
  - exists None. split; [reflexivity|]. intros r. split; [discriminate|]. intros H. inversion H.
  - inversion D as [|? DC|]; subst. destruct (proj1 (@C61_predicates ix HC)) as (b & EB & KB). rewrite EB. cbn [bind].
    assert (KD : b = true <-> Forall digit ix).
    { rewrite KB, Forall_forall. split; intros H c K; apply digit_isdigit; auto. }
    destruct b.
    + assert (DG : Forall digit ix) by now apply KD. specialize (HM DG).
      assert (E : StringToLongExitOnError ix = Ok (Z.of_N (undec ix))).
      { unfold StringToLongExitOnError. rewrite (@StringToLong_reads ix _ [] HC (digits_reads HN DG) Logic.I).
        replace ((Z.of_N (undec ix) <? LONG_MIN)%Z || (LONG_MAX <? Z.of_N (undec ix))%Z) with false; [reflexivity|].
        symmetry. apply orb_false_iff. unfold LONG_MIN, LONG_MAX in *. split; apply Z.ltb_ge; lia. }
      rewrite E. cbn [bind]. destruct (Z.ltb_spec (Z.of_N (undec ix)) (Z.of_nat (length cs))) as [L|L].
      * replace (Z.to_nat (Z.of_N (undec ix))) with (N.to_nat (undec ix)) by lia.
        destruct (nth_error cs (N.to_nat (undec ix))) as [c|] eqn:EC; [|apply nth_error_None in EC; lia].
        destruct (IH c) as (o & EO & KO); [rewrite Forall_forall in DC; apply DC; eapply nth_error_In; exact EC|assumption|].
        exists o. split; [exact EO|]. intros r. rewrite KO. split.
        -- intros H. eapply at_element; eauto.
        -- intros H. inversion H; subst. congruence.
      * exists None. split; [reflexivity|]. intros r. split; [discriminate|]. intros H. inversion H as [| |cs' ds c p r' NE DG' EC]; subst.
        assert (N.to_nat (undec ix) < length cs) by (apply nth_error_Some; rewrite EC; discriminate). lia.
    + exists None. split; [reflexivity|]. intros r. split; [discriminate|]. intros H. inversion H as [| |cs' ds c p r' NE DG' EC]; subst.
      apply KD in DG'. discriminate.
  - inversion D as [| |? ND DC]; subst. destruct (JsonObjectGet kvs ix) as [c|] eqn:EC.
    + apply get_in in EC; [|exact ND]. destruct (IH c) as (o & EO & KO).
      { rewrite Forall_forall in DC. exact (DC _ EC). } { assumption. }
      exists o. split; [exact EO|]. intros r. rewrite KO. split.
      * intros H. eapply at_member; eauto.
      * intros H. inversion H as [|kvs' k c' p r' EC'|]; subst. apply get_in in EC; [|exact ND]. apply get_in in EC'; [|exact ND].
        replace c with c' by congruence. assumption.
    + exists None. split; [reflexivity|]. intros r. split; [discriminate|]. intros H. inversion H as [|kvs' k c' p r' EC'|]; subst.
      apply get_none in EC. exfalso. apply EC. now apply (in_map fst) in EC'.
Qed.
Theorem C68_select_partial : forall j path, distinct_names j -> Forall index_ok path ->
  exists o, JsonSelect j path = Ok o /\ forall r, (o = Some r <-> at_path j path r).
Proof. intros j path. apply select_lemma. Qed.
Print Assumptions C68_select_partial.
(** an empty index, or one too large for a long, on an array ends the process *)
Theorem C68_empty_index_refuted : JsonSelect (JArr []) [[]] = Abort /\
  JsonSelect (JArr []) [lit "9223372036854775808"] = Abort.
Proof. split; vm_compute; reflexivity. Qed.
Print Assumptions C68_empty_index_refuted.
Example C68_nonvacuous : Forall index_ok [lit "a"; lit "1"] /\
  JsonSelect (JObj [(lit "a", JArr [JsonNullCreate; JsonBoolCreate true])]) [lit "a"; lit "1"] = Ok (Some (JsonBoolCreate true)).
Proof.
  split; [|vm_compute; reflexivity].
  apply Forall_cons; [|apply Forall_cons; [|constructor]]; (split; [unfold is_cstr, NUL; cbn; intuition discriminate|]; split; [discriminate|]).
  - intros H. inversion H as [|? ? K]; subst. apply digit_isdigit in K. discriminate.
  - intros _. vm_compute. discriminate.
Qed.

(** * C69 *)
(** JSON5 string bodies (https://spec.json5.org/#strings) within printable ASCII *)
Definition hexval (c : byte) : option N :=
  if ((48 <=? code c) && (code c <=? 57))%N then Some (code c - 48)%N
  else if ((65 <=? code c) && (code c <=? 70))%N then Some (code c - 55)%N
  else if ((97 <=? code c) && (code c <=? 102))%N then Some (code c - 87)%N else None.
Inductive json5 : list byte -> list byte -> Prop :=
| j5_nil : json5 [] []
| j5_plain c d t : (32 <= code c <= 126)%N -> c <> """" -> c <> "\" -> json5 d t -> json5 (c :: d) (c :: t)
| j5_escape c e d t : In (c, e) [("""", """"); ("\", "\"); ("008", "b"); ("012", "f"); ("010", "n"); ("013", "r"); ("009", "t")] ->
    json5 d t -> json5 (c :: d) ("\" :: e :: t)
| j5_nul d t : json5 d t -> ~ digit (hd NUL t) -> json5 (NUL :: d) ("\" :: "0" :: t)
| j5_hex c h l x y d t : hexval h = Some x -> hexval l = Some y -> code c = (16 * x + y)%N ->
    json5 d t -> json5 (c :: d) ("\" :: "x" :: h :: l :: t).
(** a NUL byte directly followed by a digit *)
Definition nul_digit (s : list byte) : Prop := exists p c q, s = p ++ NUL :: c :: q /\ digit c.

Lemma escape_char5 c : c = NUL \/ forall d t, json5 d t -> json5 (c :: d) (escape5_char c ++ t).
Proof.
  destruct (beq c NUL) eqn:EN; [left; now apply beq_true|right]. unfold escape5_char. rewrite EN.
  intros d t H. destruct (beq c DQ) eqn:E1; [apply beq_true in E1; subst; apply j5_escape; [now left|exact H]|]. cbn [orb].
  destruct (beq c BS) eqn:E2; [apply beq_true in E2; subst; apply j5_escape; [right; now left|exact H]|].
  destruct (beq c B_b) eqn:E3; [apply beq_true in E3; subst; apply j5_escape; [cbn; tauto|exact H]|].
  destruct (beq c B_f) eqn:E4; [apply beq_true in E4; subst; apply j5_escape; [cbn; tauto|exact H]|].
  destruct (beq c B_n) eqn:E5; [apply beq_true in E5; subst; apply j5_escape; [cbn; tauto|exact H]|].
  destruct (beq c B_r) eqn:E6; [apply beq_true in E6; subst; apply j5_escape; [cbn; tauto|exact H]|].
  destruct (beq c B_t) eqn:E7; [apply beq_true in E7; subst; apply j5_escape; [cbn; tauto|exact H]|].
  destruct ((32 <=? scode c)%Z && (scode c <=? 126)%Z) eqn:E8.
  - cbn [app]. apply j5_plain; [|intros ->; discriminate|intros ->; discriminate|exact H].
    clear -E8. revert E8. destruct c as [[] [] [] [] [] [] [] []]; vm_compute; intros E8; first [discriminate E8|split; discriminate].
  - cbn [app]. eapply j5_hex; [| | |exact H].
    3: { rewrite (N.div_mod (code c) 16) at 1 by lia. reflexivity. }
    + assert (K : (code c / 16 < 16)%N) by (apply N.div_lt_upper_bound; [lia|]; assert (Q := code_lt c); lia). revert K. generalize (code c / 16)%N. intros n K.
      destruct n as [|p]; [reflexivity|]. do 4 (destruct p as [p|p|]; try reflexivity; try lia).
    + assert (K : (code c mod 16 < 16)%N) by (apply N.mod_lt; lia). revert K. generalize (code c mod 16)%N. intros n K.
      destruct n as [|p]; [reflexivity|]. do 4 (destruct p as [p|p|]; try reflexivity; try lia).
Qed.
(** the escaped text denotes exactly the data in JSON5, unless the data has a NUL byte
    directly before a digit *)
Theorem C69_escape5_partial : forall s, ~ nul_digit s -> json5 s (Json5EscapeData s).
Proof.
  induction s as [|c s IH]; intros H; [constructor|]. cbn [Json5EscapeData].
  assert (HS : ~ nul_digit s). { intros (p & x & q & E & D). apply H. exists (c :: p), x, q. now rewrite E. }
  destruct (escape_char5 c) as [->|K]; [|auto]. change (escape5_char NUL) with ["\"; "0"]. cbn [app]. apply j5_nul; [auto|].
  destruct s as [|x s]; [cbn; unfold NUL, digit; cbn; intuition discriminate|]. intros D. apply H. exists [], x, s. split; [reflexivity|].
  cbn [Json5EscapeData] in D. revert D. clear. unfold escape5_char.
  destruct (beq x NUL); [cbn; unfold digit; cbn; intuition discriminate|].
  destruct (beq x DQ || beq x BS); [cbn; unfold digit; cbn; intuition discriminate|].
  repeat (match goal with |- context [if beq x ?b then _ else _] => destruct (beq x b) end; [cbn; unfold digit; cbn; intuition discriminate|]).
  destruct ((32 <=? scode x)%Z && (scode x <=? 126)%Z); cbn [app hd]; [auto|unfold digit; cbn; intuition discriminate].
Qed.
Print Assumptions C69_escape5_partial.
Theorem C69_nul_digit_refuted : Json5EscapeData [NUL; "1"] = lit "\01" /\ ~ json5 [NUL; "1"] (Json5EscapeData [NUL; "1"]).
Proof.
  split; [reflexivity|]. intros H. inversion H as [|c d t R|c e d t I1|d t J D|]; subst.
  - cbn in I1. intuition discriminate.
  - apply D. unfold digit. cbn. tauto.
Qed.
Print Assumptions C69_nul_digit_refuted.
(** only printable ASCII comes out, whatever went in *)
Theorem C69_printable : forall s c, In c (Json5EscapeData s) -> (32 <= code c <= 126)%N.
Proof.
  induction s as [|x s IH]; intros c H; [destruct H|]. cbn [Json5EscapeData] in H. apply in_app_or in H. destruct H as [H|H]; [|auto]. clear IH.
  assert (G : forallb (fun c => ((32 <=? code c) && (code c <=? 126))%N) (escape5_char x) = true)
    by (destruct x as [[] [] [] [] [] [] [] []]; reflexivity).
  rewrite forallb_forall in G. specialize (G c H). apply andb_true_iff in G. rewrite !N.leb_le in G. exact G.
Qed.
Print Assumptions C69_printable.
(** different data, different text, for all data *)
Definition letter5 (e : byte) : byte :=
  if beq e "0" then NUL else if beq e "b" then B_b else if beq e "f" then B_f else if beq e "n" then B_n
  else if beq e "r" then B_r else if beq e "t" then B_t else e.
Fixpoint unescape5 (s : list byte) : list byte :=
  match s with
  | [] => []
  | c :: r =>
      if beq c "\" then
        match r with
        | [] => []
        | e :: r =>
            if beq e "x" then
              match r with
              | h :: l :: r => match hexval h, hexval l with Some x, Some y => ascii_of_N (16 * x + y) :: unescape5 r | _, _ => [] end
              | _ => []
              end
            else letter5 e :: unescape5 r
        end
      else c :: unescape5 r
  end.
Lemma unescape_escape c t : unescape5 (escape5_char c ++ t) = c :: unescape5 t.
Proof. destruct c as [[] [] [] [] [] [] [] []]; reflexivity. Qed.
Theorem C69_injective : forall a b, Json5EscapeData a = Json5EscapeData b -> a = b.
Proof.
  assert (G : forall a, unescape5 (Json5EscapeData a) = a).
  { induction a as [|c a IH]; [reflexivity|]. cbn [Json5EscapeData]. now rewrite unescape_escape, IH. }
  intros a b H. rewrite <- (G a), <- (G b). now rewrite H.
Qed.
Print Assumptions C69_injective.
Example C69_nonvacuous : ~ nul_digit ["a"; NUL; """"; "255"] /\
  Json5EscapeData ["a"; NUL; """"; "255"] = lit "a\0\""\xFF".
Proof.
  split; [|reflexivity]. intros (p & c & q & E & D).
  do 4 (destruct p as [|? p]; [cbn in E; try discriminate E; injection E; intros; subst; unfold digit in D; cbn in D; intuition discriminate|cbn in E; injection E as _ E]).
  destruct p; discriminate E.
Qed.
