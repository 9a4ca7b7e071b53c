(** The proofs about json-yaml.c. *)
From Verif Require Import Prelude PreludeFacts Str StrFacts Libc JsonModel JsonSpec JsonParse JsonSafe JsonMapProofs YamlModel YamlSpec.
Set Implicit Arguments.

(** ** scalars *)
Lemma not_number v c d : v = c :: d -> ~ In c (lit "-0123456789") -> exists e, JsonParseAsNumber v = PErr e.
Proof.
  intros -> NI. unfold JsonParseAsNumber. cbn [number_loop]. revert NI. destruct c as [[] [] [] [] [] [] [] []]; vm_compute; intros NI; try (eexists; reflexivity); exfalso; apply NI; repeat (first [left; reflexivity|right]).
Qed.
Definition fields (s : style) : option (list byte) * bool * bool :=
  match s with Plain => (None, true, false) | Quoted => (None, false, true) | Tagged t => (Some t, false, false) end.
Definition yscalar (s : style) (v : list byte) : json := match fields s with (t, p, q) => JsonParseYamlScalarValue t v p q end.
Definition inb (v : list byte) (l : list (list byte)) : bool := existsb (fun w => bytes_eqb w v) l.
Lemma inb_in v l : inb v l = true <-> In v l.
Proof.
  unfold inb. rewrite existsb_exists. split; [intros (w & I & E); apply bytes_eqb_eq in E; now subst|intros I; exists v; split; [exact I|apply bytes_eqb_refl]].
Qed.
Lemma one_word v c : is_cstr v -> ((length v =? 1)%nat && beq (nth 0 v NUL) c) = bytes_eqb [c] v.
Proof.
  intros _. destruct v as [|x [|y v]]; cbn; [reflexivity| |now rewrite !andb_false_r]. rewrite andb_true_r. unfold beq. now rewrite Ascii.eqb_sym.
Qed.
Lemma empty_word v : (length v =? 0)%nat = bytes_eqb [] v. Proof. destruct v; reflexivity. Qed.
(** the scalar function by its three tests *)
Definition mayb (t : list byte) (s : style) : bool := match s with Plain => true | Quoted => false | Tagged u => bytes_eqb u (lit "tag:yaml.org,2002:" ++ t) end.
Lemma yscalar_eq s v : is_cstr v ->
  yscalar s v =
    if mayb (lit "null") s && inb v null_words then JPrim PNull (lit "null")
    else if mayb (lit "bool") s && inb v true_words then JPrim PBool (lit "true")
    else if mayb (lit "bool") s && inb v false_words then JPrim PBool (lit "false")
    else if mayb (lit "int") s || mayb (lit "float") s then match JsonParseAsNumber v with POk j _ => j | PErr _ => JPrim PString v end
    else JPrim PString v.
Proof.
  intros C. unfold yscalar, JsonParseYamlScalarValue. rewrite (upto_nul_id C). rewrite !(one_word _ C), empty_word.
  assert (NW : (bytes_eqb (lit "~") v || bytes_eqb [] v || bytes_eqb (lit "NULL") v || bytes_eqb (lit "Null") v || bytes_eqb (lit "null") v) = inb v null_words) by (unfold inb, null_words; cbn [existsb]; rewrite !orb_false_r; destruct (bytes_eqb [] v), (bytes_eqb (lit "~") v); cbn [orb]; rewrite ?orb_true_r; rewrite <- ?orb_assoc; reflexivity).
  assert (TW : (bytes_eqb ["Y"%char] v || bytes_eqb ["y"%char] v || bytes_eqb (lit "YES") v || bytes_eqb (lit "Yes") v || bytes_eqb (lit "yes") v || bytes_eqb (lit "TRUE") v || bytes_eqb (lit "True") v || bytes_eqb (lit "true") v || bytes_eqb (lit "ON") v || bytes_eqb (lit "On") v || bytes_eqb (lit "on") v) = inb v true_words) by (unfold inb, true_words; cbn [existsb]; rewrite !orb_false_r; rewrite <- !orb_assoc; reflexivity).
  assert (FW : (bytes_eqb ["N"%char] v || bytes_eqb ["n"%char] v || bytes_eqb (lit "NO") v || bytes_eqb (lit "No") v || bytes_eqb (lit "no") v || bytes_eqb (lit "FALSE") v || bytes_eqb (lit "False") v || bytes_eqb (lit "false") v || bytes_eqb (lit "OFF") v || bytes_eqb (lit "Off") v || bytes_eqb (lit "off") v) = inb v false_words) by (unfold inb, false_words; cbn [existsb]; rewrite !orb_false_r; rewrite <- !orb_assoc; reflexivity).
  rewrite TW, FW. change (lit "~") with ["~"%char] in NW. rewrite NW. clear NW TW FW. unfold yaml_tag, JsonNullCreate, JsonBoolCreate, JsonStringCreate.
  destruct s as [| |t]; cbn [fields mayb negb andb orb].
  - rewrite orb_true_r. cbn [andb]. destruct (inb v null_words); [reflexivity|]. destruct (inb v true_words); [reflexivity|]. destruct (inb v false_words); [reflexivity|]. destruct (JsonParseAsNumber v); reflexivity.
  - assert (E : bytes_eqb (lit "tag:yaml.org,2002:" ++ lit "str") (lit "tag:yaml.org,2002:" ++ lit "null") = false) by reflexivity. rewrite E. reflexivity.
  - rewrite !orb_false_r. destruct (bytes_eqb t (lit "tag:yaml.org,2002:" ++ lit "null") && inb v null_words); [reflexivity|]. destruct (bytes_eqb t (lit "tag:yaml.org,2002:" ++ lit "bool")) eqn:TB; cbn [andb].
    + apply bytes_eqb_eq in TB. subst t. destruct (inb v true_words); [reflexivity|]. destruct (inb v false_words); reflexivity.
    + destruct (bytes_eqb t (lit "tag:yaml.org,2002:" ++ lit "int") || bytes_eqb t (lit "tag:yaml.org,2002:" ++ lit "float")); [destruct (JsonParseAsNumber v)|]; reflexivity.
Qed.

Lemma mayb_null s : mayb (lit "null") s = true <-> may_null s.
Proof. destruct s as [| |t]; cbn [mayb]; unfold may_null; [tauto| |rewrite bytes_eqb_eq; change (lit "tag:yaml.org,2002:" ++ lit "null") with (lit "tag:yaml.org,2002:null"); split; [intros ->; now right|intros [A|A]; [discriminate|now injection A]]]. split; [discriminate|intros [A|A]; discriminate]. Qed.
Lemma mayb_bool s : mayb (lit "bool") s = true <-> may_bool s.
Proof. destruct s as [| |t]; cbn [mayb]; unfold may_bool; [tauto| |rewrite bytes_eqb_eq; change (lit "tag:yaml.org,2002:" ++ lit "bool") with (lit "tag:yaml.org,2002:bool"); split; [intros ->; now right|intros [A|A]; [discriminate|now injection A]]]. split; [discriminate|intros [A|A]; discriminate]. Qed.
Lemma mayb_number s : mayb (lit "int") s || mayb (lit "float") s = true <-> may_number s.
Proof.
  destruct s as [| |t]; cbn [mayb]; unfold may_number; [cbn; tauto|cbn; split; [discriminate|intros [A|[A|A]]; discriminate]|].
  rewrite orb_true_iff, !bytes_eqb_eq. change (lit "tag:yaml.org,2002:" ++ lit "int") with (lit "tag:yaml.org,2002:int"). change (lit "tag:yaml.org,2002:" ++ lit "float") with (lit "tag:yaml.org,2002:float").
  split; [intros [->| ->]; auto|intros [A|[A|A]]; [discriminate| |]; injection A; auto].
Qed.
Lemma bfalse b (P : Prop) : (b = true <-> P) -> ~ P -> b = false.
Proof. intros I N. destruct b; [|reflexivity]. exfalso. now apply N, I. Qed.
Lemma word_not_number v l : In v l -> (forall w, In w l -> match w with [] => true | c :: _ => negb (starts_number c) end = true) -> forall b, ~ number b v.
Proof.
  intros I F b N. apply F in I. destruct (number_first N) as (c & d & -> & S & _). rewrite S in I. discriminate.
Qed.
Lemma starts_in c : starts_number c = true <-> In c (lit "-0123456789").
Proof.
  destruct c as [[] [] [] [] [] [] [] []]; vm_compute; split; intros H; try reflexivity; try discriminate; try tauto; exfalso; repeat (destruct H as [H|H]; [discriminate|]); exact H.
Qed.
Lemma number_ascii v b : number b v -> exists c d, v = c :: d /\ In c (lit "-0123456789").
Proof. intros N. destruct (number_first N) as (c & d & -> & S & _). exists c, d. split; [reflexivity|now apply starts_in]. Qed.

(** the words are no numbers *)
Definition no_number_word (w : list byte) : bool := match w with [] => true | c :: _ => negb (starts_number c) end.
Lemma words_ok l : forallb no_number_word l = true -> forall v b, number b v -> inb v l = false.
Proof.
  intros F v b N. apply (bfalse (inb_in v l)). intros I. rewrite forallb_forall in F. specialize (F _ I). destruct (number_first N) as (c & d & -> & S & _). cbn [no_number_word] in F. rewrite S in F. discriminate.
Qed.
Lemma scalar_ok s v j : is_cstr v -> scalar_value s v j -> yscalar s v = j.
Proof.
  intros C SV. rewrite (yscalar_eq s C). destruct SV as [M I|M I|M I|M N|M N|N1 N2 N3].
  - apply mayb_null in M. apply inb_in in I. now rewrite M, I.
  - assert (E : inb v null_words = false) by (apply (bfalse (inb_in _ _)); intros J; cbn in I, J; repeat (destruct I as [<-|I]; [repeat (destruct J as [J|J]; [discriminate|]); exact J|]); exact I).
    apply mayb_bool in M. apply inb_in in I. now rewrite E, M, I, andb_false_r.
  - assert (E : inb v null_words = false) by (apply (bfalse (inb_in _ _)); intros J; cbn in I, J; repeat (destruct I as [<-|I]; [repeat (destruct J as [J|J]; [discriminate|]); exact J|]); exact I).
    assert (E' : inb v true_words = false) by (apply (bfalse (inb_in _ _)); intros J; cbn in I, J; repeat (destruct I as [<-|I]; [repeat (destruct J as [J|J]; [discriminate|]); exact J|]); exact I).
    apply mayb_bool in M. apply inb_in in I. now rewrite E, E', M, I, !andb_false_r.
  - rewrite !(fun l F => @words_ok l F _ _ N), !andb_false_r by reflexivity. apply mayb_number in M. rewrite M. assert (P := @number_parses false v [] N (or_introl eq_refl)). rewrite app_nil_r in P. now rewrite P.
  - rewrite !(fun l F => @words_ok l F _ _ N), !andb_false_r by reflexivity. apply mayb_number in M. rewrite M. assert (P := @number_parses true v [] N (or_introl eq_refl)). rewrite app_nil_r in P. now rewrite P.
  - assert (E1 : mayb (lit "null") s && inb v null_words = false) by (apply (bfalse (P := may_null s /\ In v null_words)); [rewrite andb_true_iff, mayb_null, inb_in; tauto|exact N1]).
    assert (E2 : mayb (lit "bool") s && inb v true_words = false) by (apply (bfalse (P := may_bool s /\ In v true_words)); [rewrite andb_true_iff, mayb_bool, inb_in; tauto|tauto]).
    assert (E3 : mayb (lit "bool") s && inb v false_words = false) by (apply (bfalse (P := may_bool s /\ In v false_words)); [rewrite andb_true_iff, mayb_bool, inb_in; tauto|tauto]).
    rewrite E1, E2, E3. destruct (mayb (lit "int") s || mayb (lit "float") s) eqn:M; [|reflexivity]. apply mayb_number in M.
    destruct v as [|c d]; [reflexivity|]. destruct (@not_number (c :: d) c d eq_refl) as (e & ->); [|reflexivity]. intros I. apply N3. split; [exact M|]. exists c. auto.
Qed.
Lemma event_scalar s v : exists t p q, scalar_event s v = ScalarE t v p q /\ JsonParseYamlScalarValue t v p q = yscalar s v.
Proof. destruct s; cbn; do 3 eexists; split; reflexivity. Qed.

(** ** the loop *)
Notation P := JsonParseYamlData.
Lemma fuel_ok : forall f evs e k, (length evs < f)%nat ->
  (forall f', (length evs < f')%nat -> P f' evs e k = P f evs e k) /\ (forall j r, P f evs e k = Ok (j, r) -> (length r <= length evs)%nat).
Proof.
  induction f as [|f IH]; intros evs e k L; [lia|].
  assert (REC : forall evs e k, (length evs < f)%nat -> forall f', (length evs < f')%nat -> P f' evs e k = P f evs e k) by (intros; now apply IH).
  assert (LEN : forall evs e k j r, (length evs < f)%nat -> P f evs e k = Ok (j, r) -> (length r <= length evs)%nat) by (intros ? ? ? ? ? A B; exact (proj2 (IH _ _ _ A) _ _ B)).
  assert (BND : forall evs' start (g : json -> json) f', (S (length evs') < S f)%nat -> (S (length evs') < S f')%nat ->
    (bind (P f' evs' start None) (fun jr => let (j, evs) := jr in P f' evs (g j) None)) = bind (P f evs' start None) (fun jr => let (j, evs) := jr in P f evs (g j) None)).
  { intros evs' start g f' L1 L2. rewrite (REC evs' start None ltac:(lia) f' ltac:(lia)). destruct (P f evs' start None) as [[j r]| | |] eqn:E; cbn [bind]; try reflexivity. apply LEN in E; [|lia]. apply REC; lia. }
  assert (BNL : forall evs' start (g : json -> json) j r, (S (length evs') < S f)%nat -> (bind (P f evs' start None) (fun jr => let (j, evs) := jr in P f evs (g j) None)) = Ok (j, r) -> (length r <= length evs')%nat).
  { intros evs' start g j r L1 H. destruct (P f evs' start None) as [[j' r']| | |] eqn:E; cbn [bind] in H; try discriminate. apply LEN in E; [|lia]. apply LEN in H; lia. }
  split.
  - intros f' L'. destruct f' as [|f']; [lia|]. cbn [P].
    destruct evs as [|ev evs]; [reflexivity|]. cbn [length] in L, L'.
    destruct ev; try reflexivity; try (destruct e; reflexivity).
    + destruct e as [pt pv|cs|kvs]; [reflexivity|apply REC; lia|destruct k as [k|]; apply REC; lia].
    + destruct e as [pt pv|cs|kvs]; [reflexivity|now apply (BND evs (JArr []) (fun j => JArr (JsonArrayAppendElement cs j)))|destruct k as [k|]; [now apply (BND evs (JArr []) (fun j => JObj (JsonObjectAppendElement kvs k j)))|reflexivity]].
    + destruct e as [pt pv|cs|kvs]; [reflexivity|now apply (BND evs (JObj []) (fun j => JArr (JsonArrayAppendElement cs j)))|destruct k as [k|]; [now apply (BND evs (JObj []) (fun j => JObj (JsonObjectAppendElement kvs k j)))|reflexivity]].
    + apply REC; lia.
  - intros j r. cbn [P]. destruct evs as [|ev evs]; [intros H; injection H as <- <-; auto|]. cbn [length] in L |- *.
    destruct ev; try (intros H; injection H as <- <-; lia).
    + destruct e as [pt pv|cs|kvs]; [discriminate|intros H; apply LEN in H; lia|destruct k as [k|]; intros H; apply LEN in H; lia].
    + destruct e as [pt pv|cs|kvs]; [discriminate|intros H; apply (BNL evs (JArr []) (fun j => JArr (JsonArrayAppendElement cs j))) in H; lia|destruct k as [k|]; [intros H; apply (BNL evs (JArr []) (fun j => JObj (JsonObjectAppendElement kvs k j))) in H; lia|discriminate]].
    + destruct e; try discriminate. intros H; injection H as <- <-; lia.
    + destruct e as [pt pv|cs|kvs]; [discriminate|intros H; apply (BNL evs (JObj []) (fun j => JArr (JsonArrayAppendElement cs j))) in H; lia|destruct k as [k|]; [intros H; apply (BNL evs (JObj []) (fun j => JObj (JsonObjectAppendElement kvs k j))) in H; lia|discriminate]].
    + destruct e; try discriminate. intros H; injection H as <- <-; lia.
    + intros H; apply LEN in H; lia.
Qed.
Definition D (evs : list event) (e : json) (k : option (list byte)) : res (json * list event) := P (S (length evs)) evs e k.
Lemma D_any f evs e k : (length evs < f)%nat -> P f evs e k = D evs e k.
Proof. intros L. unfold D. apply (fuel_ok (f := S (length evs)) evs e k); lia. Qed.
Lemma D_len evs e k j r : D evs e k = Ok (j, r) -> (length r <= length evs)%nat.
Proof. unfold D. apply (fuel_ok (f := S (length evs)) evs e k). lia. Qed.

Lemma D_un ev evs e k : exists f, (length evs < f)%nat /\ D (ev :: evs) e k = P (S f) (ev :: evs) e k.
Proof. exists (S (length evs)). split; [lia|reflexivity]. Qed.
Ltac unD := match goal with |- D (?ev :: ?evs) ?e ?k = _ => let f := fresh "f" in let L := fresh "LF" in destruct (D_un ev evs e k) as (f & L & ->) end.
Lemma D_other a evs e k : D (OtherE a :: evs) e k = D evs e k.
Proof. unD. cbn [P]. now apply D_any. Qed.
Lemma D_arr_scalar s v evs cs k : D (scalar_event s v :: evs) (JArr cs) k = D evs (JArr (cs ++ [yscalar s v])) None.
Proof. destruct (event_scalar s v) as (t & p & q & -> & E). unD. cbn [P]. rewrite E. now apply D_any. Qed.
Lemma D_obj_key s v evs kvs : is_cstr v -> D (scalar_event s v :: evs) (JObj kvs) None = D evs (JObj kvs) (Some v).
Proof. intros C. destruct (event_scalar s v) as (t & p & q & -> & E). unD. cbn [P]. rewrite (upto_nul_id C). now apply D_any. Qed.
Lemma D_obj_scalar s v evs kvs k : D (scalar_event s v :: evs) (JObj kvs) (Some k) = D evs (JObj (JsonObjectAppendElement kvs k (yscalar s v))) None.
Proof. destruct (event_scalar s v) as (t & p & q & -> & E). unD. cbn [P]. rewrite E. now apply D_any. Qed.
Definition begins (start : json) : event := match start with JObj _ => MapStart | _ => SeqStart end.
Lemma D_arr_start start evs cs k j r : start = JArr [] \/ start = JObj [] -> D evs start None = Ok (j, r) -> D (begins start :: evs) (JArr cs) k = D r (JArr (cs ++ [j])) None.
Proof.
  intros ST E. assert (L := @D_len _ _ _ _ _ E). unD. destruct ST as [-> | ->]; cbn [P begins]; rewrite D_any by lia; rewrite E; cbn [bind]; apply D_any; lia.
Qed.
Lemma D_obj_start start evs kvs k j r : start = JArr [] \/ start = JObj [] -> D evs start None = Ok (j, r) -> D (begins start :: evs) (JObj kvs) (Some k) = D r (JObj (JsonObjectAppendElement kvs k j)) None.
Proof.
  intros ST E. assert (L := @D_len _ _ _ _ _ E). unD. destruct ST as [-> | ->]; cbn [P begins]; rewrite D_any by lia; rewrite E; cbn [bind]; apply D_any; lia.
Qed.
Lemma D_seq_end evs cs : D (SeqEnd :: evs) (JArr cs) None = Ok (JArr cs, evs). Proof. reflexivity. Qed.
Lemma D_map_end evs kvs : D (MapEnd :: evs) (JObj kvs) None = Ok (JObj kvs, evs). Proof. reflexivity. Qed.

(** *** members *)
Definition appends (acc l : list (list byte * json)) : list (list byte * json) := fold_left (fun a kv => JsonObjectAppendElement a (fst kv) (snd kv)) l acc.
Lemma appends_eq l : forall acc, NoDup (map fst acc) -> appends acc l = filter (fun kv => negb (has_key (fst kv) l)) acc ++ lasts l.
Proof.
  unfold appends. induction l as [|[k v] l IH]; intros acc ND; cbn [fold_left fst snd].
  - cbn [has_key existsb negb lasts]. rewrite app_nil_r. induction acc as [|a acc IH]; [reflexivity|]. cbn [filter]. f_equal. apply IH. now inversion ND.
  - rewrite IH by now apply append_NoDup. rewrite (append_without acc k v ND), filter_app, <- app_assoc.
    assert (E1 : filter (fun kv => negb (has_key (fst kv) l)) (without k acc) = filter (fun kv => negb (has_key (fst kv) ((k, v) :: l))) acc).
    { unfold without. clear. induction acc as [|[a b] acc IH]; [reflexivity|]. cbn [filter has_key existsb fst] in *. fold (has_key a l).
      destruct (bytes_eqb k a) eqn:E; cbn [negb].
      - apply bytes_eqb_eq in E. subst a. rewrite bytes_eqb_refl. cbn [orb negb]. exact IH.
      - assert (E' : bytes_eqb a k = false) by (apply bytes_eqb_neq; apply bytes_eqb_neq in E; congruence). rewrite E'. cbn [orb filter fst]. destruct (has_key a l); cbn [negb]; [exact IH|f_equal; exact IH]. }
    rewrite E1. f_equal. cbn [filter lasts fst]. destruct (has_key k l); reflexivity.
Qed.
Lemma appends_nil l : appends [] l = lasts l.
Proof. rewrite appends_eq by constructor. reflexivity. Qed.

(** *** nodes *)
Definition node_ok (n : node) (j : json) : Prop :=
  (forall rest cs k, D (events n ++ rest) (JArr cs) k = D rest (JArr (cs ++ [j])) None) /\
  (forall rest kvs k, D (events n ++ rest) (JObj kvs) (Some k) = D rest (JObj (JsonObjectAppendElement kvs k j)) None).
Lemma seq_events l js : Forall2 node_ok l js -> forall rest cs, D (flat_map events l ++ SeqEnd :: rest) (JArr cs) None = Ok (JArr (cs ++ js), rest).
Proof.
  induction 1 as [|n j l js N F IH]; intros rest cs; cbn [flat_map app]; [rewrite app_nil_r; apply D_seq_end|].
  rewrite <- app_assoc. rewrite (proj1 N). rewrite IH, <- app_assoc. reflexivity.
Qed.
Definition member_events (kn : style * list byte * node) : list event := match kn with (s, k, n) => scalar_event s k :: events n end.
Lemma map_events l kvs : Forall2 (fun kn kv => (is_cstr (snd (fst kn)) /\ fst kv = snd (fst kn)) /\ node_ok (snd kn) (snd kv)) l kvs ->
  forall rest acc, D (flat_map member_events l ++ MapEnd :: rest) (JObj acc) None = Ok (JObj (appends acc kvs), rest).
Proof.
  induction 1 as [|[[s k] n] [k' j] l kvs N F IH]; intros rest acc; cbn [flat_map app]; [apply D_map_end|].
  cbn [fst snd] in N. destruct N as ((C & ->) & N). cbn [member_events app]. rewrite <- app_assoc. rewrite (D_obj_key _ _ _ C), (proj2 N), IH. reflexivity.
Qed.
Lemma means_ok : forall n j, means n j -> node_ok n j.
Proof.
  fix IH 3. intros n j M. destruct M as [s v j C SV|l js F|l kvs F].
  - split; intros; cbn [events app]; [rewrite D_arr_scalar|rewrite D_obj_scalar]; now rewrite (scalar_ok C SV).
  - assert (G : Forall2 node_ok l js) by (clear -IH F; induction F; constructor; auto). clear IH.
    assert (S := seq_events G). split; intros; cbn [events app]; rewrite <- app_assoc; [apply (@D_arr_start (JArr []))|apply (@D_obj_start (JArr []))]; auto; apply (S rest []).
  - assert (G : Forall2 (fun kn kv => (is_cstr (snd (fst kn)) /\ fst kv = snd (fst kn)) /\ node_ok (snd kn) (snd kv)) l kvs) by (clear -IH F; induction F as [|? ? ? ? H]; constructor; [destruct H; auto|auto]). clear IH.
    assert (S := map_events G). split; intros; cbn [events app]; rewrite <- app_assoc; [apply (@D_arr_start (JObj []))|apply (@D_obj_start (JObj []))]; auto; rewrite <- appends_nil; apply (S rest []).
Qed.
Lemma stream_ok ds js : Forall2 means ds js -> exists rest, D (stream ds) (JArr []) None = Ok (JArr js, rest).
Proof.
  intros F. exists []. unfold stream. rewrite D_other. enough (G : forall cs, D (flat_map document ds ++ [StreamEnd]) (JArr cs) None = Ok (JArr (cs ++ js), [])) by apply G.
  induction F as [|n j ds js M F IH]; intros cs; cbn [flat_map]; [rewrite app_nil_r; reflexivity|].
  unfold document at 1. rewrite <- !app_assoc. cbn [app]. rewrite D_other, <- app_assoc, (proj1 (means_ok M)). cbn [app]. rewrite D_other, IH, <- app_assoc. reflexivity.
Qed.
Lemma yaml_string fmt4 d ds j js : means d j -> Forall2 means ds js -> JsonParseYamlString fmt4 (stream (d :: ds)) = JsonCopy fmt4 j.
Proof.
  intros M F. unfold JsonParseYamlString. fold (D (stream (d :: ds)) (JArr []) None). destruct (@stream_ok (d :: ds) (j :: js)) as (r & ->); [now constructor|]. reflexivity.
Qed.
