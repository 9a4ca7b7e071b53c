(** The writers: their output spells the tree with every object's members sorted. *)
From Verif Require Import Prelude PreludeFacts Str StrFacts Libc LibcFacts CmpSpec CmpFacts JsonModel JsonFacts JsonSpec JsonSafe JsonParse.
From Coq Require Import Lia Permutation Sorting.Sorted.
Set Implicit Arguments.
Local Open Scope char_scope.

(** * Sorting *)
Lemma lex_le_lexcmp a b : lex_le a b = match lexcmp a b with Datatypes.Gt => false | _ => true end.
Proof.
  revert b; induction a as [|x a IH]; intros [|y b]; cbn; try reflexivity.
  destruct (N.compare_spec (code x) (code y)) as [E|L|G].
  - apply code_inj in E. subst y. rewrite N.ltb_irrefl, beq_refl. apply IH.
  - apply N.ltb_lt in L. now rewrite L.
  - assert (K : (code x <? code y)%N = false) by (apply N.ltb_ge; lia). rewrite K.
    replace (beq x y) with false; [reflexivity|]. symmetry. apply beq_neq. intros ->. lia.
Qed.
Lemma lex_le_true a b : lex_le a b = true -> before a b \/ a = b.
Proof.
  rewrite lex_le_lexcmp. destruct (lexcmp a b) eqn:E; try discriminate; intros _.
  - right. now apply lexcmp_eq. 
  - left. now apply lexcmp_lt.
Qed.
Lemma lex_le_false a b : lex_le a b = false -> before b a.
Proof. rewrite lex_le_lexcmp. destruct (lexcmp a b) eqn:E; try discriminate. intros _. now apply lexcmp_gt. Qed.

Section SortFacts.
  Variable A : Type.
  Notation members := (list (list byte * A)).
  Definition le_key (x y : list byte * A) := before (fst x) (fst y) \/ fst x = fst y.

  Lemma insert_perm k v (l : members) : Permutation (insert_member k v l) ((k, v) :: l).
  Proof.
    induction l as [|[k' v'] r IH]; cbn; [reflexivity|]. destruct (lex_le k k'); [reflexivity|].
    rewrite IH. apply perm_swap.
  Qed.
  Lemma sort_perm (l : members) : Permutation (sort_children l) l.
  Proof. induction l as [|[k v] r IH]; cbn; [reflexivity|]. rewrite insert_perm. now constructor. Qed.

  Lemma le_key_trans x y z : le_key x y -> le_key y z -> le_key x z.
  Proof.
    unfold le_key. intros [H|H] [K|K]; rewrite ?H, <- ?K in *; auto. left. eapply before_trans; eauto.
  Qed.
  Lemma insert_sorted k v (l : members) : StronglySorted le_key l -> StronglySorted le_key (insert_member k v l).
  Proof.
    induction l as [|[k' v'] r IH]; cbn; intros H; [repeat constructor|].
    inversion H as [|x y HS HF]; subst. destruct (lex_le k k') eqn:E.
    - constructor; [assumption|]. constructor.
      + apply lex_le_true in E. exact E.
      + rewrite Forall_forall in *. intros x I. eapply le_key_trans; [|now apply HF]. apply lex_le_true in E. exact E.
    - constructor; [auto|]. apply lex_le_false in E. rewrite Forall_forall in *. intros x I.
      apply (Permutation_in _ (insert_perm k v r)) in I. destruct I as [<-|I]; [now left|auto].
  Qed.
  Lemma sort_sorted (l : members) : StronglySorted le_key (sort_children l).
  Proof. induction l as [|[k v] r IH]; cbn; [constructor|]. now apply insert_sorted. Qed.

  Lemma sorted_ascending (l : members) : NoDup (map fst l) -> StronglySorted le_key l -> ascending (map fst l).
  Proof.
    unfold ascending. induction l as [|x r IH]; cbn; intros ND H; [constructor|]. inversion ND; inversion H; subst.
    constructor; [auto|]. rewrite Forall_forall in *. intros k I. apply in_map_iff in I. destruct I as (y & <- & I).
    destruct (H7 y I) as [K|K]; [exact K|]. exfalso. apply H2. rewrite K. now apply in_map.
  Qed.

  (** a sorted arrangement with distinct names is unique *)
  Lemma ascending_unique (l m : members) : Permutation l m -> ascending (map fst l) -> ascending (map fst m) -> l = m.
  Proof.
    unfold ascending. revert m. induction l as [|x l IH]; intros m HP HL HM.
    - apply Permutation_nil in HP. now subst.
    - destruct m as [|y m]; [apply Permutation_sym, Permutation_nil in HP; discriminate|].
      cbn in HL, HM. inversion HL as [|a b SL FL]; inversion HM as [|a' b' SM FM]; subst.
      assert (E : x = y).
      { assert (I : In x (y :: m)) by (eapply Permutation_in; [exact HP|now left]).
        assert (J : In y (x :: l)) by (eapply Permutation_in; [apply Permutation_sym, HP|now left]).
        destruct I as [I|I]; [auto|]. destruct J as [J|J]; [auto|]. exfalso. rewrite Forall_forall in *.
        apply (before_asym (a := fst x) (b := fst y)).
        - apply FL. now apply in_map.
        - apply FM. now apply in_map. }
      subst y. f_equal. apply IH; auto. now apply Permutation_cons_inv in HP.
  Qed.
End SortFacts.

Definition on_snd A B (f : A -> B) (kv : list byte * A) : list byte * B := (fst kv, f (snd kv)).
Lemma insert_map A B (f : A -> B) k v l : insert_member k (f v) (map (on_snd f) l) = map (on_snd f) (insert_member k v l).
Proof. induction l as [|[k' v'] r IH]; cbn; [reflexivity|]. destruct (lex_le k k'); cbn; [reflexivity|]. now rewrite IH. Qed.
Lemma sort_map A B (f : A -> B) l : sort_children (map (on_snd f) l) = map (on_snd f) (sort_children l).
Proof. induction l as [|[k v] r IH]; cbn; [reflexivity|]. rewrite IH. apply insert_map. Qed.
Lemma map_fst_on_snd A B (f : A -> B) l : map fst (map (on_snd f) l) = map fst l.
Proof. rewrite map_map. reflexivity. Qed.

(** * The tree after writing *)
Fixpoint canon (j : json) : json :=
  match j with
  | JPrim t v => j
  | JArr cs => JArr (map canon cs)
  | JObj kvs => JObj (sort_children ((fix each l := match l with [] => [] | (k, c) :: r => (k, canon c) :: each r end) kvs))
  end.
Lemma canon_obj kvs : canon (JObj kvs) = JObj (sort_children (map (on_snd canon) kvs)).
Proof. cbn [canon]. do 2 f_equal. induction kvs as [|[k c] r IH]; cbn; [reflexivity|]. now rewrite IH. Qed.

(** * The writers with maps *)
Definition arr_text (indent : nat) : list (bool * list byte) -> list byte :=
  fix loop l := match l with
  | [] => []
  | (prim, t) :: r => (if prim : bool then [] else PrintIndent (S indent)) ++ t
                      ++ (match r with [] => [B_n] | _ => [","; B_n] end) ++ loop r
  end.
Definition obj_text (indent : nat) : list (list byte * list byte) -> list byte :=
  fix loop l := match l with
  | [] => []
  | (k, t) :: r => PrintIndent (S indent) ++ (DQ :: k ++ [DQ; ":"; " "]) ++ t
                   ++ (match r with [] => [B_n] | _ => [","; B_n] end) ++ loop r
  end.
Definition carr_text : list (list byte) -> list byte :=
  fix loop l := match l with [] => [] | t :: r => t ++ (match r with [] => [] | _ => [","] end) ++ loop r end.
Definition cobj_text : list (list byte * list byte) -> list byte :=
  fix loop l := match l with
  | [] => []
  | (k, t) :: r => (DQ :: k ++ [DQ; ":"]) ++ t ++ (match r with [] => [] | _ => [","] end) ++ loop r
  end.

Lemma Write_arr cs i : cs <> [] -> JsonWrite (JArr cs) i =
  ("[" :: B_n :: arr_text i (map (fun c => (is_primitive c, fst (JsonWrite c (S i)))) cs) ++ PrintIndent i ++ ["]"],
   JArr (map (fun c => snd (JsonWrite c (S i))) cs)).
Proof.
  assert (E : forall l, (fix each (l : list json) := match l with [] => [] | c :: r => (is_primitive c, JsonWrite c (S i)) :: each r end) l
     = map (fun c => (is_primitive c, JsonWrite c (S i))) l).
  { induction l as [|c r IH]; [reflexivity|]. cbn [map]. now rewrite <- IH. }
  assert (T : forall l, (fix loop (l : list (bool * (list byte * json))) := match l with
                   | [] => []
                   | (prim, (t, _)) :: r =>
                       (if prim : bool then [] else PrintIndent (S i)) ++ t
                       ++ (match r with [] => [B_n] | _ => [","; B_n] end) ++ loop r
                   end) l = arr_text i (map (fun w => (fst w, fst (snd w))) l)).
  { induction l as [|[b [t j]] r IH]; [reflexivity|]. cbn [map arr_text fst snd]. rewrite <- IH. destruct r; reflexivity. }
  intros H. transitivity
   (let ws := map (fun c => (is_primitive c, JsonWrite c (S i))) cs in
    ("[" :: B_n :: arr_text i (map (fun w => (fst w, fst (snd w))) ws) ++ PrintIndent i ++ ["]"], JArr (map (fun w => snd (snd w)) ws))).
  - cbv zeta. rewrite <- E, <- T. destruct cs; [congruence|reflexivity].
  - cbv zeta. rewrite !map_map. reflexivity.
Qed.

Lemma Write_obj kvs i : JsonWrite (JObj kvs) i =
  ("{" :: B_n :: obj_text i (sort_children (map (on_snd (fun c => fst (JsonWrite c (if is_primitive c then 0 else S i)))) kvs)) ++ PrintIndent i ++ ["}"],
   JObj (sort_children (map (on_snd (fun c => snd (JsonWrite c (if is_primitive c then 0 else S i)))) kvs))).
Proof.
  assert (E : forall l, (fix each (l : list (list byte * json)) := match l with [] => []
       | (k, c) :: r => (k, JsonWrite c (if is_primitive c then 0 else S i)) :: each r end) l
     = map (on_snd (fun c => JsonWrite c (if is_primitive c then 0 else S i))) l).
  { induction l as [|[k c] r IH]; [reflexivity|]. cbn [map]. now rewrite <- IH. }
  assert (T : forall l, (fix loop (l : list (list byte * (list byte * json))) := match l with
                   | [] => []
                   | (k, (t, _)) :: r =>
                       PrintIndent (S i) ++ (DQ :: k ++ [DQ; ":"; " "]) ++ t
                       ++ (match r with [] => [B_n] | _ => [","; B_n] end) ++ loop r
                   end) l = obj_text i (map (on_snd fst) l)).
  { induction l as [|[k [t j]] r IH]; [reflexivity|]. cbn [map obj_text on_snd fst snd]. rewrite <- IH. destruct r; reflexivity. }
  transitivity
   (let ws := sort_children (map (on_snd (fun c => JsonWrite c (if is_primitive c then 0 else S i))) kvs) in
    ("{" :: B_n :: obj_text i (map (on_snd fst) ws) ++ PrintIndent i ++ ["}"], JObj (map (on_snd snd) ws))).
  - cbv zeta. rewrite <- E, <- T. reflexivity.
  - cbv zeta. rewrite <- !sort_map, !map_map. reflexivity.
Qed.

Lemma WriteCompact_arr cs : JsonWriteCompact (JArr cs) =
  ("[" :: carr_text (map (fun c => fst (JsonWriteCompact c)) cs) ++ ["]"],
   JArr (map (fun c => snd (JsonWriteCompact c)) cs)).
Proof.
  assert (E : forall l, (fix each (l : list json) := match l with [] => [] | c :: r => JsonWriteCompact c :: each r end) l
     = map JsonWriteCompact l).
  { induction l as [|c r IH]; [reflexivity|]. cbn [map]. now rewrite <- IH. }
  assert (T : forall l, (fix loop (l : list (list byte * json)) := match l with
                   | [] => []
                   | (t, _) :: r => t ++ (match r with [] => [] | _ => [","] end) ++ loop r
                   end) l = carr_text (map fst l)).
  { induction l as [|[t j] r IH]; [reflexivity|]. cbn [map carr_text fst snd]. rewrite <- IH. destruct r; reflexivity. }
  transitivity
   (let ws := map JsonWriteCompact cs in ("[" :: carr_text (map fst ws) ++ ["]"], JArr (map snd ws))).
  - cbv zeta. rewrite <- E, <- T. destruct cs; reflexivity.
  - cbv zeta. rewrite !map_map. reflexivity.
Qed.

Lemma WriteCompact_obj kvs : JsonWriteCompact (JObj kvs) =
  ("{" :: cobj_text (sort_children (map (on_snd (fun c => fst (JsonWriteCompact c))) kvs)) ++ ["}"],
   JObj (sort_children (map (on_snd (fun c => snd (JsonWriteCompact c))) kvs))).
Proof.
  assert (E : forall l, (fix each (l : list (list byte * json)) := match l with [] => []
       | (k, c) :: r => (k, JsonWriteCompact c) :: each r end) l = map (on_snd JsonWriteCompact) l).
  { induction l as [|[k c] r IH]; [reflexivity|]. cbn [map]. now rewrite <- IH. }
  assert (T : forall l, (fix loop (l : list (list byte * (list byte * json))) := match l with
                   | [] => []
                   | (k, (t, _)) :: r =>
                       (DQ :: k ++ [DQ; ":"]) ++ t ++ (match r with [] => [] | _ => [","] end) ++ loop r
                   end) l = cobj_text (map (on_snd fst) l)).
  { induction l as [|[k [t j]] r IH]; [reflexivity|]. cbn [map cobj_text on_snd fst snd]. rewrite <- IH. destruct r; reflexivity. }
  transitivity
   (let ws := sort_children (map (on_snd JsonWriteCompact) kvs) in
    ("{" :: cobj_text (map (on_snd fst) ws) ++ ["}"], JObj (map (on_snd snd) ws))).
  - cbv zeta. rewrite <- E, <- T. reflexivity.
  - cbv zeta. rewrite <- !sort_map, !map_map. reflexivity.
Qed.

(** * The tree left behind is [canon] *)
Lemma map_ext_Forall A B (f g : A -> B) l : Forall (fun x => f x = g x) l -> map f l = map g l.
Proof. induction 1; cbn; [reflexivity|]. now f_equal. Qed.
Lemma Write_tree j : forall i, snd (JsonWrite j i) = canon j.
Proof.
  induction j as [t v|cs IH|kvs IH] using json_nested_ind; intros i.
  - reflexivity.
  - destruct cs as [|c cs]; [reflexivity|]. rewrite Write_arr by discriminate. cbn [snd canon]. f_equal.
    apply map_ext_Forall. eapply Forall_impl; [|exact IH]. intros a H. apply H.
  - rewrite Write_obj, canon_obj. cbn [snd]. do 2 f_equal. apply map_ext_Forall.
    eapply Forall_impl; [|exact IH]. intros [k c] H. unfold on_snd. cbn [fst snd] in *. f_equal. apply H.
Qed.
Lemma WriteCompact_tree j : snd (JsonWriteCompact j) = canon j.
Proof.
  induction j as [t v|cs IH|kvs IH] using json_nested_ind.
  - reflexivity.
  - rewrite WriteCompact_arr. cbn [snd canon]. f_equal. apply map_ext_Forall. exact IH.
  - rewrite WriteCompact_obj, canon_obj. cbn [snd]. do 2 f_equal. apply map_ext_Forall.
    eapply Forall_impl; [|exact IH]. intros [k c] H. unfold on_snd. cbn [fst snd] in *. now f_equal.
Qed.

(** * Output spells the tree *)
Lemma encode_spells s : is_cstr s -> spells_chars s (JsonEncodeString s).
Proof.
  induction s as [|c s IH]; intros H; cbn; [constructor|]. constructor.
  - assert (NZ : c <> NUL) by (intros ->; apply H; now left). clear IH H.
    unfold encode_char. destruct (beq c DQ) eqn:E1; [apply beq_true in E1; subst; apply spc_quote|]. cbn [orb].
    destruct (beq c BS) eqn:E2; [apply beq_true in E2; subst; apply spc_backslash|].
    destruct (beq c B_b) eqn:E3; [apply beq_true in E3; subst; apply spc_b|].
    destruct (beq c B_f) eqn:E4; [apply beq_true in E4; subst; apply spc_f|].
    destruct (beq c B_n) eqn:E5; [apply beq_true in E5; subst; apply spc_n|].
    destruct (beq c B_r) eqn:E6; [apply beq_true in E6; subst; apply spc_r|].
    destruct (beq c B_t) eqn:E7; [apply beq_true in E7; subst; apply spc_t|].
    apply spc_plain; [intros ->; discriminate|intros ->; discriminate|exact NZ].
  - apply IH. intros K. apply H. now right.
Qed.
Lemma key_spells k : is_cstr k -> ~ In """" k -> ~ In "\" k -> spells_string k (DQ :: k ++ [DQ]).
Proof.
  intros H1 H2 H3. constructor. induction k as [|c k IH]; [constructor|].
  change (c :: k) with ([c] ++ k) at 2. constructor.
  - apply spc_plain; [intros ->; apply H2; now left|intros ->; apply H3; now left|intros ->; apply H1; now left].
  - apply IH; intros K; [apply H1|apply H2|apply H3]; now right.
Qed.

Lemma indent_blank n : blank (PrintIndent n).
Proof. unfold PrintIndent, blank. apply Forall_forall. intros c H. apply repeat_spec in H. subst. now left. Qed.
Lemma blank_app a b : blank a -> blank b -> blank (a ++ b).
Proof. intros. now apply Forall_app. Qed.
Lemma blank_n w : blank w -> blank (B_n :: w).
Proof. intros H. constructor; [|exact H]. cbn. auto. Qed.
Lemma blank_sp w : blank w -> blank (" " :: w).
Proof. intros H. constructor; [|exact H]. cbn. auto. Qed.
Lemma blank_nil : blank [].
Proof. constructor. Qed.
#[global] Hint Resolve indent_blank blank_app blank_n blank_nil blank_sp : json.

Definition prefix_of (j : json) (i : nat) := if is_primitive j then PrintIndent i else [].

Lemma arr_elements i : forall (cs : list json) (ws : list (bool * list byte)) w0 w9,
  Forall2 (fun j w => exists t u, snd w = t ++ u /\ spells j u /\ blank t) cs ws -> cs <> [] -> blank w0 -> blank w9 ->
  elements cs (w0 ++ arr_text i ws ++ w9).
Proof.
  induction cs as [|c cs IH]; intros ws w0 w9 HF NE B0 B9; [congruence|].
  inversion HF as [|x y l l' HH HT]; subst. destruct y as [pr txt]. destruct HH as (t & u & E & HS & HB). cbn [snd] in E. subst txt.
  cbn [arr_text]. fold (arr_text i).
  set (ind := if pr then [] else PrintIndent (S i)).
  assert (BI : blank ind) by (unfold ind; destruct pr; auto with json).
  destruct cs as [|c2 cs].
  - inversion HT; subst. cbn [arr_text]. 
    replace (w0 ++ (ind ++ (t ++ u) ++ [B_n] ++ []) ++ w9) with ((w0 ++ ind ++ t) ++ u ++ (B_n :: w9))
      by (rewrite <- !app_assoc; reflexivity).
    apply el_one; auto with json.
  - inversion HT as [|x2 y2 l2 l2' HH2 HT2]; subst.
    replace (w0 ++ (ind ++ (t ++ u) ++ [","; B_n] ++ arr_text i (y2 :: l2')) ++ w9)
      with ((w0 ++ ind ++ t) ++ u ++ [] ++ "," :: ([B_n] ++ arr_text i (y2 :: l2') ++ w9))
      by (rewrite <- !app_assoc; reflexivity).
    apply el_more; auto with json. apply IH; auto with json. discriminate.
Qed.

Lemma carr_elements : forall (cs : list json) (ws : list (list byte)),
  Forall2 spells cs ws -> cs <> [] -> elements cs (carr_text ws).
Proof.
  induction cs as [|c cs IH]; intros ws HF NE; [congruence|].
  inversion HF as [|x y l l' HH HT]; subst. cbn [carr_text]. fold carr_text.
  destruct cs as [|c2 cs].
  - inversion HT; subst. cbn [carr_text].
    change (y ++ [] ++ []) with ([] ++ y ++ []). apply el_one; auto with json.
  - inversion HT as [|x2 y2 l2 l2' HH2 HT2]; subst.
    change (y ++ [","] ++ carr_text (y2 :: l2')) with ([] ++ y ++ [] ++ "," :: carr_text (y2 :: l2')).
    apply el_more; auto with json. apply IH; auto with json. discriminate.
Qed.

Definition good_key (k : list byte) := is_cstr k /\ ~ In """" k /\ ~ In "\" k.

Lemma obj_members i : forall (ms : list (list byte * json)) (ws : list (list byte * list byte)) w0 w9,
  Forall2 (fun m w => fst m = fst w /\ good_key (fst m) /\ spells (snd m) (snd w)) ms ws -> ms <> [] -> blank w0 -> blank w9 ->
  members ms (w0 ++ obj_text i ws ++ w9).
Proof.
  induction ms as [|[k j] ms IH]; intros ws w0 w9 HF NE B0 B9; [congruence|].
  inversion HF as [|x y l l' HH HT]; subst. destruct y as [k' u]. cbn [fst snd] in HH. destruct HH as (<- & (G1 & G2 & G3) & HS).
  cbn [obj_text]. fold (obj_text i).
  assert (KS := key_spells G1 G2 G3).
  destruct ms as [|m2 ms].
  - inversion HT; subst. cbn [obj_text].
    replace (w0 ++ (PrintIndent (S i) ++ (DQ :: k ++ [DQ; ":"; " "]) ++ u ++ [B_n] ++ []) ++ w9)
      with ((w0 ++ PrintIndent (S i)) ++ (DQ :: k ++ [DQ]) ++ [] ++ ":" :: [" "] ++ u ++ (B_n :: w9))
      by (repeat (progress (cbn [app]; rewrite <- ?app_assoc)); reflexivity).
    apply me_one; auto with json.
  - inversion HT as [|x2 y2 l2 l2' HH2 HT2]; subst.
    replace (w0 ++ (PrintIndent (S i) ++ (DQ :: k ++ [DQ; ":"; " "]) ++ u ++ [","; B_n] ++ obj_text i (y2 :: l2')) ++ w9)
      with ((w0 ++ PrintIndent (S i)) ++ (DQ :: k ++ [DQ]) ++ [] ++ ":" :: [" "] ++ u ++ [] ++ "," :: ([B_n] ++ obj_text i (y2 :: l2') ++ w9))
      by (repeat (progress (cbn [app]; rewrite <- ?app_assoc)); reflexivity).
    apply me_more; auto with json. apply IH; auto with json. discriminate.
Qed.

Lemma cobj_members : forall (ms : list (list byte * json)) (ws : list (list byte * list byte)),
  Forall2 (fun m w => fst m = fst w /\ good_key (fst m) /\ spells (snd m) (snd w)) ms ws -> ms <> [] ->
  members ms (cobj_text ws).
Proof.
  induction ms as [|[k j] ms IH]; intros ws HF NE; [congruence|].
  inversion HF as [|x y l l' HH HT]; subst. destruct y as [k' u]. cbn [fst snd] in HH. destruct HH as (<- & (G1 & G2 & G3) & HS).
  cbn [cobj_text]. fold cobj_text.
  assert (KS := key_spells G1 G2 G3).
  destruct ms as [|m2 ms].
  - inversion HT; subst. cbn [cobj_text].
    replace ((DQ :: k ++ [DQ; ":"]) ++ u ++ [] ++ []) with ([] ++ (DQ :: k ++ [DQ]) ++ [] ++ ":" :: [] ++ u ++ [])
      by (repeat (progress (cbn [app]; rewrite <- ?app_assoc)); reflexivity).
    apply me_one; auto with json.
  - inversion HT as [|x2 y2 l2 l2' HH2 HT2]; subst.
    replace ((DQ :: k ++ [DQ; ":"]) ++ u ++ [","] ++ cobj_text (y2 :: l2'))
      with ([] ++ (DQ :: k ++ [DQ]) ++ [] ++ ":" :: [] ++ u ++ [] ++ "," :: cobj_text (y2 :: l2'))
      by (repeat (progress (cbn [app]; rewrite <- ?app_assoc)); reflexivity).
    apply me_more; auto with json. apply IH; auto with json. discriminate.
Qed.

Lemma last_wins_NoDup ms : NoDup (map fst ms) -> last_wins ms = ms.
Proof.
  induction ms as [|[k v] r IH]; cbn; intros H; [reflexivity|]. inversion H; subst.
  replace (existsb (fun m => bytes_eqb k (fst m)) r) with false; [now rewrite IH|].
  symmetry. destruct (existsb _ r) eqn:E; [|reflexivity]. exfalso. apply existsb_exists in E.
  destruct E as (m & I & E). apply bytes_eqb_eq in E. apply H2. rewrite E. now apply in_map.
Qed.

Lemma Forall2_map A B C (P : B -> C -> Prop) (f : A -> B) (g : A -> C) l : Forall (fun x => P (f x) (g x)) l -> Forall2 P (map f l) (map g l).
Proof. induction 1; cbn; constructor; auto. Qed.

Lemma sorted_NoDup A (l : list (list byte * A)) : NoDup (map fst l) -> NoDup (map fst (sort_children l)).
Proof. intros H. eapply Permutation_NoDup; [|exact H]. apply Permutation_map, Permutation_sym, sort_perm. Qed.

Lemma portable_inv_arr cs : portable (JArr cs) -> Forall portable cs.
Proof. intros H; now inversion H. Qed.

Lemma prim_spells t v : portable (JPrim t v) -> exists u, spells (JPrim t v) u /\ forall i, JsonPrimitiveWrite t v i = PrintIndent i ++ u.
Proof.
  intros H; inversion H; subst.
  - exists (DQ :: JsonEncodeString v ++ [DQ]). split; [|reflexivity]. apply sp_string; [assumption|]. constructor. now apply encode_spells.
  - exists v. split; [now apply sp_int|reflexivity].
  - exists v. split; [now apply sp_real|reflexivity].
  - exists (lit "true"). split; [apply sp_true|reflexivity].
  - exists (lit "false"). split; [apply sp_false|reflexivity].
  - exists (lit "null"). split; [apply sp_null|reflexivity].
Qed.

Lemma Forall_sort A (P : list byte * A -> Prop) l : Forall P l -> Forall P (sort_children l).
Proof. intros H. eapply Permutation_Forall; [apply Permutation_sym, sort_perm|exact H]. Qed.

Theorem Write_spells j : portable j -> forall i, exists w u, fst (JsonWrite j i) = w ++ u /\ blank w /\
  (is_primitive j = false -> w = []) /\ (i = 0 -> w = []) /\ spells (canon j) u.
Proof.
  induction j as [t v|cs IH|kvs IH] using json_nested_ind; intros HP i.
  - destruct (prim_spells HP) as (u & HS & HE). exists (PrintIndent i), u. cbn [JsonWrite fst canon is_primitive].
    split; [apply HE|]. split; [auto with json|]. split; [discriminate|]. split; [now intros ->|exact HS].
  - apply portable_inv_arr in HP. exists []. destruct cs as [|c cs].
    { exists (lit "[]"). cbn [fst JsonWrite app canon map]. split; [reflexivity|]. split; [auto with json|]. split; [reflexivity|]. split; [reflexivity|]. apply (sp_empty_array blank_nil). }
    rewrite Write_arr by discriminate. eexists. cbn [fst app]. split; [reflexivity|]. split; [auto with json|]. split; [reflexivity|]. split; [reflexivity|].
    cbn [canon]. 
    match goal with |- spells _ ("[" :: B_n :: ?x ++ ?y ++ ["]"]) => replace ("[" :: B_n :: x ++ y ++ ["]"]) with ("[" :: ([B_n] ++ x ++ y) ++ ["]"]) by (cbn [app]; rewrite <- app_assoc; reflexivity) end.
    apply sp_array. apply arr_elements; auto with json; [|discriminate].
    apply Forall2_map. rewrite Forall_forall in *. intros x I. destruct (IH x I (HP x I) (S i)) as (w & u & E & B & _ & _ & HS).
    exists w, u. cbn [snd]. auto.
  - inversion HP as [| | | | | | |kvs' ND GK PV]; subst. exists []. rewrite Write_obj, canon_obj. cbn [fst app].
    eexists. split; [reflexivity|]. split; [auto with json|]. split; [reflexivity|]. split; [reflexivity|].
    destruct kvs as [|kv kvs0] eqn:EK.
    { cbn [map sort_children obj_text app]. apply (sp_empty_object (w := B_n :: PrintIndent i)). auto with json. }
    assert (NE : kvs <> []) by (subst; discriminate). rewrite <- EK in *. clear EK kv kvs0.
    match goal with |- spells _ ("{" :: B_n :: ?x ++ ?y ++ ["}"]) => replace ("{" :: B_n :: x ++ y ++ ["}"]) with ("{" :: ([B_n] ++ x ++ y) ++ ["}"]) by (cbn [app]; rewrite <- app_assoc; reflexivity) end.
    rewrite <- (@last_wins_NoDup (sort_children (map (on_snd canon) kvs))) by (apply sorted_NoDup; now rewrite map_fst_on_snd).
    apply sp_object. rewrite !sort_map. apply obj_members; auto with json.
    + apply Forall2_map. apply Forall_sort. rewrite Forall_forall in *. intros [k c] I. unfold on_snd. cbn [fst snd].
      split; [reflexivity|]. split; [exact (GK _ I)|].
      destruct (IH _ I (PV _ I) (if is_primitive c then 0 else S i)) as (w & u & E & B & Z1 & Z2 & HS). cbn [snd] in *.
      rewrite E. replace w with (@nil byte); [exact HS|]. symmetry. destruct (is_primitive c); auto.
    + intros K. apply map_eq_nil in K. apply NE. apply Permutation_nil. rewrite <- K. apply sort_perm.
Qed.

Theorem WriteCompact_spells j : portable j -> spells (canon j) (fst (JsonWriteCompact j)).
Proof.
  induction j as [t v|cs IH|kvs IH] using json_nested_ind; intros HP.
  - destruct (prim_spells HP) as (u & HS & HE). cbn [JsonWriteCompact fst canon]. rewrite HE. exact HS.
  - apply portable_inv_arr in HP. rewrite WriteCompact_arr. cbn [fst canon].
    destruct cs as [|c0 cs0] eqn:EC; [apply (sp_empty_array blank_nil)|].
    rewrite <- EC in *. apply sp_array. apply carr_elements; [|subst; discriminate].
    apply Forall2_map. rewrite Forall_forall in *. auto.
  - inversion HP as [| | | | | | |kvs' ND GK PV]; subst. rewrite WriteCompact_obj, canon_obj. cbn [fst].
    destruct kvs as [|kv kvs0] eqn:EK; [apply (sp_empty_object blank_nil)|].
    assert (NE : kvs <> []) by (subst; discriminate). rewrite <- EK in *. clear EK kv kvs0.
    rewrite <- (@last_wins_NoDup (sort_children (map (on_snd canon) kvs))) by (apply sorted_NoDup; now rewrite map_fst_on_snd).
    apply sp_object. rewrite !sort_map. apply cobj_members.
    + apply Forall2_map. apply Forall_sort. rewrite Forall_forall in *. intros [k c] I. unfold on_snd. cbn [fst snd].
      split; [reflexivity|]. split; [exact (GK _ I)|]. apply (IH _ I (PV _ I)).
    + intros K. apply map_eq_nil in K. apply NE. apply Permutation_nil. rewrite <- K. apply sort_perm.
Qed.

(** * [canon] is the same tree, in canonical order *)
Lemma canon_same j : same_tree j (canon j).
Proof.
  induction j as [t v|cs IH|kvs IH] using json_nested_ind.
  - constructor.
  - cbn [canon]. constructor. induction IH; cbn; constructor; auto.
  - rewrite canon_obj, sort_map. apply same_obj with (c := sort_children kvs).
    + apply Permutation_sym, sort_perm.
    + assert (H := Forall_sort IH). induction H; cbn; constructor; auto.
Qed.

Notation distinct := distinct_names.

Lemma canon_canonical j : distinct j -> canonical (canon j).
Proof.
  induction j as [t v|cs IH|kvs IH] using json_nested_ind; intros D.
  - constructor.
  - cbn [canon]. constructor. inversion D; subst. rewrite Forall_forall in *. intros x I. apply in_map_iff in I. destruct I as (y & <- & I). auto.
  - inversion D; subst. rewrite canon_obj. constructor.
    + apply sorted_ascending; [apply sorted_NoDup; now rewrite map_fst_on_snd|apply sort_sorted].
    + apply Forall_sort. rewrite Forall_forall in *. intros x I. apply in_map_iff in I. destruct I as ([k c] & <- & I). cbn [snd on_snd fst]. apply (IH _ I). now apply H1 in I.
Qed.

(** two trees that differ only in member order have the same canonical form *)
Lemma same_canon a : forall b, distinct a -> same_tree a b -> canon a = canon b.
Proof.
  induction a as [t v|cs IH|kvs IH] using json_nested_ind; intros b D HS; inversion HS; subst.
  - reflexivity.
  - cbn [canon]. f_equal. inversion D; subst. clear D HS. rename b0 into bs.
    revert bs H0 H1 IH. induction cs as [|c cs IHc]; intros bs F D IH; inversion F; subst; [reflexivity|].
    cbn. inversion IH; inversion D; subst. f_equal; auto.
  - inversion D; subst. rewrite !canon_obj. f_equal. rename b0 into bs.
    assert (EQ : map (on_snd canon) c = map (on_snd canon) bs).
    { assert (IHc : Forall (fun kv => forall b, distinct (snd kv) -> same_tree (snd kv) b -> canon (snd kv) = canon b) c)
        by (eapply Permutation_Forall; [exact H0|exact IH]).
      assert (Dc : Forall (fun kv => distinct (snd kv)) c) by (eapply Permutation_Forall; [exact H0|exact H3]).
      clear -H1 IHc Dc. revert IHc Dc. induction H1 as [|x y l l' [E S] F IHF]; intros IHc Dc; [reflexivity|].
      inversion IHc; inversion Dc; subst. cbn. unfold on_snd at 1 3. rewrite E. f_equal; [f_equal; auto|auto]. }
    rewrite <- EQ. apply ascending_unique.
    + rewrite sort_perm, sort_perm. now apply Permutation_map.
    + apply sorted_ascending; [apply sorted_NoDup; now rewrite map_fst_on_snd|apply sort_sorted].
    + apply sorted_ascending; [apply sorted_NoDup; rewrite map_fst_on_snd|apply sort_sorted].
      eapply Permutation_NoDup; [apply Permutation_map; exact H0|assumption].
Qed.

Lemma sort_id A (l : list (list byte * A)) : NoDup (map fst l) -> ascending (map fst l) -> sort_children l = l.
Proof.
  intros ND AS. apply ascending_unique; [apply sort_perm| |exact AS].
  apply sorted_ascending; [now apply sorted_NoDup|apply sort_sorted].
Qed.
Lemma sort_idem A (l : list (list byte * A)) : NoDup (map fst l) -> sort_children (sort_children l) = sort_children l.
Proof.
  intros ND. apply sort_id; [now apply sorted_NoDup|]. apply sorted_ascending; [now apply sorted_NoDup|apply sort_sorted].
Qed.

(** the text only depends on the canonical form *)
Lemma prim_canon j : is_primitive (canon j) = is_primitive j.
Proof. destruct j; reflexivity. Qed.
Lemma Write_canon j : distinct j -> forall i, fst (JsonWrite (canon j) i) = fst (JsonWrite j i).
Proof.
  induction j as [t v|cs IH|kvs IH] using json_nested_ind; intros D i.
  - reflexivity.
  - inversion D as [|x DC|]; subst. cbn [canon]. destruct cs as [|c0 cs0] eqn:EC; [reflexivity|]. rewrite <- EC in *.
    rewrite !Write_arr by (subst; discriminate). cbn [fst]. do 2 f_equal. f_equal. rewrite map_map. f_equal. apply map_ext_Forall.
    rewrite Forall_forall in *. intros x I. rewrite prim_canon. f_equal. now apply IH; [|apply DC].
  - inversion D as [| |x ND DC]; subst. rewrite canon_obj, !Write_obj. cbn [fst]. do 2 f_equal. f_equal. f_equal.
    rewrite <- sort_map, sort_idem by (now rewrite !map_fst_on_snd). f_equal. rewrite map_map. apply map_ext_Forall.
    rewrite Forall_forall in *. intros [k c] I. unfold on_snd. cbn [fst snd]. f_equal. rewrite prim_canon.
    apply (IH _ I). exact (DC _ I).
Qed.
Lemma WriteCompact_canon j : distinct j -> fst (JsonWriteCompact (canon j)) = fst (JsonWriteCompact j).
Proof.
  induction j as [t v|cs IH|kvs IH] using json_nested_ind; intros D.
  - reflexivity.
  - inversion D as [|x DC|]; subst. cbn [canon].
    rewrite !WriteCompact_arr. cbn [fst]. f_equal. f_equal. rewrite map_map. f_equal. apply map_ext_Forall.
    rewrite Forall_forall in *. intros x I. now apply IH; [|apply DC].
  - inversion D as [| |x ND DC]; subst. rewrite canon_obj, !WriteCompact_obj. cbn [fst]. f_equal. f_equal. f_equal.
    rewrite <- sort_map, sort_idem by (now rewrite !map_fst_on_snd). f_equal. rewrite map_map. apply map_ext_Forall.
    rewrite Forall_forall in *. intros [k c] I. unfold on_snd. cbn [fst snd]. f_equal. apply (IH _ I). exact (DC _ I).
Qed.

Lemma same_distinct a : forall b, distinct a -> same_tree a b -> distinct b.
Proof.
  induction a as [t v|cs IH|kvs IH] using json_nested_ind; intros b D HS; inversion HS as [|x y F|x y c P F]; subst.
  - constructor.
  - inversion D as [|x DC|]; subst. constructor. clear D HS. induction F; inversion IH; inversion DC; subst; constructor; auto.
  - inversion D as [| |x ND DC]; subst. 
    assert (IHc : Forall (fun kv => forall b, distinct (snd kv) -> same_tree (snd kv) b -> distinct b) c) by (eapply Permutation_Forall; [exact P|exact IH]).
    assert (Dc : Forall (fun kv => distinct (snd kv)) c) by (eapply Permutation_Forall; [exact P|exact DC]).
    assert (NDc : NoDup (map fst c)) by (eapply Permutation_NoDup; [apply Permutation_map; exact P|exact ND]).
    assert (E : map fst c = map fst y). { clear -F. induction F as [|p q l l' [E _] F IHF]; [reflexivity|]. cbn. now rewrite E, IHF. }
    constructor; [now rewrite <- E|]. clear -F IHc Dc. revert IHc Dc. induction F as [|p q l l' [E S] F IHF]; intros IHc Dc; constructor; inversion IHc; inversion Dc; subst; auto.
Qed.

Lemma portable_distinct j : portable j -> distinct j.
Proof.
  induction j as [t v|cs IH|kvs IH] using json_nested_ind; intros H.
  - constructor.
  - constructor. apply portable_inv_arr in H. rewrite Forall_forall in *. auto.
  - inversion H as [| | | | | | |x ND GK PV]; subst. constructor; [exact ND|]. rewrite Forall_forall in *. intros kv I. apply (IH _ I), (PV _ I).
Qed.

(** writing and reading compared *)
Lemma write_same_text a b i : distinct a -> same_tree a b ->
  fst (JsonWrite a i) = fst (JsonWrite b i) /\ fst (JsonWriteCompact a) = fst (JsonWriteCompact b).
Proof.
  intros D HS. assert (D' := same_distinct D HS). assert (E := same_canon D HS).
  rewrite <- (Write_canon D i), <- (Write_canon D' i), <- (WriteCompact_canon D), <- (WriteCompact_canon D'), E. auto.
Qed.
