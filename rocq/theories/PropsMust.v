(** C51: Mustache templates. *)
From Verif Require Import Prelude PreludeFacts Str StrFacts Libc LibcFacts EditModel NumModel JsonModel JsonMapProofs MustModel MustSpec MustProofs MustTags MustEval MustRender MustRun MustMain MustCheck.
Set Implicit Arguments.
Local Open Scope char_scope.

(** Every well-formed template is rendered as [meaning] says, with the quirks of this
    implementation in the order and number of scopes; nothing is read outside the
    template. If something in it cannot be rendered the result is false, or the program
    is ended. *)
Theorem C51_rendering_is_exact real_text ns data out : template_ok ns -> json_sorted data = true -> ints_ok data = true ->
  match meaning real_text true ns data with
  | Some o => MustacheRender real_text out (print ns) data = Ok (true, out ++ o)
  | None => MustacheRender real_text out (print ns) data = Abort \/ exists o, MustacheRender real_text out (print ns) data = Ok (false, o)
  end.
Proof. intros TO DS DI. apply must_exact; [exact TO|split; assumption]. Qed.
Print Assumptions C51_rendering_is_exact.

(** * Without quirks *)
Section Q.
Variable real_text : list byte -> list byte.
Notation semq := (sem real_text true).
Notation semsq := (sems real_text true).
Notation semi := (sem real_text false).
Notation semsi := (sems real_text false).
(** the same names stand for the same things *)
Definition sim (a b : scopes) : Prop := (forall k, innermost a k = innermost b k) /\ last a None = last b None /\ a <> [] /\ b <> [].
Lemma sim_find a b nm : sim a b -> find_var a nm = find_var b nm.
Proof. intros [I [L _]]. unfold find_var. destruct (dotted nm) as [|k path]; [reflexivity|]. rewrite I, L. reflexivity. Qed.
Lemma last_cons_ne (x : option json) a : a <> [] -> last (x :: a) None = last a None.
Proof. destruct a; [congruence|reflexivity]. Qed.
Lemma sim_push a b v : sim a b -> sim (v :: a) (v :: b).
Proof.
  intros [I [L [NA NB]]]. split; [|split; [rewrite !last_cons_ne by assumption; exact L|split; discriminate]].
  intros k. destruct v as [j|]; cbn [innermost]; rewrite I; reflexivity.
Qed.
Lemma sim_array a b cs : sim a b -> sim (Some (JArr cs) :: a) b.
Proof. intros [I [L [NA NB]]]. split; [|split; [rewrite last_cons_ne by assumption; exact L|split; [discriminate|exact NB]]]. intros k. cbn [innermost member]. apply I. Qed.
Lemma var_sim k nm a b key : sim a b -> List.hd None a = List.hd None b -> var_out real_text k nm a key = var_out real_text k nm b key.
Proof. intros S H. unfold var_out. destruct nm; [reflexivity|]. unfold var_value. rewrite H, (sim_find _ S). reflexivity. Qed.
Lemma var_top k nm a b : sim a b -> nm <> ["."] -> var_out real_text k nm a None = var_out real_text k nm b None.
Proof.
  intros S H. unfold var_out. destruct nm as [|c nm]; [reflexivity|]. unfold var_value. rewrite (sim_find _ S). destruct (bytes_eqb (c :: nm) ["@"]); [reflexivity|].
  replace (bytes_eqb (c :: nm) ["."]) with false by (symmetry; apply bytes_eqb_neq; exact H). reflexivity.
Qed.

Definition all_parts (d : json) (sc : scopes) : Prop := (forall j, In (Some j) sc -> part j d) /\ last sc None = Some d.
Lemma part_trans a b c : part a b -> part b c -> part a c.
Proof. intros A B. induction B; [exact A|eapply part_arr; eauto|eapply part_obj; eauto]. Qed.
Lemma part_member j k v : member j k = Some v -> part v j.
Proof. destruct j as [p x|cs|kvs]; try discriminate. cbn. intros H. apply get_in_any in H as [k' H]. eapply part_obj; [exact H|constructor]. Qed.
Lemma part_element j k c : In (k, c) (elements j) -> part c j.
Proof.
  destruct j as [p x|cs|kvs]; cbn [elements]; intros H; [destruct H| |eapply part_obj; [exact H|constructor]].
  apply indexed_in in H. eapply part_arr; [exact H|constructor].
Qed.
Lemma follow_part path : forall j v, follow j path = Some v -> part v j.
Proof.
  induction path as [|k path IH]; cbn [follow]; intros j v H; [injection H as <-; constructor|].
  destruct (member j k) as [w|] eqn:E; [|discriminate]. eapply part_trans; [apply IH, H|]. eapply part_member, E.
Qed.
Lemma follow_last path : forall j v, path <> [] -> follow j path = Some v -> exists o, part o j /\ member o (last path []) = Some v.
Proof.
  induction path as [|k path IH]; intros j v NE H; [congruence|]. cbn [follow] in H. destruct (member j k) as [w|] eqn:E; [|discriminate].
  destruct path as [|k2 path].
  - injection H as <-. exists j. split; [constructor|exact E].
  - destruct (IH w v ltac:(discriminate) H) as [o [P M]]. exists o. split; [eapply part_trans; [exact P|eapply part_member, E]|exact M].
Qed.
Lemma innermost_last sc k v : innermost sc k = Some v -> exists o, In (Some o) sc /\ member o k = Some v.
Proof.
  induction sc as [|[j|] sc IH]; cbn [innermost]; [discriminate| |].
  - destruct (member j k) as [w|] eqn:E; [intros [= ->]; exists j; split; [left; reflexivity|exact E]|]. intros H. destruct (IH H) as [o [X M]]. exists o. split; [right; exact X|exact M].
  - intros H. destruct (IH H) as [o [X M]]. exists o. split; [right; exact X|exact M].
Qed.
Lemma find_could d sc nm v : all_parts d sc -> find_var sc nm = Some v -> could_be d nm v.
Proof.
  intros [AP LA] H. unfold find_var in H. unfold could_be. destruct (dotted nm) as [|k path] eqn:D; [discriminate|]. destruct (innermost sc k) as [w|] eqn:IN.
  - right. apply innermost_last in IN as [o [IO M]]. destruct path as [|k2 path].
    + injection H as <-. exists o, k. split; [apply AP, IO|]. split; [reflexivity|exact M].
    + destruct (@follow_last (k2 :: path) w v ltac:(discriminate) H) as [o2 [P2 M2]]. exists o2, (last (k2 :: path) []). split; [|split; [reflexivity|exact M2]].
      eapply part_trans; [exact P2|]. eapply part_trans; [eapply part_member, M|apply AP, IO].
  - destruct (bytes_eqb k (lit "-top-")) eqn:TOP; [|discriminate]. apply bytes_eqb_eq in TOP. subst k. rewrite LA in H. destruct path as [|k2 path].
    + left. injection H as <-. auto.
    + right. destruct (@follow_last (k2 :: path) d v ltac:(discriminate) H) as [o2 [P2 M2]]. exists o2, (last (k2 :: path) []). split; [exact P2|]. split; [reflexivity|exact M2].
Qed.
Lemma could_part d nm v : could_be d nm v -> part v d.
Proof. intros [[_ ->]|[o [k [P [_ M]]]]]; [constructor|]. eapply part_trans; [eapply part_member, M|exact P]. Qed.
Lemma parts_push d sc v : all_parts d sc -> (forall j, v = Some j -> part j d) -> all_parts d (v :: sc).
Proof.
  intros [A L] H. split; [intros j [X|X]; [apply H, X|apply A, X]|]. destruct sc; [discriminate|exact L].
Qed.
Lemma quiet_section d inv lay l body lay2 c : quiet d (Section inv lay l body lay2 c) <->
  (forall j, could_be d (lname l) j -> match j with JArr _ => False | JObj _ => iterates body = false | _ => True end) /\ Forall (quiet d) body.
Proof.
  cbn [quiet]. assert (E : forall ns, (fix all (ns : list node) : Prop := match ns with [] => True | n :: r => quiet d n /\ all r end) ns <-> Forall (quiet d) ns).
  { induction ns as [|n ns IH]; [split; auto|]. rewrite IH. split; [intros [A B]; constructor; auto|intros H; inversion H; auto]. }
  rewrite E. tauto.
Qed.

Fixpoint each_ideal (body : list node) (hidden : bool) (sc : scopes) (es : list (list byte * json)) : option (list byte) :=
  match es with
  | [] => Some []
  | (k, c) :: r =>
      match semsi body (Some c :: sc) (Some k) hidden with
      | None => None
      | Some (o, _) => match each_ideal body hidden sc r with None => None | Some o' => Some (o ++ o') end
      end
  end.
Lemma semi_section inv lay l body lay2 c sc key skip : semi (Section inv lay l body lay2 c) sc key skip =
  match section_plan false inv skip (find_var sc (lname l)) body with
  | Wrong => None
  | Once hidden => match semsi body (find_var sc (lname l) :: sc) None hidden with None => None | Some (o, _) => Some (o, sc) end
  | Each es hidden => match each_ideal body hidden (find_var sc (lname l) :: sc) es with None => None | Some o => Some (o, sc) end
  end.
Proof.
  cbn [sem]. destruct (section_plan false inv skip (find_var sc (lname l)) body) as [h|es h|]; try reflexivity.
  set (inside := fix sems (ns : list node) (sc0 : scopes) (key0 : option (list byte)) (skip0 : bool) {struct ns} : option (list byte * scopes) := _).
  assert (EI : forall ns sc key skip, inside ns sc key skip = semsi ns sc key skip) by (induction ns; reflexivity || (intros; reflexivity)).
  assert (G : forall es, match (fix each (es0 : list (list byte * json)) (sc0 : scopes) {struct es0} : option (list byte * scopes) :=
       match es0 with
       | [] => Some ([], sc0)
       | (k, c0) :: r => match inside body (Some c0 :: sc0) (Some k) h with
                         | Some (o, _) => match each r sc0 with Some (o', sc1) => Some (o ++ o', sc1) | None => None end
                         | None => None end
       end) es (find_var sc (lname l) :: sc) with Some (o, _) => Some (o, sc) | None => None end =
     match each_ideal body h (find_var sc (lname l) :: sc) es with Some o => Some (o, sc) | None => None end).
  { induction es0 as [|[k x] es0 IH]; [reflexivity|]. cbn [each_ideal]. rewrite EI. destruct (semsi body (Some x :: find_var sc (lname l) :: sc) (Some k) h) as [[o ?]|]; [|reflexivity].
    match goal with |- context [match ?e es0 (find_var sc (lname l) :: sc) with _ => _ end] => destruct (e es0 (find_var sc (lname l) :: sc)) as [[o' ?]|] end;
    destruct (each_ideal body h (find_var sc (lname l) :: sc) es0); try discriminate; [injection IH as ->; reflexivity|reflexivity]. }
  apply G.
Qed.
Lemma semsi_scopes ns : forall sc key skip o sc', semsi ns sc key skip = Some (o, sc') -> sc' = sc.
Proof.
  assert (N : forall n sc key skip o sc', semi n sc key skip = Some (o, sc') -> sc' = sc).
  { intros [s|k l|lay s|inv lay l body lay2 c] sc key skip o sc' H.
    - cbn in H. injection H as _ <-. reflexivity.
    - cbn in H. destruct skip; [injection H as _ <-; reflexivity|]. destruct (var_out real_text k (lname l) sc key); [injection H as _ <-; reflexivity|discriminate].
    - cbn in H. injection H as _ <-. reflexivity.
    - rewrite semi_section in H. destruct (section_plan false inv skip (find_var sc (lname l)) body) as [h|es h|]; [| |discriminate].
      + destruct (semsi body (find_var sc (lname l) :: sc) None h) as [[? ?]|]; [injection H as _ <-; reflexivity|discriminate].
      + destruct (each_ideal body h (find_var sc (lname l) :: sc) es); [injection H as _ <-; reflexivity|discriminate]. }
  induction ns as [|n ns IH]; intros sc key skip o sc' H; cbn [sems] in H; [injection H as _ <-; reflexivity|].
  destruct (semi n sc key skip) as [[o1 sc1]|] eqn:E; [|discriminate]. apply N in E. subst sc1. destruct (semsi ns sc key skip) as [[o2 sc2]|] eqn:E2; [|discriminate]. injection H as _ <-. eapply IH, E2.
Qed.
Definition outcome (x : option (list byte * scopes)) (sc : scopes) : option (list byte * scopes) := option_map (fun r => (fst r, sc)) x.
Definition in_claim (d : json) (n : node) : Prop := forall a b key skip, quiet d n -> sim a b -> List.hd None a = List.hd None b -> all_parts d b ->
  semq n a key skip = outcome (semi n b key skip) a.
Lemma in_list d ns : Forall (in_claim d) ns -> forall a b key skip, Forall (quiet d) ns -> sim a b -> List.hd None a = List.hd None b -> all_parts d b ->
  semsq ns a key skip = outcome (semsi ns b key skip) a.
Proof.
  induction 1 as [|n ns Hn Hns IH]; intros a b key skip Q S H AP; [reflexivity|]. inversion Q as [|? ? Q1 Q2]; subst. cbn [sems]. rewrite (Hn a b key skip Q1 S H AP).
  destruct (semi n b key skip) as [[o sc1]|] eqn:E; [|reflexivity]. cbn [outcome option_map fst].
  assert (sc1 = b). { pose proof (@semsi_scopes [n] b key skip o sc1) as X. cbn [sems] in X. rewrite E in X. apply X. rewrite app_nil_r. reflexivity. }
  subst sc1. rewrite (IH a b key skip Q2 S H AP). destruct (semsi ns b key skip) as [[o2 sc2]|]; reflexivity.
Qed.
Lemma in_node d n : in_claim d n.
Proof.
  induction n as [s|k l|lay s|inv lay l body lay2 c IH] using node_ind'; intros a b key skip Q S H AP.
  - reflexivity.
  - cbn [sem]. destruct skip; [reflexivity|]. rewrite (var_sim k (lname l) key S H). destruct (var_out real_text k (lname l) b key); reflexivity.
  - reflexivity.
  - apply quiet_section in Q as [QN QB]. rewrite (sem_section real_text), semi_section, (sim_find (lname l) S). pose proof (@find_could d b (lname l)) as FC.
    destruct (find_var b (lname l)) as [v|] eqn:FV.
    + specialize (FC v AP eq_refl). pose proof (QN v FC) as QV. pose proof (could_part FC) as PV.
      assert (ONE : forall h, match semsq body (Some v :: a) None h with Some (o, sc') => Some (o, tl sc') | None => None end =
         outcome (match semsi body (Some v :: b) None h with Some (o, _) => Some (o, b) | None => None end) a).
      { intros h. rewrite (@in_list d body IH (Some v :: a) (Some v :: b) None h QB (sim_push _ S) eq_refl (@parts_push d b (Some v) AP ltac:(intros j [= <-]; exact PV))).
        destruct (semsi body (Some v :: b) None h) as [[o sc']|]; reflexivity. }
      unfold section_plan. destruct v as [[] x|cs|kvs]; try reflexivity; try apply ONE; [destruct QV|]. rewrite QV. apply ONE.
    + unfold section_plan. rewrite (@in_list d body IH (None :: a) (None :: b) None (skip || negb inv) QB (sim_push _ S) eq_refl (@parts_push d b None AP ltac:(discriminate))).
      destruct (semsi body (None :: b) None (skip || negb inv)) as [[o sc']|]; reflexivity.
Qed.
Definition top_claim (d : json) (x y : option (list byte * scopes)) : Prop :=
  match y with Some (o, _) => exists a', x = Some (o, a') /\ sim a' [Some d] | None => x = None end.
Lemma top_each d body h es b : Forall (quiet d) body -> all_parts d b -> (forall k c, In (k, c) es -> part c d) -> forall a, sim a b ->
  match each_ideal body h b es with Some o => exists a', each_sem real_text body h es a = Some (o, a') /\ a' = a | None => each_sem real_text body h es a = None end.
Proof.
  intros QB AP PE. assert (IH : Forall (in_claim d) body) by (apply Forall_forall; intros; apply in_node).
  induction es as [|[k x] es IHes]; intros a S; cbn [each_ideal each_sem]; [exists a; auto|].
  assert (AP1 : all_parts d (Some x :: b)). { apply parts_push; [exact AP|]. intros j [= <-]. eapply PE. left. reflexivity. }
  rewrite (@in_list d body IH (Some x :: a) (Some x :: b) (Some k) h QB (sim_push _ S) eq_refl AP1).
  destruct (semsi body (Some x :: b) (Some k) h) as [[o sc']|]; [|reflexivity]. cbn [outcome option_map fst tl].
  specialize (IHes ltac:(intros k' c' X; eapply PE; right; exact X) a S). destruct (each_ideal body h b es) as [o'|]; [destruct IHes as [a' [-> ->]]; exists a; auto|rewrite IHes; reflexivity].
Qed.
Lemma top_node d n a : tidy d n -> sim a [Some d] -> top_claim d (semq n a None false) (semi n [Some d] None false).
Proof.
  assert (APD : all_parts d [Some d]) by (split; [intros j [[= <-]|[]]; constructor|reflexivity]).
  intros TD S. destruct n as [s|k l|lay s|inv lay l body lay2 c].
  - exists a. auto.
  - cbn [sem]. cbn [tidy] in TD. rewrite (@var_top k (lname l) a [Some d] S TD). destruct (var_out real_text k (lname l) [Some d] None); [exists a; auto|reflexivity].
  - exists a. auto.
  - destruct TD as [TN QB]. rewrite (sem_section real_text), semi_section, (sim_find (lname l) S).
    assert (IH : Forall (in_claim d) body) by (apply Forall_forall; intros; apply in_node).
    assert (ONE : forall v h, (forall j, v = Some j -> part j d) -> top_claim d (match semsq body (v :: a) None h with Some (o, sc') => Some (o, tl sc') | None => None end)
         (match semsi body (v :: [Some d]) None h with Some (o, _) => Some (o, [Some d]) | None => None end)).
    { intros v h PV. rewrite (@in_list d body IH (v :: a) (v :: [Some d]) None h QB (sim_push _ S) eq_refl (@parts_push d [Some d] v APD PV)).
      destruct (semsi body [v; Some d] None h) as [[o sc']|]; [exists a; auto|reflexivity]. }
    pose proof (@find_could d [Some d] (lname l)) as FC. destruct (find_var [Some d] (lname l)) as [v|] eqn:FV; [|apply ONE; discriminate].
    specialize (FC v APD eq_refl). pose proof (could_part FC) as PV. assert (PV' : forall j, Some v = Some j -> part j d) by (intros j [= <-]; exact PV).
    unfold section_plan. destruct v as [[] x|cs|kvs]; try reflexivity; try (apply ONE; exact PV').
    + destruct cs as [|c0 cs]; [cbn [elements indexed]; apply ONE; exact PV'|]. cbn [elements indexed]. fold (indexed 1 cs).
      change ((udec (N.of_nat 0), c0) :: indexed 1 cs) with (elements (JArr (c0 :: cs))).
      pose proof (@top_each d body (false || inv) (elements (JArr (c0 :: cs))) (Some (JArr (c0 :: cs)) :: [Some d]) QB (@parts_push d [Some d] _ APD PV')
         ltac:(intros k x X; eapply part_trans; [eapply part_element, X|exact PV]) (Some (JArr (c0 :: cs)) :: a) (sim_push _ S)) as H.
      destruct (each_ideal body (false || inv) (Some (JArr (c0 :: cs)) :: [Some d]) (elements (JArr (c0 :: cs)))) as [o|].
      * destruct H as [a' [-> ->]]. exists (Some (JArr (c0 :: cs)) :: a). split; [reflexivity|]. apply sim_array, S.
      * rewrite H. reflexivity.
    + rewrite TN. apply ONE. exact PV'.
Qed.
Lemma top_list d ns : Forall (tidy d) ns -> forall a, sim a [Some d] -> top_claim d (semsq ns a None false) (semsi ns [Some d] None false).
Proof.
  induction 1 as [|n ns Hn Hns IH]; intros a S; cbn [sems]; [exists a; auto|]. pose proof (@top_node d n a Hn S) as H. unfold top_claim in H.
  destruct (semi n [Some d] None false) as [[o sc1]|] eqn:E; [|rewrite H; reflexivity]. destruct H as [a' [-> S']].
  assert (sc1 = [Some d]). { pose proof (@semsi_scopes [n] [Some d] None false o sc1) as X. cbn [sems] in X. rewrite E in X. apply X. rewrite app_nil_r. reflexivity. }
  subst sc1. specialize (IH a' S'). unfold top_claim in *. destruct (semsi ns [Some d] None false) as [[o2 sc2]|]; [|rewrite IH; reflexivity]. destruct IH as [a2 [-> S2]]. exists a2. auto.
Qed.
End Q.

(** Templates whose sections inside sections do not go over elements are rendered as the
    ideal meaning says: every section is rendered in the scopes around it and its value,
    once per element of an array, and what follows it in the scopes before it. *)
Theorem C51_sections_restore_the_scope_partial real_text ns data out : template_ok ns -> json_sorted data = true -> ints_ok data = true -> Forall (tidy data) ns ->
  match meaning real_text false ns data with
  | Some o => MustacheRender real_text out (print ns) data = Ok (true, out ++ o)
  | None => MustacheRender real_text out (print ns) data = Abort \/ exists o, MustacheRender real_text out (print ns) data = Ok (false, o)
  end.
Proof.
  intros TO DS DI TD. pose proof (@C51_rendering_is_exact real_text ns data out TO DS DI) as H. 
  pose proof (@top_list real_text data ns TD [Some data]) as E. specialize (E ltac:(split; [reflexivity|split; [reflexivity|split; discriminate]])).
  unfold meaning in *. unfold top_claim in E. destruct (sems real_text false ns [Some data] None false) as [[o sc]|]; [destruct E as [a' [E _]]; rewrite E in H; exact H|rewrite E in H; exact H].
Qed.
Print Assumptions C51_sections_restore_the_scope_partial.

(** * Particular templates *)
(** a label without blanks *)
Definition lab (nm : list byte) : label := mkLabel [] nm [].
(** text without tags is copied *)
Theorem C51_text_is_copied real_text s data out : is_cstr s -> (forall a b, s <> a ++ lit "{{" ++ b) -> json_sorted data = true -> ints_ok data = true ->
  MustacheRender real_text out s data = Ok (true, out ++ s).
Proof.
  intros C N DS DI. assert (EP : print [Text s] = s) by (unfold print; cbn; unfold shows; cbn; apply app_nil_r).
  assert (TO : template_ok [Text s]).
  { split; [rewrite EP; exact C|]. split; [constructor; [exact Logic.I|constructor]|]. cbn [flats flat app]. intros ps1 p ps2 E. destruct ps1 as [|x ps1]; [|destruct ps1; discriminate]. injection E as <- <-.
    cbn [piece_ok]. change (shows []) with (@nil byte). intros i L. rewrite app_nil_r. destruct (prefixb (lit "{{") (skipn i s)) eqn:E; [|reflexivity]. apply prefixb_spec in E as [r E]. destruct (N (firstn i s) r). rewrite <- E, firstn_skipn. reflexivity. }
  pose proof (@C51_rendering_is_exact real_text _ data out TO DS DI) as H. rewrite EP in H. cbn in H. rewrite app_nil_r in H. exact H.
Qed.
Print Assumptions C51_text_is_copied.
Example C51_text_example : MustacheRender (fun s => s) [] (lit "a { b }} c") (JObj []) = Ok (true, lit "a { b }} c").
Proof.
  apply (@C51_text_is_copied (fun s => s) (lit "a { b }} c") (JObj []) []); try reflexivity.
  - apply cstrb_ok. reflexivity.
  - intros a b E. assert (F : free_of (lit "{{") (lit "a { b }} c") []) by (apply free_ofb_ok; reflexivity).
    assert (L : length a < length (lit "a { b }} c")). { rewrite E, !app_length. cbn. lia. }
    specialize (F (length a) L). rewrite app_nil_r, E, skipn_pre, prefixb_self in F. discriminate.
Qed.

(** names that can be used without dots, blanks and braces *)
Definition simple_name (nm : list byte) : Prop :=
  nm <> [] /\ nm <> ["@"] /\ forall c, In c nm -> c <> NUL /\ c <> "." /\ ~ blank c /\ c <> "{" /\ c <> "}" /\ ~ is_sigil c.
Lemma simple_label nm : simple_name nm -> label_ok (lab nm) /\ has_component nm /\ closed nm /\ ~ In "}" nm /\ (forall c r, nm = c :: r -> ~ is_sigil c) /\ is_cstr nm.
Proof.
  intros [NE [_ H]]. split; [|split; [|split; [|split; [|split]]]].
  - split; [constructor|]. split; [constructor|]. intros a c b E _. apply H. cbn in E. rewrite E. apply in_or_app. right. left. reflexivity.
  - destruct nm as [|c nm]; [congruence|]. exists c. split; [left; reflexivity|]. apply H. left. reflexivity.
  - eapply free_char; [reflexivity|]. intros X. apply H in X. tauto.
  - intros X. apply H in X. tauto.
  - intros c r ->. apply H. left. reflexivity.
  - intros X. apply H in X. tauto.
Qed.
Lemma dotted_simple nm : simple_name nm -> dotted nm = [nm].
Proof.
  intros [NE [_ H]]. unfold dotted. assert (G : forall s cur, (forall c, In c s -> c <> ".") -> cur ++ s <> [] -> dotted_from cur s = [cur ++ s]).
  { induction s as [|c s IH]; intros cur D N; cbn [dotted_from].
    - rewrite app_nil_r in *. destruct cur; [congruence|reflexivity].
    - replace (beq c ".") with false by (symmetry; apply beq_false; apply D; left; reflexivity). rewrite IH; [rewrite <- app_assoc; reflexivity|intros x X; apply D; right; exact X|]. rewrite <- app_assoc. destruct cur; discriminate. }
  apply (G nm []); [|exact NE]. intros c X. apply H in X. tauto.
Qed.
(** {{x}} is escaped, {{{x}}} and {{&x}} are not; [kvs] are the members of the data *)
Theorem C51_strings_are_escaped real_text nm v kvs out : simple_name nm -> json_sorted (JObj kvs) = true -> ints_ok (JObj kvs) = true ->
  JsonObjectGet kvs nm = Some (JPrim PString v) ->
  MustacheRender real_text out (lit "{{" ++ nm ++ lit "}}") (JObj kvs) = Ok (true, out ++ html v) /\
  MustacheRender real_text out (lit "{{{" ++ nm ++ lit "}}}") (JObj kvs) = Ok (true, out ++ v) /\
  MustacheRender real_text out (lit "{{&" ++ nm ++ lit "}}") (JObj kvs) = Ok (true, out ++ v).
Proof.
  intros SN DS DI G. destruct (simple_label SN) as [LO [HC [CL [NB [NS C]]]]].
  assert (TO : forall k, template_ok [Var k (lab nm)]).
  { intros k. split; [|split].
    - unfold print. cbn [flats flat app]. unfold shows. cbn [map show concat]. rewrite app_nil_r. unfold braces. apply is_cstr_app. split; [apply cstrb_ok; reflexivity|]. apply is_cstr_app. split; [|apply cstrb_ok; reflexivity].
      destruct k; cbn [var_text]; unfold inner; cbn [lab pad_l pad_r lname app]; rewrite ?app_nil_r; repeat (apply is_cstr_cons; split; [discriminate|]); try exact C. apply is_cstr_app. split; [exact C|apply cstrb_ok; reflexivity].
    - constructor; [|constructor]. cbn [node_ok]. unfold inner. cbn [lab pad_l pad_r lname app]. rewrite app_nil_r. split; [exact LO|]. split; [right; right; exact HC|]. destruct k; auto.
    - cbn [flats flat app]. intros ps1 p ps2 E. destruct ps1 as [|x ps1]; [|destruct ps1; discriminate]. injection E as <- <-. exact Logic.I. }
  assert (FV : find_var [Some (JObj kvs)] nm = Some (JPrim PString v)).
  { unfold find_var. rewrite (dotted_simple SN). cbn [innermost member]. rewrite G. reflexivity. }
  assert (ME : forall k, meaning real_text true [Var k (lab nm)] (JObj kvs) = Some (match k with Escaped => html v | _ => v end)).
  { intros k. unfold meaning. cbn [sems sem lab lname]. destruct SN as [NE [NA SN]]. unfold var_out. destruct nm as [|c r]; [congruence|]. set (nm := c :: r) in *. unfold var_value.
    replace (bytes_eqb nm ["@"]) with false by (symmetry; apply bytes_eqb_neq; exact NA). replace (bytes_eqb nm ["."]) with false by (symmetry; apply bytes_eqb_neq; unfold nm; intros [= -> _]; destruct (SN "." (or_introl eq_refl)); tauto).
    cbn [orb]. rewrite FV. cbn [prim_text]. destruct k; rewrite app_nil_r; reflexivity. }
  assert (PR : forall k, print [Var k (lab nm)] = braces (var_text k (lab nm))) by (intros k; unfold print, shows; cbn [flats flat app map show concat]; apply app_nil_r).
  pose proof (fun k => @C51_rendering_is_exact real_text _ (JObj kvs) out (TO k) DS DI) as H.
  assert (H' : forall k, MustacheRender real_text out (braces (var_text k (lab nm))) (JObj kvs) = Ok (true, out ++ match k with Escaped => html v | _ => v end)).
  { intros k. specialize (H k). rewrite ME, PR in H. exact H. }
  split; [|split].
  - specialize (H' Escaped). unfold braces in H'. cbn [var_text] in H'. unfold inner in H'. cbn [lab pad_l pad_r lname app] in H'. rewrite app_nil_r in H'. exact H'.
  - specialize (H' Raw). unfold braces in H'. cbn [var_text] in H'. unfold inner in H'. cbn [lab pad_l pad_r lname app] in H'. rewrite app_nil_r in H'. cbn [app] in H'. rewrite <- app_assoc in H'. exact H'.
  - specialize (H' RawAmp). unfold braces in H'. cbn [var_text] in H'. unfold inner in H'. cbn [lab pad_l pad_r lname app] in H'. rewrite app_nil_r in H'. exact H'.
Qed.
Print Assumptions C51_strings_are_escaped.
Example C51_escaped_example : MustacheRender (fun s => s) [] (lit "{{x}}") (JObj [(lit "x", JPrim PString (lit "<a>"))]) = Ok (true, lit "&lt;a&gt;").
Proof.
  refine (proj1 (@C51_strings_are_escaped (fun s => s) (lit "x") (lit "<a>") [(lit "x", JPrim PString (lit "<a>"))] [] _ eq_refl eq_refl eq_refl)).
  split; [discriminate|]. split; [discriminate|]. intros c [<-|[]]. repeat split; try discriminate; intros X; cbn in X; unfold blank in X; cbn in X; intuition discriminate.
Qed.

(** escaped text has no angle brackets and no quotes, and says what the text was *)
Theorem C51_escaping_is_safe s : ~ In "<" (html s) /\ ~ In ">" (html s) /\ ~ In """" (html s) /\ forall s', html s' = html s -> s' = s.
Proof.
  assert (G : forall c, In c ["<"; ">"; """"] -> ~ In c (html s)).
  { intros c I X. unfold html in X. apply in_concat in X as [x [X1 X2]]. apply in_map_iff in X1 as [y [<- _]]. unfold html_char in X2.
    destruct (beq y "&") eqn:E1; [cbn in *; intuition (subst; discriminate)|]. destruct (beq y """") eqn:E2; [cbn in *; intuition (subst; discriminate)|].
    destruct (beq y "<") eqn:E3; [cbn in *; intuition (subst; discriminate)|]. destruct (beq y ">") eqn:E4; [cbn in *; intuition (subst; discriminate)|].
    destruct X2 as [<-|[]]. destruct I as [<-|[<-|[<-|[]]]]; discriminate. }
  split; [apply G; cbn; tauto|]. split; [apply G; cbn; tauto|]. split; [apply G; cbn; tauto|].
  clear G. assert (PF : forall c d r r', html_char c ++ r = html_char d ++ r' -> c = d /\ r = r').
  { intros c d r r' H. unfold html_char in H.
    destruct (beq c "&") eqn:C1; [apply beq_true in C1; subst c|destruct (beq c """") eqn:C2; [apply beq_true in C2; subst c|destruct (beq c "<") eqn:C3; [apply beq_true in C3; subst c|destruct (beq c ">") eqn:C4; [apply beq_true in C4; subst c|]]]];
    (destruct (beq d "&") eqn:D1; [apply beq_true in D1; subst d|destruct (beq d """") eqn:D2; [apply beq_true in D2; subst d|destruct (beq d "<") eqn:D3; [apply beq_true in D3; subst d|destruct (beq d ">") eqn:D4; [apply beq_true in D4; subst d|]]]]);
    cbn [lit String.list_ascii_of_string app] in H; try discriminate; try (injection H as H; subst; auto; discriminate).
    all: injection H as -> ->; auto. }
  induction s as [|c s IH]; intros [|d s'] H.
  - reflexivity.
  - exfalso. change (html (d :: s')) with (html_char d ++ html s') in H. unfold html_char in H. cbn in H. destruct (beq d "&"), (beq d """"), (beq d "<"), (beq d ">"); discriminate.
  - exfalso. change (html (c :: s)) with (html_char c ++ html s) in H. unfold html_char in H. cbn in H. destruct (beq c "&"), (beq c """"), (beq c "<"), (beq c ">"); discriminate.
  - change (html (d :: s')) with (html_char d ++ html s') in H. change (html (c :: s)) with (html_char c ++ html s) in H. apply PF in H as [-> H]. f_equal. apply IH, H.
Qed.
Print Assumptions C51_escaping_is_safe.

(** * Examples *)
Definition str (s : list byte) : json := JPrim PString s.
Definition nl : list byte := [B_n].
(** a list of people with a header, a nested section, a comment and blanks *)
Definition ex_template : list node :=
  [Comment (OwnLine [" "] [] true) (lit " people "); Text (lit "Hello "); Var Escaped (mkLabel [" "] (lit "title") []); Text (lit ":" ++ nl);
   Section false (OwnLine [] [" "] true) (lab (lit "people"))
     [Text (lit "- "); Var Raw (lab (lit "name")); Section true Inline (lab (lit "old")) [Text (lit " (young)")] Inline (lit "old"); Text (lit " #"); Var Escaped (lab (lit "@")); Text nl]
     (OwnLine [] [] true) (lit "people");
   Text (lit "bye")].
Definition ex_data : json :=
  JObj [(lit "people", JArr [JObj [(lit "name", str (lit "A&B"))]; JObj [(lit "name", str (lit "C")); (lit "old", JPrim PBool (lit "true"))]]); (lit "title", str (lit "<x>"))].
Lemma ex_ok : template_ok ex_template.
Proof. apply template_okb_ok. vm_compute. reflexivity. Qed.
Lemma ex_tidy : Forall (tidy ex_data) ex_template.
Proof.
  assert (Q : Forall (quiet ex_data) [Text (lit "- "); Var Raw (lab (lit "name")); Section true Inline (lab (lit "old")) [Text (lit " (young)")] Inline (lit "old"); Text (lit " #"); Var Escaped (lab (lit "@")); Text nl]).
  2: { apply Forall_forall. intros n X. cbn [ex_template In] in X. destruct X as [<-|[<-|[<-|[<-|[<-|[<-|[]]]]]]]; try exact Logic.I; [discriminate|]. cbn [tidy]. split; [exact Logic.I|exact Q]. }
  apply Forall_forall. intros n X. cbn [In] in X. destruct X as [<-|[<-|[<-|[<-|[<-|[<-|[]]]]]]]; try exact Logic.I. apply (proj2 (@quiet_section (fun s => s) ex_data _ _ _ _ _ _)). split; [|constructor; [exact Logic.I|constructor]].
  intros j [[X _]|[obj [k [P [<- M]]]]]; [vm_compute in X; discriminate|]. change (last (dotted (lname (lab (lit "old")))) []) with (lit "old") in M.
  inversion P as [|? ? ? |kvs kk cc I1 P1]; subst; [vm_compute in M; discriminate|].
  destruct I1 as [X|[X|[]]]; injection X as <- <-; [|inversion P1; subst; discriminate].
  inversion P1 as [|cs c I2 P2|]; subst; [discriminate|]. destruct I2 as [<-|[<-|[]]].
  - inversion P2 as [| |kvs kk cc I3 P3]; subst; [vm_compute in M; discriminate|]. destruct I3 as [X|[]]; injection X as <- <-. inversion P3; subst; discriminate.
  - inversion P2 as [| |kvs kk cc I3 P3]; subst; [vm_compute in M; injection M as <-; exact Logic.I|]. destruct I3 as [X|[X|[]]]; injection X as <- <-; inversion P3; subst; discriminate.
Qed.
Example C51_example : MustacheRender (fun s => s) [] (print ex_template) ex_data =
  Ok (true, lit "Hello &lt;x&gt;:" ++ nl ++ lit "- A&B (young) #0" ++ nl ++ lit "- C #1" ++ nl ++ lit "bye").
Proof. exact (@C51_sections_restore_the_scope_partial (fun s => s) ex_template ex_data [] ex_ok eq_refl eq_refl ex_tidy). Qed.

(** * What does not hold *)
(** a section that goes over elements inside another section: the outer element stays in
    scope, so the second person without a name has the name of the first *)
Definition leak_template : list node :=
  [Section false Inline (lab (lit "people"))
     [Var Escaped (lab (lit "name")); Section false Inline (lab (lit "langs")) [Text (lit "+")] Inline (lit "langs"); Text (lit ";")] Inline (lit "people")].
Definition leak_data : json :=
  JObj [(lit "people", JArr [JObj [(lit "langs", JArr [JPrim PNull (lit "null")]); (lit "name", str (lit "Ann"))]; JObj []])].
Theorem C51_sections_restore_the_scope_refuted : exists ns data o, template_ok ns /\ json_sorted data = true /\ ints_ok data = true /\
  MustacheRender (fun s => s) [] (print ns) data = Ok (true, o) /\ exists o', meaning (fun s => s) false ns data = Some o' /\ o <> o'.
Proof.
  exists leak_template, leak_data, (lit "Ann+;Ann+;"). split; [apply template_okb_ok; vm_compute; reflexivity|]. split; [reflexivity|]. split; [reflexivity|]. split; [vm_compute; reflexivity|].
  exists (lit "Ann+;;"). split; [vm_compute; reflexivity|discriminate].
Qed.
(** an inverted section over an empty array is shown inside a section that is not *)
Theorem C51_hidden_sections_stay_hidden_refuted : exists ns data o, template_ok ns /\ json_sorted data = true /\ ints_ok data = true /\
  MustacheRender (fun s => s) [] (print ns) data = Ok (true, o) /\ o <> [] /\ meaning (fun s => s) false ns data = Some [].
Proof.
  exists [Section false Inline (lab (lit "off")) [Section true Inline (lab (lit "list")) [Text (lit "shown")] Inline []] Inline []], (JObj [(lit "list", JArr []); (lit "off", JPrim PBool (lit "false"))]), (lit "shown").
  split; [apply template_okb_ok; vm_compute; reflexivity|]. split; [reflexivity|]. split; [reflexivity|]. split; [vm_compute; reflexivity|]. split; [discriminate|vm_compute; reflexivity].
Qed.
(** the name in a closing tag does not matter *)
Theorem C51_closing_names_match_refuted : exists t data, t = lit "{{#a}}x{{/b}}" /\ MustacheRender (fun s => s) [] t data = Ok (true, lit "x").
Proof. exists (lit "{{#a}}x{{/b}}"), (JObj [(lit "a", JPrim PBool (lit "true"))]). split; [reflexivity|vm_compute; reflexivity]. Qed.
(** a delimiter of ten characters is accepted and its terminator is outside the array *)
Theorem C51_any_template_is_safe_refuted : exists t data, is_cstr t /\ json_sorted data = true /\ ints_ok data = true /\ MustacheRender (fun s => s) [] t data = UB.
Proof. exists (lit "{{=0123456789 ]]=}}"), (JObj []). split; [apply cstrb_ok; reflexivity|]. split; [reflexivity|]. split; [reflexivity|vm_compute; reflexivity]. Qed.
(** a section whose name is only dots copies a string from NULL *)
Theorem C51_dots_are_a_name_refuted : exists t data, t = lit "{{#.}}x{{/.}}" /\ json_sorted data = true /\ ints_ok data = true /\ MustacheRender (fun s => s) [] t data = UB.
Proof. exists (lit "{{#.}}x{{/.}}"), (JObj []). split; [reflexivity|]. split; [reflexivity|]. split; [reflexivity|vm_compute; reflexivity]. Qed.
(** printing a container with {{x}} ends the program *)
Theorem C51_rendering_returns_refuted : exists ns data, template_ok ns /\ json_sorted data = true /\ ints_ok data = true /\ MustacheRender (fun s => s) [] (print ns) data = Abort.
Proof. exists [Var Escaped (lab (lit "a"))], (JObj [(lit "a", JObj [])]). split; [apply template_okb_ok; vm_compute; reflexivity|]. split; [reflexivity|]. split; [reflexivity|vm_compute; reflexivity]. Qed.
Print Assumptions C51_sections_restore_the_scope_refuted.
Print Assumptions C51_any_template_is_safe_refuted.
