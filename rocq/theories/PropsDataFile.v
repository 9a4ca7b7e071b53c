(** C126: reading JSON, YAML, CSV and ENV files. *)
From Verif Require Import Prelude PreludeFacts Str StrFacts MemSpec Libc LibcFacts CompatModel IoModel IoProofs PropsIo WriterModel JsonModel JsonSpec JsonProofs JsonWriteProofs PropsJson PropsJsonMap YamlModel YamlSpec PropsYaml
  CsvModel CsvSpec PropsCsv EnvModel EnvSpec PropsEnv DataFileModel.
Set Implicit Arguments.

Lemma cstr_app a b : is_cstr (a ++ b) <-> is_cstr a /\ is_cstr b.
Proof. unfold is_cstr. rewrite in_app_iff. tauto. Qed.
Lemma cstr_cons c b : is_cstr (c :: b) <-> c <> NUL /\ is_cstr b.
Proof. unfold is_cstr. cbn. intuition congruence. Qed.
Lemma blank_cstr w : blank w -> is_cstr w.
Proof. intros B I. unfold blank in B. rewrite Forall_forall in B. apply B in I. cbn in I. unfold NUL in I. intuition discriminate. Qed.
Lemma digits_c t : Forall digit t -> is_cstr t.
Proof. intros B I. rewrite Forall_forall in B. apply B in I. cbn in I. unfold NUL in I. intuition discriminate. Qed.
Lemma digit_c c : digit c -> c <> NUL.
Proof. intros D ->. cbn in D. unfold NUL in D. intuition discriminate. Qed.
Lemma number_cstr b t : number b t -> is_cstr t.
Proof.
  intros [sg i b1 f e S I F E]. rewrite !cstr_app. split; [|split; [|split]].
  - cbn in S. destruct S as [<-|[<-|[]]]; unfold is_cstr, NUL; cbn; intuition discriminate.
  - destruct I as [|c t0 D T]; [unfold is_cstr, NUL; cbn; intuition discriminate|]. apply cstr_cons. split; [intros ->; cbn in D; unfold NUL in D; intuition discriminate|now apply digits_c].
  - destruct F as [|c t0 D T]; [intros []|]. apply cstr_cons. split; [discriminate|]. apply cstr_cons. split; [now apply digit_c|now apply digits_c].
  - destruct E as [|e sg1 c t0 E S1 D T]; [intros []|]. apply cstr_cons. split; [cbn in E; destruct E as [<-|[<-|[]]]; discriminate|].
    apply cstr_app. split; [cbn in S1; destruct S1 as [<-|[<-|[<-|[]]]]; unfold is_cstr, NUL; cbn; intuition discriminate|]. apply cstr_cons. split; [now apply digit_c|now apply digits_c].
Qed.
Lemma string_cstr s t : spells_string s t -> is_cstr t.
Proof.
  intros [u C]. apply cstr_cons. split; [discriminate|]. apply cstr_app. split; [|unfold is_cstr, NUL; cbn; intuition discriminate].
  induction C as [|c s v w SC C IH]; [intros []|]. apply cstr_app. split; [|exact IH]. destruct SC; unfold is_cstr, NUL in *; cbn; intuition discriminate.
Qed.
Lemma spells_cstr : forall j t, spells j t -> is_cstr t
with elements_cstr : forall js t, elements js t -> is_cstr t
with members_cstr : forall ms t, members ms t -> is_cstr t.
Proof.
  - intros j t [s u S Q|u N|u N| | | |w B|cs u E|w B|ms u M].
    + now apply string_cstr with s.
    + now apply number_cstr with false.
    + now apply number_cstr with true.
    + unfold is_cstr, NUL; cbn; intuition discriminate.
    + unfold is_cstr, NUL; cbn; intuition discriminate.
    + unfold is_cstr, NUL; cbn; intuition discriminate.
    + rewrite cstr_cons, cstr_app. repeat split; [discriminate|now apply blank_cstr|unfold is_cstr, NUL; cbn; intuition discriminate].
    + rewrite cstr_cons, cstr_app. repeat split; [discriminate|now apply elements_cstr with cs|unfold is_cstr, NUL; cbn; intuition discriminate].
    + rewrite cstr_cons, cstr_app. repeat split; [discriminate|now apply blank_cstr|unfold is_cstr, NUL; cbn; intuition discriminate].
    + rewrite cstr_cons, cstr_app. repeat split; [discriminate|now apply members_cstr with ms|unfold is_cstr, NUL; cbn; intuition discriminate].
  - intros js t [w1 w2 j u B1 B2 S|w1 w2 j u js' v B1 B2 S E]; rewrite ?cstr_app, ?cstr_cons; apply spells_cstr in S; apply blank_cstr in B1, B2.
    + tauto.
    + apply elements_cstr in E. intuition discriminate.
  - intros ms t [w1 w2 w3 w4 k kt j u B1 B2 B3 B4 K S|w1 w2 w3 w4 k kt j u ms' v B1 B2 B3 B4 K S M];
      repeat (rewrite ?cstr_app, ?cstr_cons); apply spells_cstr in S; apply string_cstr in K; apply blank_cstr in B1, B2, B3, B4.
    + intuition discriminate.
    + apply members_cstr in M. intuition discriminate.
Qed.

Section Data.
  Variable fmt4 : list byte -> list byte.
  Variable libyaml : list byte -> option (list event).
  Variable mem : nat -> bool.
  Variable smax : N.
  Variable built : bool.
  Notation AnyFile := (JsonParseAnyFile fmt4 libyaml built).
  Notation ReadData := (JsonReadDataFile fmt4 libyaml mem smax built).

  (** what the text of a file is parsed to *)
  Definition parse (yaml : bool) (text : list byte) : res fparsed :=
    if yaml then match libyaml text with None => Ok (FErr (if built then E_LIBYAML_FAILURE else E_NO_LIBYAML)) | Some evs => let* j := JsonParseYamlString fmt4 evs in Ok (FOk j) end
    else let* p := JsonParse text in Ok (match p with POk j _ => FOk j | PErr e => FErr (E_parser e) end).

  Lemma pred_S_held h : mkHeld (pred (S (fds h))) (writers h) = h.
  Proof. now destruct h. Qed.
  (** A file that is read to its end without an error, in however many pieces: the error for too much text if it is longer than the limit
      and otherwise what the parser makes of the whole text.  Descriptors and memory are given back (but see below). *)
  Theorem C126_whole_file src rs max yaml h : is_cstr src -> ~ In Fail rs -> length src < progress rs ->
    AnyFile (Some (mkIn src rs)) max yaml h =
      if max <? length src then Ok (FErr E_TRUNCATED, mkHeld (fds h) (S (writers h)))
      else let* r := parse yaml src in Ok (r, h).
  Proof.
    intros C NF P. unfold JsonParseAnyFile, FileRead. pose proof (@C62_FileRead src rs max C) as R.
    destruct (FileReadFromFd (mkIn src rs) max) as [[[w|] t]| | |]; try tauto; [|lia].
    destruct R as [d [D [_ [HD T]]]]. cbn [bind pred fds writers]. destruct t.
    - replace (max <? length src) with true by (symmetry; apply Nat.ltb_lt; tauto). reflexivity.
    - assert (L : length src <= max) by (destruct (Nat.le_gt_cases (length src) max) as [|G]; [assumption|apply T in G; discriminate]).
      replace (max <? length src) with false by (symmetry; apply Nat.ltb_ge; lia). rewrite firstn_all2 in HD by lia.
      rewrite D. cbn [bind]. rewrite (proj2 (mstr_holds _ _) HD). cbn [bind pred]. unfold parse. destruct h as [a b]. cbn [fds writers pred].
      destruct yaml.
      + destruct (libyaml src) as [evs|]; [|reflexivity]. destruct (JsonParseYamlString fmt4 evs); reflexivity.
      + destruct (JsonParse src) as [[j c|e]| | |]; reflexivity.
  Qed.
  (** NO_SUCH_FILE stands for a file that cannot be opened or read, TRUNCATED for one longer than the limit; nothing stays open *)
  Theorem C126_outcomes f max yaml h r h' : (forall src rs, f = Some (mkIn src rs) -> is_cstr src) -> AnyFile f max yaml h = Ok (r, h') ->
    fds h' = fds h /\ (r <> FErr E_TRUNCATED -> h' = h) /\
    match f with
    | None => r = FErr E_NO_SUCH_FILE
    | Some (mkIn src rs) => (r = FErr E_NO_SUCH_FILE /\ In Fail rs) \/ (r = FErr E_TRUNCATED /\ max < length src) \/ (length src <= max /\ parse yaml src = Ok r)
    end.
  Proof.
    intros C E. unfold JsonParseAnyFile, FileRead in E. destruct f as [[src rs]|].
    2:{ cbn in E. injection E as <- <-. auto. }
    pose proof (@C62_FileRead src rs max (C _ _ eq_refl)) as R.
    destruct (FileReadFromFd (mkIn src rs) max) as [[[w|] t]| | |]; try discriminate; cbn [bind pred fds writers] in E.
    2:{ injection E as <- <-. destruct h; auto. }
    destruct R as [d [D [_ [HD T]]]]. destruct t.
    { injection E as <- <-. split; [reflexivity|]. split; [congruence|]. right. left. split; [reflexivity|tauto]. }
    assert (L : length src <= max) by (destruct (Nat.le_gt_cases (length src) max) as [|G]; [assumption|apply T in G; discriminate]).
    rewrite firstn_all2 in HD by lia. rewrite D in E. cbn [bind] in E. rewrite (proj2 (mstr_holds _ _) HD) in E. cbn [bind] in E.
    assert (X : exists p, parse yaml src = Ok p /\ r = p /\ h' = h).
    { unfold parse. destruct h as [a b]. cbn [fds writers pred] in E. destruct yaml.
      - destruct (libyaml src) as [evs|]; [|cbn in E; injection E as <- <-; eauto].
        destruct (JsonParseYamlString fmt4 evs); try discriminate. cbn in E. injection E as <- <-. cbn. eauto.
      - destruct (JsonParse src) as [p| | |]; try discriminate. cbn in E. injection E as <- <-. cbn. eauto. }
    destruct X as [p [X1 [-> ->]]]. split; [reflexivity|]. split; [reflexivity|]. right. right. auto.
  Qed.
  (** the text read of a file that is too long is never freed *)
  Theorem C126_leak_refuted : forall h, AnyFile (Some (mkIn (lit "[1, 2]") [Done 9; Done 9])) 3 false h = Ok (FErr E_TRUNCATED, mkHeld (fds h) (S (writers h))).
  Proof. intros h. vm_compute. reflexivity. Qed.

  (** JsonReadDataFile gives the tree of the file if it is an array or an object, and NULL otherwise *)
  Definition container (j : json) : Prop := match j with JPrim _ _ => False | _ => True end.
  Theorem C126_json_data j t w rest rs path mode max h : spells j t -> container j -> blank w -> delimited rest -> is_cstr rest ->
    mode = TJson \/ mode = TUnknown -> as_fd path = Some (mkIn (w ++ t ++ rest) rs) -> ~ In Fail rs -> length (w ++ t ++ rest) < progress rs -> length (w ++ t ++ rest) <= max ->
    ReadData path mode max h = Ok (Some j, h).
  Proof.
    intros S CO B D CR M F NF P L. assert (C : is_cstr (w ++ t ++ rest)). { rewrite !cstr_app. split; [now apply blank_cstr|]. split; [now apply spells_cstr with j|exact CR]. }
    assert (E : AnyFile (as_fd path) max false h = Ok (FOk j, h)).
    { rewrite F, (@C126_whole_file _ _ max false h C NF P). replace (max <? length _) with false by (symmetry; apply Nat.ltb_ge; exact L).
      unfold parse. rewrite (C46_parse S B D). reflexivity. }
    unfold JsonReadDataFile. destruct M as [-> | ->]; rewrite E; cbn [bind]; (destruct j; [destruct CO|reflexivity|reflexivity]).
  Qed.
  (** so what JsonWrite puts into a file comes back, up to the order of members *)
  Theorem C126_round_trip j indent rs path max h : portable j -> container j -> let text := fst (JsonWrite j indent) in
    as_fd path = Some (mkIn text rs) -> ~ In Fail rs -> length text < progress rs -> length text <= max ->
    exists j', ReadData path TJson max h = Ok (Some j', h) /\ same_tree j j'.
  Proof.
    intros PO CO text F NF P L. destruct (Write_spells PO indent) as (w & u & E & B & _ & _ & S). fold text in E.
    assert (ST : same_tree j (canon j)).
    { destruct (C46_pretty_round_trip_partial indent PO) as (c & E' & ST). fold text in E'. rewrite E in E'.
      pose proof (C46_parse (rest := []) S B (or_introl eq_refl)) as Q. rewrite app_nil_r in Q. rewrite Q in E'. injection E' as Q1 _. rewrite Q1. exact ST. }
    exists (canon j). split; [|exact ST]. rewrite E in F, P, L. rewrite <- (app_nil_r u) in F, P, L.
    apply (@C126_json_data (canon j) u w [] rs path TJson max h); auto; [inversion ST; subst; [destruct CO|exact Logic.I|exact Logic.I]|now left|intros []].
  Qed.
  (** a file with something else gives NULL *)
  Theorem C126_not_data src rs path mode max h : is_cstr src -> mode = TJson \/ mode = TUnknown -> as_fd path = Some (mkIn src rs) -> ~ In Fail rs -> length src < progress rs ->
    (max < length src \/ (exists e, JsonParse src = Ok (PErr e)) \/ (exists t v d, JsonParse src = Ok (POk (JPrim t v) d))) ->
    exists h', ReadData path mode max h = Ok (None, h').
  Proof.
    intros C M F NF P X. unfold JsonReadDataFile. assert (E : exists r h', AnyFile (as_fd path) max false h = Ok (r, h') /\ (forall j, r = FOk j -> ~ container j)).
    { rewrite F, (@C126_whole_file _ _ max false h C NF P). destruct (Nat.ltb_spec max (length src)).
      - eexists _, _. split; [reflexivity|discriminate].
      - destruct X as [X|[[e X]|(t & v & d & X)]]; [lia| |]; unfold parse; rewrite X; cbn [bind]; (eexists _, _; split; [reflexivity|]); [discriminate|].
        intros j [= <-]. cbn. tauto. }
    destruct E as (r & h' & E & NC). exists h'. destruct M as [-> | ->]; rewrite E; cbn [bind]; (destruct r as [[t v|l|l]|e]; [reflexivity| | |reflexivity]); exfalso; eapply NC; try reflexivity; exact Logic.I.
  Qed.
  (** YAML: the value of the first document *)
  Theorem C126_yaml_data d j ds js src rs path max h : means d j -> copyable fmt4 j -> Forall2 means ds js -> container j -> libyaml src = Some (YamlSpec.stream (d :: ds)) ->
    is_cstr src -> as_fd path = Some (mkIn src rs) -> ~ In Fail rs -> length src < progress rs -> length src <= max ->
    ReadData path TYaml max h = Ok (Some j, h).
  Proof.
    intros M CP F2 CO Y C F NF P L. unfold JsonReadDataFile. rewrite F, (@C126_whole_file _ _ max true h C NF P). replace (max <? length _) with false by (symmetry; apply Nat.ltb_ge; exact L).
    unfold parse. rewrite Y, (C108_document_partial M CP F2). cbn [bind]. destruct j; [destruct CO|reflexivity|reflexivity].
  Qed.
  (** CSV: what the CSV writer wrote comes back as an array of arrays of strings *)
  Theorem C126_csv_data recs path max h : Forall (Forall is_cstr) recs -> Forall (fun r => r <> []) recs ->
    Forall (fun r => fits (CsvWriterClose (write_fields (CsvWriterOpen []) r))) recs ->
    let content := CsvWriterClose (write_records (CsvWriterOpen []) recs) in length content <= max -> as_csv path = Some content ->
    ReadData path TCsv max h = Ok (Some (JArr (map (fun r => JArr (map (JPrim PString) r)) recs)), h).
  Proof. intros C N F content L E. unfold JsonReadDataFile. rewrite E. unfold content. rewrite (C78_csv_file_round_trip C N F L). reflexivity. Qed.
  Example C126_nonvacuous h : ReadData (mkFile (Some (mkIn (lit " {""a"": [1]}") [Done 3; Eintr; Done 9; Done 9])) None None) TJson 100 h = Ok (Some (JObj [(lit "a", JArr [JPrim PInt (lit "1")])]), h) /\
    ReadData (mkFile (Some (mkIn (lit "12") [Done 3; Done 3])) None None) TJson 100 h = Ok (None, h) /\
    ReadData (mkFile None None (Some (lit "a,b" ++ CRLF))) TCsv 100 h = Ok (Some (JArr [JArr [JPrim PString (lit "a"); JPrim PString (lit "b")]]), h).
  Proof. destruct h. repeat split; vm_compute; reflexivity. Qed.
End Data.
Print Assumptions C126_whole_file.
Print Assumptions C126_outcomes.
Print Assumptions C126_leak_refuted.
Print Assumptions C126_json_data.
Print Assumptions C126_round_trip.
Print Assumptions C126_not_data.
Print Assumptions C126_yaml_data.
Print Assumptions C126_csv_data.
