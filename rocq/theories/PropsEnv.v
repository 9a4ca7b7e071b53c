(** C76-C80: env files, lines of files, CSV data files, data file types, key/value files. *)
From Verif Require Import Prelude PreludeFacts Str StrFacts Libc LibcFacts MemSpec CmpSpec CmpModel CmpProofs PropsCmp EditSpec EditModel JsonModel JsonSpec JsonRead.
From Verif Require Import CsvModel CompatModel CompatProofs CompatProofs2 PropsCompat PropsCsv EnvModel EnvSpec EnvProofs EnvProofs2 EnvProofs3 EnvProofs4 EnvProofs5.
Set Implicit Arguments.

(** * C76 *)
(** ParseEnvLine on a buffer holding [line] finds exactly what the line means and stays
    inside the buffer, unless the right-hand side ends in a lone backslash *)
Theorem C76_env_line_partial m line o : holds m line -> env_line line o ->
  exists m' kv, ParseEnvLine m = Ok (m', kv) /\ length m' = length m /\
    match o, kv with
    | None, None => True
    | Some (k, v), Some (ko, vo) => holds (skipn ko m') k /\ holds (skipn vo m') v
    | _, _ => False
    end.
Proof. apply ParseEnvLine_spec. Qed.
Print Assumptions C76_env_line_partial.
(** every other line means something, and only one thing *)
Theorem C76_total line : (exists o, env_line line o) \/ dangling_line line.
Proof. apply line_total. Qed.
Print Assumptions C76_total.
Theorem C76_unique line o o' : is_cstr line -> env_line line o -> env_line line o' -> o = o'.
Proof.
  intros C A B. assert (H : holds (block line) line) by (split; [exact C|exists []; unfold block; rewrite map_app; reflexivity]).
  destruct (ParseEnvLine_spec H A) as [m1 [k1 [E1 [_ P1]]]]. destruct (ParseEnvLine_spec H B) as [m2 [k2 [E2 [_ P2]]]].
  rewrite E1 in E2. injection E2 as <- <-.
  assert (U : forall m a b, holds m a -> holds m b -> a = b).
  { intros m a b Ha Hb. apply mstr_holds in Ha, Hb. congruence. }
  destruct o as [[k v]|], o' as [[k' v']|], k1 as [[ko vo]|]; try contradiction; [|reflexivity].
  destruct P1 as [P1 Q1], P2 as [P2 Q2]. do 2 f_equal; eapply U; eassumption.
Qed.
Print Assumptions C76_unique.
(** a lone backslash at the end makes it run past the terminator: here off the buffer *)
Theorem C76_dangling_refuted : dangling_line (lit "A=b\") /\ ParseEnvLine (block (lit "A=b\")) = UB.
Proof.
  split; [|reflexivity]. exists (lit "A"), (lit "b\"). split.
  - exists (lit "A=b\"), (lit "A"), (lit "b\").
    assert (ST : forall s a b c d, s = a :: b -> s = c ++ [d] -> isspace a = false -> isspace d = false -> stripped isspace s s).
    { intros s a b c d E1 E2 Ha Hd. exists [], []. split; [rewrite app_nil_r; reflexivity|]. split; [intros x []|]. right. split; [exists a, b; auto|exists c, d; auto]. }
    split; [eapply (@ST _ "A"%char (lit "=b\") (lit "A=b") "\"%char); reflexivity|]. split; [reflexivity|]. split; [discriminate|].
    split; [cbn; intuition discriminate|]. split; [intros c u X; injection X as <- _; discriminate|].
    split; [eapply (@ST _ "A"%char [] [] "A"%char); reflexivity|eapply (@ST _ "b"%char (lit "\") (lit "b") "\"%char); reflexivity].
  - left. exists (lit "b"), (lit "b"). split; [reflexivity|]. split; [intros c t X; injection X as <- _; reflexivity|].
    apply un_plain; [discriminate|reflexivity|constructor].
Qed.
Print Assumptions C76_dangling_refuted.
Example C76_example : exists m' , ParseEnvLine (block (lit " KEY = 'a b\'c' # x ")) = Ok (m', Some (1, 7)) /\
  mstr (skipn 1 m') = Ok (lit "KEY") /\ mstr (skipn 7 m') = Ok (lit "a b'c").
Proof. eexists. split; [vm_compute; reflexivity|]. split; reflexivity. Qed.
Example C76_example2 : mstr (match ParseEnvLine (block (lit "K=x\n\""y")) with Ok (m, Some (_, v)) => skipn v m | _ => [] end) = Ok (lit "x" ++ [NEWLINE] ++ lit """y").
Proof. reflexivity. Qed.

(** * C77 *)
(** an env file becomes the object of the assignments in the lines within the size limit,
    the last definition of a key counting; a read error within the limit is reported.
    [stream_lines] are the lines without their newlines; a C string ends at a NUL *)
Theorem C77_env_file_partial mem smax s ls size_max pre os : (forall k, mem k = true) -> (N.of_nat (length (rest s)) < smax)%N ->
  eof s = false -> err s = false -> stream_lines (bad s) (rest s) ls -> taken size_max (map upto_nul ls) pre -> Forall2 env_line pre os ->
  JsonParseEnvFile mem smax (Some s) size_max =
    Ok (if bad s && (length pre =? length ls) then None
        else Some (JObj (last_wins (flat_map (fun o => match o with Some (k, v) => [(k, JPrim PString v)] | None => [] end) os)))).
Proof.
  destruct s as [c b e er]. cbn [rest bad eof err]. intros M SM -> -> SL [post [E [T1 T2]]] F. unfold JsonParseEnvFile.
  assert (E' := E). apply map_eq_app in E' as [lpre [lpost [E1 [E2 E3]]]]. subst pre post.
  destruct (@env_loop_spec mem smax M b size_max c ls SL lpre lpost os (S (length c)) (Some (repeat None (Pos.to_nat 4096))) (Pos.to_nat 4096) 0 []) as [cnt [fin [Q [P1 P2]]]]; auto.
  - intros l r X. subst lpost. specialize (T2 (upto_nul l) (map upto_nul r) eq_refl). rewrite map_app. exact T2.
  - intros x X. apply (f_equal (fun o => match o with Some y => length y | None => 0 end)) in X. cbv beta iota in X. rewrite repeat_length in X. rewrite <- X. reflexivity.
  - cbn [rest]. rewrite Q. cbn [bind]. rewrite append_all_nil. unfold pairs. subst ls. rewrite map_length, app_length.
    destruct lpost as [|l lpost].
    + destruct (P1 eq_refl) as [A B]. rewrite B. cbn [length]. rewrite Nat.add_0_r, Nat.eqb_refl, andb_true_r, negb_involutive.
      replace (cnt <=? size_max) with true by (symmetry; apply Nat.leb_le; exact A). destruct b; reflexivity.
    + assert (A : size_max < cnt) by (apply P2; discriminate). replace (cnt <=? size_max) with false by (symmetry; apply Nat.leb_gt; exact A).
      replace (length lpre =? length lpre + length (l :: lpost)) with false by (symmetry; apply Nat.eqb_neq; cbn [length]; lia).
      rewrite !andb_false_r. reflexivity.
Qed.
Print Assumptions C77_env_file_partial.
(** the lines and the part within the limit exist and are unique *)
Theorem C77_well_defined b s ls size_max pre : stream_lines b s ls -> taken size_max (map upto_nul ls) pre ->
  forall ls' pre', stream_lines b s ls' -> taken size_max (map upto_nul ls') pre' -> ls' = ls /\ pre' = pre.
Proof.
  intros A B ls' pre' A' B'. assert (E := stream_lines_unique A A'). subst ls'. split; [reflexivity|]. eapply taken_unique; eauto.
Qed.
Print Assumptions C77_well_defined.
Theorem C77_lines_exist b s size_max : exists ls pre, stream_lines b s ls /\ taken size_max (map upto_nul ls) pre.
Proof. destruct (stream_lines_exists b s) as [ls A]. destruct (taken_exists size_max (map upto_nul ls)) as [pre B]. eauto. Qed.
Print Assumptions C77_lines_exist.
(** a file that cannot be opened is reported *)
Theorem C77_no_file mem smax size_max : JsonParseEnvFile mem smax None size_max = Ok None.
Proof. reflexivity. Qed.
(** [last_wins] as a map: the members are the pairs whose key is not defined again later *)
Theorem C77_last_definition ms k v : In (k, v) (last_wins ms) <-> exists a b, ms = a ++ (k, v) :: b /\ ~ In k (map fst b).
Proof.
  induction ms as [|[k' v'] ms IH]; cbn [last_wins].
  - split; [intros []|]. intros [a [b [E _]]]. destruct a; discriminate.
  - assert (T : In (k, v) (last_wins ms) -> exists a b, (k', v') :: ms = a ++ (k, v) :: b /\ ~ In k (map fst b)).
    { intros I. apply IH in I as [a [b [E N]]]. exists ((k', v') :: a), b. rewrite E. auto. }
    assert (EX : existsb (fun m => bytes_eqb k' (fst m)) ms = true <-> In k' (map fst ms)).
    { rewrite existsb_exists. split; [intros [x [I B]]; apply bytes_eqb_eq in B; subst; apply in_map; exact I|].
      intros I. apply in_map_iff in I as [x [<- I]]. exists x. split; [exact I|]. apply bytes_eqb_refl. }
    destruct (existsb _ ms) eqn:X.
    + split; [exact T|]. intros [a [b [E N]]]. destruct a as [|p a]; cbn [app] in E.
      * injection E as -> -> <-. exfalso. apply N. apply EX. reflexivity.
      * injection E as _ E. apply IH. eauto.
    + split.
      * intros [E|I]; [|apply T; exact I]. injection E as -> ->. exists [], ms. split; [reflexivity|]. intros I. apply EX in I. congruence.
      * intros [a [b [E N]]]. destruct a as [|p a]; cbn [app] in E; [left; congruence|]. right. injection E as _ E. apply IH. eauto.
Qed.
Print Assumptions C77_last_definition.
(** a lone backslash at the end of the file makes it read memory never written *)
Theorem C77_dangling_refuted : JsonParseEnvFile (fun _ => true) 100 (Some (Stream (lit "A=b\") false false false)) 100 = UB.
Proof. vm_compute. reflexivity. Qed.
Print Assumptions C77_dangling_refuted.
Example C77_example : JsonParseEnvFile (fun _ => true) 100 (Some (Stream (lit "# os" ++ [LF] ++ lit "ID=x" ++ [LF] ++ lit "V='1 2'" ++ [LF] ++ lit "ID=y") false false false)) 100 =
  Ok (Some (JObj [(lit "V", JPrim PString (lit "1 2")); (lit "ID", JPrim PString (lit "y"))])).
Proof. vm_compute. reflexivity. Qed.
Example C77_example_limit : JsonParseEnvFile (fun _ => true) 100 (Some (Stream (lit "A=1" ++ [LF] ++ lit "B=2" ++ [LF]) false false false)) 5 =
  Ok (Some (JObj [(lit "A", JPrim PString (lit "1"))])).
Proof. vm_compute. reflexivity. Qed.

(** * C78 *)
(** CfReadLines appends the lines of the file in order, without their newlines, and
    returns their number, or -1 if reading failed behind them *)
Theorem C78_read_lines mem smax buff size s lines ls : (forall k, mem k = true) -> (N.of_nat (length (rest s)) < smax)%N -> buffer_ok buff size ->
  eof s = false -> err s = false -> stream_lines (bad s) (rest s) ls ->
  CfReadLines mem smax buff size s lines = Ok (lines ++ map upto_nul ls, if bad s then (-1)%Z else Z.of_nat (length ls)).
Proof.
  destruct s as [c b e er]. cbn [rest bad eof err]. intros M SM V -> -> SL. unfold CfReadLines. cbn [rest].
  apply (@readlines_spec mem smax M b c ls SL); auto. lia.
Qed.
Print Assumptions C78_read_lines.
Example C78_example : CfReadLines (fun _ => true) 100 None 0 (Stream (lit "a" ++ [LF; LF] ++ lit "bc") false false false) [lit "x"] =
  Ok ([lit "x"; lit "a"; []; lit "bc"], 3%Z).
Proof. vm_compute. reflexivity. Qed.
Example C78_example_bad : CfReadLines (fun _ => true) 100 None 0 (Stream (lit "a" ++ [LF] ++ lit "bc") true false false) [] = Ok ([lit "a"], (-1)%Z).
Proof. vm_compute. reflexivity. Qed.

(** a CSV file becomes the array of its parsed records within the size limit *)
Theorem C78_csv_file content ls size_max pre os : reads content ls -> taken size_max ls pre -> Forall2 (fun l o => SeqParseCsvString l = Ok o) pre os ->
  JsonParseCsvFile (Some content) size_max =
    Ok (Some (JArr (flat_map (fun o => match o with Some l => [JArr (map (JPrim PString) l)] | None => [] end) os))).
Proof.
  intros R [post [E [T1 T2]]] F. unfold JsonParseCsvFile.
  destruct (@csv_file_spec size_max content ls R pre post os (S (length content)) 0 []) as [cnt [Q P]]; auto.
  rewrite Q. cbn [bind app]. destruct post as [|l r]; cbn [negb andb]; [reflexivity|].
  replace (cnt <=? size_max) with false; [reflexivity|]. symmetry. apply Nat.leb_gt. apply P. discriminate.
Qed.
Print Assumptions C78_csv_file.
(** so writing records with the CSV writer and reading the file gives them back *)
Theorem C78_csv_file_round_trip rs size_max : Forall (Forall is_cstr) rs -> Forall (fun r => r <> []) rs ->
  Forall (fun r => fits (CsvWriterClose (write_fields (CsvWriterOpen []) r))) rs ->
  let content := CsvWriterClose (write_records (CsvWriterOpen []) rs) in length content <= size_max ->
  JsonParseCsvFile (Some content) size_max = Ok (Some (JArr (map (fun r => JArr (map (JPrim PString) r)) rs))).
Proof.
  intros C N F content L. destruct (C25_records C N F) as [ls [R P]]. fold content in R.
  assert (T : total ls <= length content).
  { clear P L. clearbody content. clear - R. induction R as [fp fp' G|fp l fp' ls G R IH]; [cbn; lia|]. cbn [total].
    unfold GetCsvLineNext in G. assert (LL : forall fp b prev q, let '(b', fp') := line_loop b prev q fp in length b' + length fp' = length b + length fp).
    { clear. induction fp as [|c fp IH]; intros b prev q; cbn [line_loop]; [reflexivity|].
      assert (A : length (b ++ [c]) = S (length b)) by (rewrite app_length; cbn; lia).
      destruct (beq c QUOTE); [specialize (IH (b ++ [c]) c (negb q)); destruct (line_loop _ _ _ _); cbn [length]; lia|].
      destruct (negb q && beq c _ && beq prev _); [cbn [length]; lia|]. specialize (IH (b ++ [c]) c q). destruct (line_loop _ _ _ _); cbn [length]; lia. }
    specialize (LL fp [] NUL false). destruct (line_loop [] NUL false fp) as [b x]. destruct (Nat.eqb_spec (length b) 0); [discriminate|].
    injection G as <- <-. cbn [length] in LL. assert (U : length (upto_nul b) <= length b) by (clear; induction b as [|c b IH]; cbn; [lia|]; destruct (beq c NUL); cbn; lia). lia. }
  rewrite (@C78_csv_file content ls size_max ls (map Some rs)); auto.
  - do 3 f_equal. clear. induction rs as [|r rs IH]; cbn; [reflexivity|]. f_equal. exact IH.
  - exists []. rewrite app_nil_r. repeat split; [lia|discriminate].
  - clear - P. induction P; cbn; constructor; auto.
Qed.
Print Assumptions C78_csv_file_round_trip.
Example C78_csv_example : JsonParseCsvFile (Some (lit "a,b" ++ CRLF ++ lit "c" ++ CRLF)) 100 =
  Ok (Some (JArr [JArr [JPrim PString (lit "a"); JPrim PString (lit "b")]; JArr [JPrim PString (lit "c")]])).
Proof. reflexivity. Qed.

(** * C79 *)
(** data file types by name and by suffix, ignoring case *)
Theorem C79_type_by_name strcasecmp name : strcasecmp_ok strcasecmp -> exists t, GetDataFileTypeFromString strcasecmp name = Ok t /\
  (t = TYaml <-> map tolower name = lit "yaml") /\ (t = TCsv <-> map tolower name = lit "csv") /\
  (t = TEnv <-> map tolower name = lit "env") /\ (t = TJson <-> map tolower name = lit "json").
Proof.
  intros OK. unfold GetDataFileTypeFromString.
  assert (EQI : forall w, map tolower w = w -> exists e, StringEqual_IgnoreCase strcasecmp (Some (0%N, name)) (Some (1%N, w)) = Ok e /\ (e = true <-> map tolower name = w)).
  { intros w W. assert (CO : coherent (Some (0%N, name)) (Some (1%N, w))) by (intros X; discriminate X).
    destruct (@C29_IgnoreCase strcasecmp (Some (0%N, name)) (Some (1%N, w)) OK CO) as [r [E [_ [Q _]]]].
    unfold StringEqual_IgnoreCase. rewrite E. cbn [bind]. eexists. split; [reflexivity|]. rewrite Z.eqb_eq, Q. cbn. rewrite W. split; congruence. }
  destruct (EQI (lit "yaml") eq_refl) as [e1 [E1 H1]], (EQI (lit "csv") eq_refl) as [e2 [E2 H2]], (EQI (lit "env") eq_refl) as [e3 [E3 H3]], (EQI (lit "json") eq_refl) as [e4 [E4 H4]].
  rewrite E1, E2, E3, E4. cbn [bind]. clear E1 E2 E3 E4 EQI.
  destruct e1; [eexists; split; [reflexivity|]; rewrite (proj1 H1 eq_refl); (split; [|split; [|split]]); split; intros X; solve [reflexivity | discriminate X]|].
  destruct e2; [eexists; split; [reflexivity|]; rewrite (proj1 H2 eq_refl); (split; [|split; [|split]]); split; intros X; solve [reflexivity | discriminate X]|].
  destruct e3; [eexists; split; [reflexivity|]; rewrite (proj1 H3 eq_refl); (split; [|split; [|split]]); split; intros X; solve [reflexivity | discriminate X]|].
  destruct e4; [eexists; split; [reflexivity|]; rewrite (proj1 H4 eq_refl); (split; [|split; [|split]]); split; intros X; solve [reflexivity | discriminate X]|].
  eexists; split; [reflexivity|]. repeat split; try discriminate; intros X.
  - apply H1 in X. discriminate. - apply H2 in X. discriminate. - apply H3 in X. discriminate. - apply H4 in X. discriminate.
Qed.
Print Assumptions C79_type_by_name.
Definition has_suffix (name sfx : list byte) : Prop := exists p t, name = p ++ t /\ map tolower t = sfx.
Theorem C79_type_by_suffix name : exists t, GetDataFileTypeFromSuffix name = Ok t /\
  (t = TCsv <-> has_suffix name (lit ".csv")) /\ (t = TYaml <-> has_suffix name (lit ".yaml") \/ has_suffix name (lit ".yml")) /\
  (t = TEnv <-> has_suffix name (lit ".env")) /\ t <> TUnknown.
Proof.
  unfold GetDataFileTypeFromSuffix.
  destruct (C58_StringEndsWithCase name (lit ".csv")) as [b1 [E1 H1]], (C58_StringEndsWithCase name (lit ".yaml")) as [b2 [E2 H2]],
    (C58_StringEndsWithCase name (lit ".yml")) as [b3 [E3 H3]], (C58_StringEndsWithCase name (lit ".env")) as [b4 [E4 H4]].
  rewrite E1, E2. cbn [bind]. clear E1 E2. change (b1 = true <-> has_suffix name (lit ".csv")) in H1. change (b2 = true <-> has_suffix name (lit ".yaml")) in H2.
  change (b3 = true <-> has_suffix name (lit ".yml")) in H3. change (b4 = true <-> has_suffix name (lit ".env")) in H4.
  (* two suffixes of the same name whose last letters differ, or that differ otherwise *)
  assert (D : forall s s', has_suffix name s -> has_suffix name s' -> length s <= length s' -> s = skipn (length s' - length s) s').
  { intros s s' [p [t [E <-]]] [p' [t' [E' <-]]] L. rewrite !map_length in *. rewrite skipn_map. f_equal.
    assert (X : skipn (length name - length t) name = t) by (rewrite E, app_length; replace (length p + length t - length t) with (length p) by lia; rewrite skipn_app, skipn_all, Nat.sub_diag; reflexivity).
    rewrite <- X at 1. rewrite E', app_length, skipn_app. rewrite skipn_all2 by lia. cbn [app]. f_equal. lia. }
  assert (N : forall s s', length s <= length s' -> bytes_eqb s (skipn (length s' - length s) s') = false -> has_suffix name s -> has_suffix name s' -> False).
  { intros s s' L B Hs Hs'. rewrite <- (D s s' Hs Hs' L), bytes_eqb_refl in B. discriminate. }
  assert (N12 : has_suffix name (lit ".csv") -> has_suffix name (lit ".yaml") -> False) by (apply N; [cbn; lia|reflexivity]).
  assert (N13 : has_suffix name (lit ".csv") -> has_suffix name (lit ".yml") -> False) by (apply N; [cbn; lia|reflexivity]).
  assert (N14 : has_suffix name (lit ".csv") -> has_suffix name (lit ".env") -> False) by (apply N; [cbn; lia|reflexivity]).
  assert (N42 : has_suffix name (lit ".env") -> has_suffix name (lit ".yaml") -> False) by (apply N; [cbn; lia|reflexivity]).
  assert (N43 : has_suffix name (lit ".env") -> has_suffix name (lit ".yml") -> False) by (apply N; [cbn; lia|reflexivity]).
  clear N D.
  destruct b1.
  { assert (Y := proj1 H1 eq_refl). eexists. split; [reflexivity|]. repeat split; try discriminate; auto; intros X; exfalso; tauto. }
  assert (Y1 : ~ has_suffix name (lit ".csv")) by (intros X; apply H1 in X; discriminate).
  destruct b2; cbn [bind].
  { assert (Y := proj1 H2 eq_refl). eexists. split; [reflexivity|]. repeat split; try discriminate; auto; intros X; exfalso; tauto. }
  assert (Y2 : ~ has_suffix name (lit ".yaml")) by (intros X; apply H2 in X; discriminate).
  rewrite E3. cbn [bind]. destruct b3.
  { assert (Y := proj1 H3 eq_refl). eexists. split; [reflexivity|]. repeat split; try discriminate; auto; intros X; exfalso; tauto. }
  assert (Y3 : ~ has_suffix name (lit ".yml")) by (intros X; apply H3 in X; discriminate).
  rewrite E4. cbn [bind]. destruct b4.
  { assert (Y := proj1 H4 eq_refl). eexists. split; [reflexivity|]. repeat split; try discriminate; auto; intros X; exfalso; tauto. }
  assert (Y4 : ~ has_suffix name (lit ".env")) by (intros X; apply H4 in X; discriminate).
  eexists. split; [reflexivity|]. repeat split; try discriminate; intros X; exfalso; tauto.
Qed.
Print Assumptions C79_type_by_suffix.
Example C79_example : GetDataFileTypeFromSuffix (lit "/tmp/a.json.YmL") = Ok TYaml.
Proof. reflexivity. Qed.

(** * C80 *)
(** a key/value file whose lines are shorter than 1023 bytes: the callback gets, per line
    and in order, the text in front of the first colon and the text behind it (with the
    newline), until it refuses, a line has no colon, or the file ends *)
Theorem C80_key_value_partial St (callback : St -> list byte -> list byte -> St * bool) s st : err s = false -> lines_upto 1022 (rest s) ->
  exists ls st' r, raw_lines (bad s) (rest s) ls /\ kv_run callback (negb (bad s)) st ls st' r /\
    ParseKeyValue callback s st = Ok (st', r).
Proof.
  destruct s as [c b e er]. cbn [rest bad err]. intros -> SH. destruct (raw_lines_exists b c) as [ls R]. destruct (kv_run_exists callback (negb b) ls st) as [st' [r K]].
  exists ls, st', r. split; [exact R|]. split; [exact K|]. apply (@keyvalue_spec St callback b c ls R SH); auto.
Qed.
Print Assumptions C80_key_value_partial.
(** the numeric variant: the same with every value scanned as a number; a value that is no
    number makes it fail *)
Theorem C80_key_numeric_partial St scan (callback : St -> list byte -> Z -> St * bool) s st : err s = false -> lines_upto 1022 (rest s) ->
  exists ls st' r, raw_lines (bad s) (rest s) ls /\
    kv_run (fun st k v => match scan v with None => (st, false) | Some n => callback st k n end) (negb (bad s)) st ls st' r /\
    ParseKeyNumericValue scan callback s st = Ok (st', r).
Proof. apply C80_key_value_partial. Qed.
Print Assumptions C80_key_numeric_partial.
(** a longer line is cut: its key comes with a piece of its value *)
Theorem C80_long_line_refuted :
  let line := repeat "k"%char 1000 ++ lit ": 1234567890123456789012345678901" ++ [LF] in
  ParseKeyValue (fun st k v => (st ++ [(length k, v)], true)) (Stream line false false false) [] =
    Ok ([(1000, lit " 123456789012345678901")], false).
Proof. vm_compute. reflexivity. Qed.
Print Assumptions C80_long_line_refuted.
Example C80_example : ParseKeyValue (fun st k v => (st ++ [(k, v)], true)) (Stream (lit "a: 1" ++ [LF] ++ lit "b:2:3") false false false) [] =
  Ok ([(lit "a", lit " 1" ++ [LF]); (lit "b", lit "2:3")], true).
Proof. reflexivity. Qed.
