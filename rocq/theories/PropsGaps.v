(** Theorems about functions not covered elsewhere: C01 (SeqFromArgv), C08 (SetRemove, SetClear, SetSize), C31 (StringToLongUnsafe),
    C44 (IPAddressIsIPAddress), C83 (HashPrintable), C94 (LoggingPrivGetContext), C126 (JsonParseFile, JsonParseYamlFile). *)
From Verif Require Import Prelude PreludeFacts Str StrFacts Libc LibcFacts MemSpec MapModel MapSpec MapProofs SetModel SetProofs PropsMap.
From Verif Require JsonHeapFacts JsonHeapModel JsonHeapSpec JsonHeapProofs JsonHeapProofs2 JsonHeapProofs3 JsonHeapProofs4 JsonHeapProofs5 PropsJsonHeap EditSpec PropsIo IoProofs SeqModel SeqProofs JsonModel YamlModel NumModel NumSpec NumProofs LogModel HashModel HashSpec HashProofs PropsHash IpModel IoModel DataFileModel PropsDataFile.
Set Implicit Arguments.

(** * C01: a sequence made of an argument vector *)
Section Argv.
  Import SeqModel SeqProofs.
  Variable A : Type.
  Theorem C01_from_argv (argv : list (option A)) :
    match argv with
    | [] | None :: _ => SeqFromArgv argv = Abort
    | Some _ :: _ => exists s, SeqFromArgv argv = Ok s /\ SeqLength s = length argv /\ (forall i, i < length argv -> SeqAt s i = Ok (nth i argv None)) /\
                     sdtor s = false
    end.
  Proof.
    destruct argv as [|[x|] t]; try reflexivity.
    unfold SeqFromArgv. set (l := Some x :: t). change (0 <? length l) with true. cbn [massert].
    destruct (append_list_rep l (@rep_new A (length l) false)) as (s & E & R & D & _). cbn [app] in R.
    exists s. split; [exact E|]. split; [exact (rep_len R)|]. split; [intros i H; exact (SeqAt_rep R H)|].
    rewrite D. unfold SeqNew. destruct (length l <=? 0); reflexivity.
  Qed.
End Argv.
Print Assumptions C01_from_argv.
Example C01_from_argv_example : match SeqModel.SeqFromArgv [Some 7; Some 8; None; Some 9] with
  | Ok s => SeqModel.SeqLength s = 4 /\ SeqModel.SeqAt s 1 = Ok (Some 8) /\ SeqModel.SeqAt s 2 = Ok None | _ => False end.
Proof. vm_compute. auto. Qed.

(** * C08: sets under any history of additions, removals and clearings *)
Section Sets.
  Variable E : Type.
  Variable equal : E -> E -> bool.
  Variable hash : E -> N.
  Hypothesis EQ : equal_ok equal hash.
  Inductive sop := Add (e : E) | Remove (e : E) | Clear.
  (** the calls on a set; only SetRemove answers *)
  Fixpoint set_calls (s : set_t E) (l : list sop) : res (set_t E * list bool) :=
    match l with
    | [] => Ok (s, [])
    | Add e :: l => let* ' (s, _) := SetAdd equal hash s e in set_calls s l
    | Remove e :: l => let* ' (s, b, _) := SetRemove equal hash s e in let* ' (s, r) := set_calls s l in Ok (s, b :: r)
    | Clear :: l => let* ' (s, _) := SetClear s in set_calls s l
    end.
  (** what a set is: a predicate, closed under equality *)
  Definition set_after (P : E -> bool) (o : sop) : E -> bool :=
    match o with Add e => fun k => equal e k || P k | Remove e => fun k => negb (equal e k) && P k | Clear => fun _ => false end.
  Fixpoint set_answers (P : E -> bool) (l : list sop) : list bool :=
    match l with [] => [] | Remove e :: l => P e :: set_answers (set_after P (Remove e)) l | o :: l => set_answers (set_after P o) l end.

  Lemma shas_rest (m : list (E * E)) e k : shas equal (srest equal m e) k = negb (equal e k) && shas equal m k.
  Proof.
    unfold shas, srest. induction m as [|x t IH]; simpl; [now rewrite andb_false_r|].
    destruct (equal (fst x) e) eqn:X; cbn [negb existsb].
    - rewrite IH. destruct (equal (fst x) k) eqn:K; cbn [orb]; [|reflexivity].
      rewrite (eqk_comm EQ) in X. rewrite (eq_trans_k EQ _ _ _ X K). reflexivity.
    - rewrite IH. destruct (equal e k) eqn:K; cbn [negb andb].
      + destruct (equal (fst x) k) eqn:Y; cbn [orb]; [|reflexivity]. exfalso.
        rewrite (eqk_comm EQ) in K. rewrite (eq_trans_k EQ _ _ _ Y K) in X. discriminate.
      + reflexivity.
  Qed.
  Lemma srep_remove s P e : srep equal hash s P -> exists s' evs, SetRemove equal hash s e = Ok (s', P e, evs) /\ srep equal hash s' (set_after P (Remove e)).
  Proof.
    intros (m & R & H). destruct (rep_remove EQ e R) as (m' & evs & X & R' & _). exists m', evs. unfold SetRemove. rewrite X, H. split; [reflexivity|].
    exists (srest equal m e). split; [exact R'|]. intros k. rewrite shas_rest, H. reflexivity.
  Qed.
  Lemma srep_clear s P : srep equal hash s P -> exists s' evs, SetClear s = Ok (s', evs) /\ srep equal hash s' (fun _ => false).
  Proof.
    intros (m & R & H). destruct (rep_clear R) as (m' & evs & X & R' & _). exists m', evs. split; [exact X|]. exists []. split; [exact R'|]. reflexivity.
  Qed.

  Theorem C08_set_history : forall l, exists s, set_calls (SetNew E) l = Ok (s, set_answers (fun _ => false) l) /\
    let P := fold_left set_after l (fun _ => false) in
    (forall k, SetContains equal hash s k = Ok (P k)) /\
    exists m, SetIterate s = Ok m /\ SetSize s = Ok (length m) /\ (forall k, existsb (fun e => equal e k) m = P k) /\
              (forall i j d, i < j < length m -> equal (nth i m d) (nth j m d) = false).
  Proof.
    intros l. assert (G : forall l s P, srep equal hash s P -> exists s', set_calls s l = Ok (s', set_answers P l) /\ srep equal hash s' (fold_left set_after l P)).
    { clear l. induction l as [|[e|e|] l IH]; intros s P R; cbn [set_calls set_answers fold_left].
      - exists s. auto.
      - destruct (srep_add EQ e R) as (s1 & ev & X & R1). rewrite X. cbn [bind]. destruct (IH _ _ R1) as (s2 & Y & R2). exists s2. split; [exact Y|exact R2].
      - destruct (srep_remove e R) as (s1 & ev & X & R1). rewrite X. cbn [bind]. destruct (IH _ _ R1) as (s2 & Y & R2). rewrite Y. cbn [bind]. exists s2. split; [reflexivity|exact R2].
      - destruct (srep_clear R) as (s1 & ev & X & R1). rewrite X. cbn [bind]. destruct (IH _ _ R1) as (s2 & Y & R2). exists s2. split; [exact Y|exact R2]. }
    destruct (G l _ _ (srep_new equal hash)) as (s & X & R). exists s. split; [exact X|]. split; [intros k; exact (srep_contains EQ k R)|].
    destruct (srep_iterate EQ R) as (m & I & M & Z & D). exists m. auto.
  Qed.
End Sets.
Print Assumptions C08_set_history.
Example C08_set_history_example :
  match set_calls Nat.eqb (fun k => N.of_nat (k mod 3)) (SetNew nat) (map (@Add nat) (seq 0 20) ++ [Remove 3; Remove 3; Add 4; Remove 30]) with
  | Ok (s, r) => r = [true; false; false] /\ SetSize s = Ok 19 | _ => False end /\
  match set_calls Nat.eqb (fun k => N.of_nat (k mod 3)) (SetNew nat) (map (@Add nat) (seq 0 20) ++ [@Clear nat; Remove 4; Add 5]) with
  | Ok (s, r) => r = [false] /\ SetSize s = Ok 1 /\ SetIterate s = Ok [5] | _ => False end.
Proof. vm_compute. auto. Qed.

(** * C31: StringToLongUnsafe *)
Section Unsafe.
  Import NumModel NumSpec NumProofs.
  Local Open Scope Z_scope.
  (** it answers exactly if a numeral, or nothing, is all there is; a numeral out of range gives the nearest long, unnoticed *)
  Theorem C31_StringToLongUnsafe s : is_cstr s ->
    (forall v, reads s v [] -> StringToLongUnsafe s = Ok (Z.max LONG_MIN (Z.min v LONG_MAX))) /\
    (forall v rest, reads s v rest -> rest <> [] -> StringToLongUnsafe s = Abort) /\
    ((forall v rest, ~ reads s v rest) -> StringToLongUnsafe s = if match s with [] => true | _ => false end then Ok 0 else Abort).
  Proof.
    intros CS. assert (G : forall v rest, reads s v rest -> StringToLongUnsafe s = if match rest with [] => true | _ => false end then Ok (Z.max LONG_MIN (Z.min v LONG_MAX)) else Abort).
    { intros v rest R. unfold StringToLongUnsafe. rewrite (strtol_reads R).
      assert (CH : exists c, chr s (consumed s rest) = Ok c /\ beq c NUL = match rest with [] => true | _ => false end).
      { destruct R as (b & sg & ds & -> & _). replace (consumed (b ++ sg ++ ds ++ rest) rest) with (length (b ++ sg ++ ds)) by (unfold consumed; rewrite !app_length; lia).
        rewrite !app_assoc. rewrite <- (app_assoc b). destruct rest as [|c r].
        - rewrite app_nil_r, chr_end. exists NUL. auto.
        - rewrite chr_app_mid. exists c. split; [reflexivity|]. unfold is_cstr in CS. apply beq_false. intros ->. apply CS. rewrite !in_app_iff. right. right. right. now left. }
      destruct CH as (c & CH & B).
      destruct (Z.gtb_spec v LONG_MAX); [|destruct (Z.ltb_spec v LONG_MIN)]; rewrite CH; cbn [bind]; rewrite B; destruct rest; cbn [massert]; try reflexivity; f_equal;
        unfold LONG_MAX, LONG_MIN in *; lia. }
    split; [intros v R; exact (G v [] R)|]. split; [intros v rest R NE; rewrite (G v rest R); destruct rest; congruence|].
    intros NR. unfold StringToLongUnsafe. rewrite (strtol_none NR). destruct s as [|c t]; [reflexivity|].
    change (chr (c :: t) 0) with (Ok c). cbn [bind]. assert (B : beq c NUL = false) by (apply beq_false; intros ->; apply CS; now left). rewrite B. reflexivity.
  Qed.
  Example C31_StringToLongUnsafe_example : StringToLongUnsafe (lit " -42") = Ok (-42) /\ StringToLongUnsafe (lit "42 ") = Abort /\ StringToLongUnsafe (lit "x") = Abort /\
    StringToLongUnsafe (lit "99999999999999999999") = Ok LONG_MAX /\ StringToLongUnsafe [] = Ok 0.
  Proof. vm_compute. auto. Qed.
End Unsafe.
Print Assumptions C31_StringToLongUnsafe.

(** * C44: IPAddressIsIPAddress answers as IPAddressNew does *)
Theorem C44_is_ip_address pad old : 
  match IpModel.IPAddressNew pad with
  | Ok (Some a) => IpModel.IPAddressIsIPAddress pad old = Ok (true, Some a)
  | Ok None => IpModel.IPAddressIsIPAddress pad old = Ok (false, old)
  | UB => IpModel.IPAddressIsIPAddress pad old = UB | Abort => IpModel.IPAddressIsIPAddress pad old = Abort | Fuel => True
  end.
Proof. unfold IpModel.IPAddressIsIPAddress. destruct (IpModel.IPAddressNew pad) as [[a|]| | |]; auto. Qed.
Print Assumptions C44_is_ip_address.
Example C44_is_ip_address_example :
  match IpModel.IPAddressIsIPAddress (lit "10.0.0.1") None with Ok (b, Some _) => b | _ => false end = true /\
  IpModel.IPAddressIsIPAddress (lit "10.0.0") None = Ok (false, None).
Proof. vm_compute. auto. Qed.

(** * C94: a thread reads back the context it set, and only that *)
Section Context.
  Import LogModel.
  Lemma ctx_at g t c : contexts g t = Some c -> LoggingPrivGetContext g t = (g, pctx c).
  Proof. intros H. unfold LoggingPrivGetContext, GetCurrentThreadContext. now rewrite H. Qed.
  Lemma ctx_get g t : snd (LoggingPrivGetContext g t) = match contexts g t with Some c => pctx c | None => None end.
  Proof. unfold LoggingPrivGetContext, GetCurrentThreadContext. destruct (contexts g t); reflexivity. Qed.
  Lemma ctx_set g t p : exists c, pctx c = p /\ contexts (LoggingPrivSetContext g t p) t = Some c /\
    forall u, u <> t -> contexts (LoggingPrivSetContext g t p) u = contexts g u.
  Proof.
    unfold LoggingPrivSetContext, GetCurrentThreadContext, set_context. destruct (contexts g t) as [c|] eqn:H; cbn [contexts];
      eexists; (split; [|split; [rewrite Nat.eqb_refl; reflexivity|intros u N; apply Nat.eqb_neq in N; now rewrite ?N]]); reflexivity.
  Qed.
  Theorem C94_get_context g t p : let g' := LoggingPrivSetContext g t p in
    LoggingPrivGetContext g' t = (g', p) /\
    (forall u, u <> t -> snd (LoggingPrivGetContext g' u) = snd (LoggingPrivGetContext g u)) /\
    (contexts g t = None -> snd (LoggingPrivGetContext g t) = None) /\
    trace g' = trace g.
  Proof.
    cbv zeta. destruct (ctx_set g t p) as (c & P & T & U). split; [rewrite (ctx_at _ _ T), P; reflexivity|]. split; [intros u N; rewrite !ctx_get, U by exact N; reflexivity|].
    split; [intros H; rewrite ctx_get, H; reflexivity|]. unfold LoggingPrivSetContext, GetCurrentThreadContext. destruct (contexts g t); reflexivity.
  Qed.
End Context.
Print Assumptions C94_get_context.

(** * C83: HashPrintable *)
Section Printable.
  Import EditSpec HashModel HashSpec HashProofs PropsHash.
  (** the type's prefix and the digest in hexadecimal, of every hash a program can have *)
  Theorem C83_HashPrintable db h m d : openssl db -> obtained db h m d -> HashPrintable None = None /\
    exists p, HashPrintable (Some h) = Some p /\ holds p (type_prefix m ++ hex d).
  Proof.
    intros OS O. split; [reflexivity|]. exists (printable h). split; [reflexivity|].
    destruct (obtained_rep OS O) as [(_ & _ & _ & _ & _ & H) _]. exact H.
  Qed.
  Example C83_HashPrintable_example : match HashNew toy_db (Some (map Some (lit "ab"))) 2 HASH_METHOD_MD5 with
    | Ok (Some h) => match HashPrintable (Some h) with Some p => mstr p = Ok (lit "MD5=61626b6b6b6b6b6b6b6b6b6b6b6b6b6b") | None => False end | _ => False end.
  Proof. vm_compute. reflexivity. Qed.
End Printable.
Print Assumptions C83_HashPrintable.

(** * C126: the functions for one format *)
Section Files.
  Import JsonModel IoModel IoProofs PropsIo DataFileModel PropsDataFile.
  Variable fmt4 : list byte -> list byte.
  Variable libyaml : list byte -> option (list YamlModel.event).
  Variable built : bool.
  (** a file read to its end: its JSON text by the one, its YAML text by the other, if it is not longer than the limit *)
  Theorem C126_JsonParseFile src rs max h : is_cstr src -> ~ In Fail rs -> length src < progress rs ->
    JsonParseFile fmt4 libyaml built (Some (mkIn src rs)) max h =
      if max <? length src then Ok (FErr E_TRUNCATED, mkHeld (fds h) (S (writers h)))
      else let* p := JsonParse src in Ok (match p with POk j _ => FOk j | PErr e => FErr (E_parser e) end, h).
  Proof.
    intros C NF P. unfold JsonParseFile. rewrite (@C126_whole_file fmt4 libyaml (fun _ => true) built src rs max false h C NF P). unfold parse.
    destruct (max <? length src); [reflexivity|]. destruct (JsonParse src) as [[j c|e]| | |]; reflexivity.
  Qed.
  Theorem C126_JsonParseYamlFile src rs max h : is_cstr src -> ~ In Fail rs -> length src < progress rs ->
    JsonParseYamlFile fmt4 libyaml built (Some (mkIn src rs)) max h =
      if max <? length src then Ok (FErr E_TRUNCATED, mkHeld (fds h) (S (writers h)))
      else match libyaml src with
           | Some evs => let* j := YamlModel.JsonParseYamlString fmt4 evs in Ok (FOk j, h)
           | None => Ok (FErr (if built then E_LIBYAML_FAILURE else E_NO_LIBYAML), h)
           end.
  Proof.
    intros C NF P. unfold JsonParseYamlFile. rewrite (@C126_whole_file fmt4 libyaml (fun _ => true) built src rs max true h C NF P). unfold parse.
    destruct (max <? length src); [reflexivity|]. destruct (libyaml src) as [evs|]; [|reflexivity]. destruct (YamlModel.JsonParseYamlString fmt4 evs); reflexivity.
  Qed.
End Files.
Print Assumptions C126_JsonParseFile.
Print Assumptions C126_JsonParseYamlFile.
Example C126_JsonParseFile_example : (* the file hands out its text in two pieces; nothing is left allocated *)
  match DataFileModel.JsonParseFile (fun x => x) (fun _ => None) false (Some (IoModel.mkIn (lit "[1]") [IoModel.Done 2; IoModel.Done 9; IoModel.Done 9; IoModel.Done 9])) 8 (DataFileModel.mkHeld 0 0) with
  | Ok (DataFileModel.FOk j, h) => j = JsonModel.JArr [JsonModel.JPrim JsonModel.PInt (lit "1")] /\ h = DataFileModel.mkHeld 0 0 | _ => False end.
Proof. vm_compute. auto. Qed.
Example C126_JsonParseYamlFile_example : (* without libyaml *)
  DataFileModel.JsonParseYamlFile (fun x => x) (fun _ => None) false (Some (IoModel.mkIn (lit "a: b") [IoModel.Done 9; IoModel.Done 9; IoModel.Done 9; IoModel.Done 9])) 8 (DataFileModel.mkHeld 0 0)
  = Ok (DataFileModel.FErr DataFileModel.E_NO_LIBYAML, DataFileModel.mkHeld 0 0).
Proof. vm_compute. auto. Qed.

(** * C105 and C106: the remaining functions on elements in memory *)
Section Elements.
  Import JsonHeapModel JsonHeapSpec JsonHeapFacts JsonHeapProofs JsonHeapProofs2 JsonHeapProofs3 JsonHeapProofs4 JsonHeapProofs5.
  (** JsonDestroyMaybe frees the tree, or does nothing *)
  Theorem C105_destroy_maybe h e F : forest h (e :: F) ->
    JsonDestroyMaybe h (Some (addr e)) false = Ok h /\
    (exists h', JsonDestroyMaybe h (Some (addr e)) true = Ok h' /\ forest h' F /\
      (forall a x, In (a, x) (flat_map nodes F) -> h_elems h' a = h_elems h a) /\ (forall a x, In (a, x) (nodes e) -> h_elems h' a = None)) /\
    (forall b, JsonDestroyMaybe h None b = Ok h).
  Proof.
    intros FO. split; [reflexivity|]. split; [exact (PropsJsonHeap.C105_destroy FO)|]. intros []; reflexivity.
  Qed.
  Variables (h : heap) (K : context).
  (** the type of the value an iterator is at: only of a container, only of a primitive *)
  Theorem C106_current_types a n k ts i t : forest h (fill K (TC a n k ts)) -> nth_error ts i = Some t ->
    JsonIteratorCurrentContainerType h (a, S i) = match t with TC _ _ k' _ => Ok k' | TP _ _ _ _ _ => Abort end /\
    JsonIteratorCurrentPrimitiveType h (a, S i) = match t with TP _ _ p _ _ => Ok p | TC _ _ _ _ => Abort end.
  Proof.
    intros FO N. assert (L : (S i <= length ts)%nat) by (apply nth_error_Some; congruence).
    destruct (@PropsJsonHeap.C106_position h K a n k ts (S i) FO L) as (_ & _ & CV & _). unfold JsonIteratorCurrentContainerType, JsonIteratorCurrentPrimitiveType.
    rewrite CV, N. cbn [bind option_map]. apply nth_error_split in N as (l & r & E & _). rewrite E, fill_inner in FO.
    unfold JsonGetContainerType, JsonGetPrimitiveType, container, primitive. rewrite (forest_load _ _ FO). destruct t; split; reflexivity.
  Qed.
  (** the name of a member; NULL for an element that has none *)
  Theorem C106_property x : forest h (fill K x) ->
    match name x with
    | None => JsonGetPropertyAsString h (addr x) = Ok None
    | Some (_, s) => exists p, JsonGetPropertyAsString h (addr x) = Ok (Some p) /\ text h p = Ok s
    end.
  Proof.
    intros FO. unfold JsonGetPropertyAsString. rewrite (@read_name h K x FO). destruct (name x) as [[q s]|] eqn:NE; [|reflexivity].
    exists (Block q). split; [reflexivity|]. apply forest_raw in FO as FR. destruct FR as [R _]. apply (raw_text q s R). apply (fill_string _ _ _ FO). rewrite strings_head, NE. now left.
  Qed.
End Elements.
Print Assumptions C105_destroy_maybe.
Print Assumptions C106_current_types.
Print Assumptions C106_property.
(** {"a": [true], "b": null}, as in [C106_case] *)
Example C106_gaps_example : exists h t,
  JsonHeapSpec.forest h (JsonHeapSpec.fill (JsonHeapSpec.mkCtx [] [] []) (JsonHeapSpec.TC 0 None JsonHeapModel.KObject t)) /\
  JsonHeapModel.JsonIteratorCurrentContainerType h (0, 1)%nat = Ok JsonHeapModel.KArray /\ JsonHeapModel.JsonIteratorCurrentContainerType h (0, 2)%nat = Abort /\
  JsonHeapModel.JsonIteratorCurrentPrimitiveType h (0, 2)%nat = Ok JsonModel.PNull /\ JsonHeapModel.JsonGetPropertyAsString h 0 = Ok None.
Proof. destruct PropsJsonHeap.C106_case as (h & R & FO). exists h. eexists. split; [exact FO|]. vm_compute in R. injection R as <-. vm_compute. auto. Qed.
