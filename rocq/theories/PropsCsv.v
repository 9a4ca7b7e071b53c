(** C24: CSV round trip.  C25: CSV files.  C26: CSV parsing of any input. *)
From Verif Require Import Prelude PreludeFacts Str StrFacts Libc LibcFacts MemSpec EditProofs EditProofs2 CsvSpec CsvModel CsvProofs BufProofs.
Set Implicit Arguments.

(** write one record *)
Definition write_fields (c : CsvWriter) (fs : list (list byte)) : CsvWriter := fold_left CsvWriterField fs c.
(** sizes that an int can hold *)
Definition fits (s : list byte) : Prop := (Z.of_nat (length s) < 2147483648)%Z.

(** a field that is written in quotes *)
Definition needs_quotes (s : list byte) : Prop := exists c, In c s /\ (is_quote c \/ is_comma c \/ c = CR \/ c = LF).

Lemma needs_spec s : reflect (needs_quotes s) (strpbrk s [QUOTE; COMMA; CR; LF]).
Proof.
  unfold strpbrk. destruct (existsb (fun c => existsb (beq c) [QUOTE; COMMA; CR; LF]) s) eqn:E; constructor.
  - apply existsb_exists in E as [c [I0 E]]. apply existsb_exists in E as [d [I1 E]]. apply beq_true in E. subst d. exists c. split; [exact I0|].
    cbn in I1. destruct I1 as [<-|[<-|[<-|[<-|[]]]]]; unfold is_quote, is_comma; auto.
  - intros [c [I0 H]]. assert (X : existsb (fun c => existsb (beq c) [QUOTE; COMMA; CR; LF]) s = true); [|congruence].
    apply existsb_exists. exists c. split; [exact I0|]. apply existsb_exists. exists c. split; [|apply beq_refl].
    destruct H as [H|[H|[H|H]]]; rewrite H; cbn; auto.
Qed.
Definition enc (s : list byte) : list byte := if strpbrk s [QUOTE; COMMA; CR; LF] then QUOTE :: double s ++ [QUOTE] else s.
(** the field as written, with what follows it *)
Definition to_field (s post : list byte) : field := if strpbrk s [QUOTE; COMMA; CR; LF] then Quoted [] s post else Plain (s ++ post).

Lemma escape_eq s : forall w, escape_loop w s = w ++ double s.
Proof.
  induction s as [|c s IH]; intros w; [symmetry; apply app_nil_r|]. cbn [escape_loop]. rewrite IH. unfold double. cbn [flat_map].
  change (ascii_of_nat 34) with QUOTE. destruct (beq_spec c QUOTE) as [->|]; rewrite <- ?app_assoc; reflexivity.
Qed.
Lemma field_eq c s : CsvWriterField c s = mkCsvW (cw c ++ (if beginning_of_line c then [] else [COMMA]) ++ enc s) false (terminate_last_line c).
Proof.
  unfold CsvWriterField, enc, WriteCsvEscapedString. f_equal. destruct (beginning_of_line c), (strpbrk s [QUOTE; COMMA; CR; LF]); rewrite ?escape_eq, <- ?app_assoc; cbn [app]; rewrite <- ?app_assoc; reflexivity.
Qed.
Lemma fields_cont fs : forall c, beginning_of_line c = false ->
  write_fields c fs = mkCsvW (cw c ++ concat (map (fun s => COMMA :: enc s) fs)) false (terminate_last_line c).
Proof.
  induction fs as [|s fs IH]; intros c B.
  - destruct c; cbn in *. rewrite app_nil_r, B. reflexivity.
  - unfold write_fields in *. cbn [fold_left map concat]. rewrite IH by (rewrite field_eq; reflexivity). rewrite field_eq. cbn [cw terminate_last_line]. rewrite B.
    cbn [app]. rewrite <- ?app_assoc. cbn [app]. reflexivity.
Qed.
Lemma fields_eq fs c : beginning_of_line c = true -> fs <> [] -> write_fields c fs = mkCsvW (cw c ++ join [COMMA] (map enc fs)) false (terminate_last_line c).
Proof.
  intros B N. destruct fs as [|s fs]; [congruence|]. unfold write_fields. cbn [fold_left]. fold (write_fields (CsvWriterField c s) fs).
  rewrite fields_cont by (rewrite field_eq; reflexivity). rewrite field_eq. cbn [cw terminate_last_line]. rewrite B. cbn [app]. rewrite <- app_assoc. f_equal. f_equal.
  revert s N. induction fs as [|t fs IH]; intros s N; [cbn; apply app_nil_r|]. change (join [COMMA] (map enc (s :: t :: fs))) with (enc s ++ [COMMA] ++ join [COMMA] (map enc (t :: fs))). rewrite <- (IH t) by discriminate. reflexivity.
Qed.

(** the fields of a written record, the last followed by [post] *)
Fixpoint wfields (fs : list (list byte)) (post : list byte) : list field :=
  match fs with [] => [] | [s] => [to_field s post] | s :: r => to_field s [] :: wfields r post end.
Lemma to_field_ok s post : Forall is_blank post -> field_ok (to_field s post).
Proof.
  intros B. unfold to_field. destruct (needs_spec s) as [H|H]; cbn [field_ok]; [split; [constructor|exact B]|].
  apply Forall_app. split; [|apply blanks_free, B]. apply Forall_forall. intros c I0. split; intros K; apply H; exists c; auto.
Qed.
Lemma to_field_text s post : field_text (to_field s post) = enc s ++ post.
Proof. unfold to_field, enc. destruct (strpbrk s _); cbn [field_text app]; rewrite <- ?app_assoc; reflexivity. Qed.
Lemma wfields_record fs post : fs <> [] -> Forall is_blank post -> record (wfields fs post) (join [COMMA] (map enc fs) ++ post).
Proof.
  intros N B. split; [destruct fs as [|a [|b fs]]; [congruence|discriminate|discriminate]|]. split.
  - clear N. induction fs as [|s fs IH]; [constructor|]. cbn [wfields]. destruct fs as [|t fs]; constructor; auto using to_field_ok.
  - unfold record_text. induction fs as [|s fs IH]; [congruence|]. destruct fs as [|t fs].
    + cbn [wfields map join]. symmetry. apply to_field_text.
    + change (wfields (s :: t :: fs) post) with (to_field s [] :: wfields (t :: fs) post).
      change (join [COMMA] (map enc (s :: t :: fs))) with (enc s ++ [COMMA] ++ join [COMMA] (map enc (t :: fs))). rewrite <- !app_assoc.
      rewrite IH by discriminate. cbn [map]. rewrite to_field_text, app_nil_r.
      destruct (wfields (t :: fs) post) as [|x y] eqn:E; [destruct fs; discriminate E|]. reflexivity.
Qed.
Lemma without_crlf_app s : without_crlf (s ++ CRLF) = s.
Proof.
  unfold without_crlf. rewrite app_length. cbn [length CRLF]. replace (length s + 2 - 2) with (length s) by lia.
  rewrite skipn_app_ge, firstn_app_le by lia. rewrite Nat.sub_diag, firstn_all. cbn [skipn]. reflexivity.
Qed.
Lemma without_crlf_plain s : ~ needs_quotes s -> without_crlf s = s.
Proof.
  intros N. unfold without_crlf. cbv zeta. destruct (bytes_eqb _ _) eqn:E; [|reflexivity]. exfalso. apply bytes_eqb_eq in E. apply N.
  exists CR. split; [|auto]. rewrite <- (firstn_skipn (length s - 2) s), E. apply in_or_app. right. left. reflexivity.
Qed.
Lemma wfields_values fs post : post = [] \/ post = CRLF -> values (wfields fs post) = fs.
Proof.
  intros P. induction fs as [|s fs IH]; [reflexivity|]. cbn [wfields]. destruct fs as [|t fs].
  - cbn [values]. unfold to_field. destruct (needs_spec s) as [H|H]; [reflexivity|]. destruct P as [-> | -> ].
    + rewrite app_nil_r, without_crlf_plain by exact H. reflexivity.
    + rewrite without_crlf_app. reflexivity.
  - destruct (wfields (t :: fs) post) as [|x y] eqn:E; [destruct fs; discriminate E|].
    change (values (to_field s [] :: x :: y)) with (field_value (to_field s []) :: values (x :: y)). rewrite IH. f_equal.
    unfold to_field. destruct (strpbrk s _); cbn; [reflexivity|apply app_nil_r].
Qed.

Lemma one_blank_record fs : forall s, record fs s -> one_blank s -> exists us pre b x vs, fs = us ++ Quoted pre b [x] :: vs /\ vs <> [].
Proof.
  assert (RC : forall f fs, record_text (f :: fs) = field_text f ++ match fs with [] => [] | _ => COMMA :: record_text fs end).
  { intros f [|g gs]; unfold record_text; cbn [map join]; [rewrite app_nil_r; reflexivity|reflexivity]. }
  assert (ST : forall fs, stops (match fs with [] => [] | _ => COMMA :: record_text fs end)) by (intros [|? ?]; cbn; auto; reflexivity).
  induction fs as [|f fs IH]; intros s [N [O E]] [ds [pre [b [x [t [Ods [Of Es]]]]]]]; [congruence|].
  inversion_clear O as [|? ? O1 O2]. rewrite E, RC in Es. destruct ds as [|d ds].
  - cbn [app] in Es. destruct (@field_unique _ _ _ (COMMA :: t) O1 Of (ST fs) eq_refl Es) as [-> Er].
    exists [], pre, b, x, fs. split; [reflexivity|]. intros ->. discriminate Er.
  - inversion_clear Ods as [|? ? Od Ods']. unfold pfx in Es. cbn [map concat] in Es. fold (pfx ds) in Es. rewrite <- ?app_assoc in Es. cbn [app] in Es.
    match type of Es with _ = _ ++ ?R => destruct (@field_unique f d _ R O1 Od (ST fs) eq_refl Es) as [<- Er] end.
    destruct fs as [|g fs]; [discriminate Er|]. injection Er as Er.
    destruct (IH (record_text (g :: fs))) as [us [pre' [b' [x' [vs [Ef Nv]]]]]].
    + split; [discriminate|]. auto.
    + exists ds, pre, b, x, t. split; [exact Ods'|]. split; [exact Of|exact Er].
    + exists (f :: us), pre', b', x', vs. rewrite Ef. auto.
Qed.
Lemma wfields_no_one_blank fs post s : record (wfields fs post) s -> ~ one_blank s.
Proof.
  intros R OB. destruct (one_blank_record R OB) as [us [pre [b [x [vs [E N]]]]]]. clear R OB. revert us E. induction fs as [|f fs IH]; intros us E; [destruct us; discriminate E|].
  cbn [wfields] in E. destruct fs as [|g fs].
  - destruct us as [|u us]; cbn [app] in E; injection E as E1 E2; [congruence|destruct us; discriminate E2].
  - destruct us as [|u us]; cbn [app] in E.
    + injection E as E1 _. unfold to_field in E1. destruct (strpbrk f _); discriminate E1.
    + injection E as _ E2. exact (IH us E2).
Qed.
Lemma wfields_empty fs post : post <> [] -> ~ empty_after_quoted (wfields fs post).
Proof.
  intros P [ds [pre [b [q E]]]]. revert ds E. induction fs as [|f fs IH]; intros ds E; [destruct ds; discriminate E|]. cbn [wfields] in E. destruct fs as [|g fs].
  - destruct ds as [|d [|e ds]]; discriminate E.
  - destruct ds as [|d ds].
    + cbn [app] in E. injection E as _ E. destruct fs as [|h fs]; [|destruct fs; discriminate E]. cbn in E. injection E as E. unfold to_field in E.
      destruct (strpbrk g _); [discriminate E|]. injection E as E. apply app_eq_nil in E as [_ E]. contradiction.
    + cbn [app] in E. injection E as _ E. exact (IH ds E).
Qed.
Lemma wfields_empty2 fs : empty_after_quoted (wfields fs []) -> exists ds q, fs = ds ++ [q; []] /\ needs_quotes q.
Proof.
  intros [ds [pre [b [q E]]]]. revert ds E. induction fs as [|f fs IH]; intros ds E; [destruct ds; discriminate E|]. cbn [wfields] in E. destruct fs as [|g fs].
  - destruct ds as [|d [|e ds]]; discriminate E.
  - destruct ds as [|d ds].
    + cbn [app] in E. injection E as E1 E. destruct fs as [|h fs]; [|destruct fs; discriminate E]. cbn in E. injection E as E. unfold to_field in E, E1.
      destruct (strpbrk g _); [discriminate E|]. injection E as E. rewrite app_nil_r in E. subst g. exists [], f. split; [reflexivity|].
      destruct (needs_spec f); [assumption|discriminate E1].
    + cbn [app] in E. injection E as _ E. destruct (IH ds E) as [ds' [q' [-> Nq]]]. exists (f :: ds'), q'. auto.
Qed.
Lemma double_cstr s : is_cstr s -> is_cstr (double s).
Proof. intros C I0. unfold double in I0. apply in_flat_map in I0 as [c [I1 I2]]. apply C. destruct (beq c _); cbn in I2; [destruct I2 as [<-|[<-|[]]]|destruct I2 as [<-|[]]]; exact I1. Qed.
Lemma enc_cstr s : is_cstr s -> is_cstr (enc s).
Proof.
  intros C. unfold enc. destruct (strpbrk s _); [|exact C]. apply is_cstr_cons. split; [discriminate|]. apply is_cstr_app. split; [apply double_cstr, C|].
  apply is_cstr_cons. split; [discriminate|intros []].
Qed.
Lemma line_cstr fs : Forall is_cstr fs -> is_cstr (join [COMMA] (map enc fs)).
Proof.
  induction 1 as [|s fs C F IH]; [intros []|]. destruct fs as [|t fs]; [apply enc_cstr, C|]. cbn [map join]. apply is_cstr_app. split; [apply enc_cstr, C|].
  cbn [app]. apply is_cstr_cons. split; [discriminate|exact IH].
Qed.
Lemma crlf_blank : Forall is_blank CRLF.
Proof. constructor; [right; right; right; reflexivity|]. constructor; [right; right; left; reflexivity|constructor]. Qed.
Lemma crlf_cstr : is_cstr CRLF.
Proof. apply is_cstr_cons. split; [discriminate|]. apply is_cstr_cons. split; [discriminate|intros []]. Qed.

(** * C24 *)
(** Whatever strings are written as the fields of a record, parsing the line gives
    them back. *)
Theorem C24_round_trip fs : fs <> [] -> Forall is_cstr fs -> 
  let line := CsvWriterClose (write_fields (CsvWriterOpen []) fs) in
  fits line -> SeqParseCsvString line = Ok (Some fs).
Proof.
  intros N C line F. assert (E : line = join [COMMA] (map enc fs) ++ CRLF) by (unfold line; rewrite fields_eq by auto; reflexivity).
  rewrite E in *. clear line E.
  pose proof (@wfields_record fs CRLF N crlf_blank) as R.
  destruct (@parse_ok (join [COMMA] (map enc fs) ++ CRLF)) as [P _]; [apply is_cstr_app; split; [apply line_cstr, C|exact crlf_cstr]|exact F|exact (@wfields_no_one_blank _ _ _ R)|].
  rewrite (P _ R); [|apply wfields_empty; discriminate]. rewrite wfields_values by auto. reflexivity.
Qed.
(** The same without the final CRLF, unless the last field is empty and the one before
    it needed quotes. *)
Theorem C24_unterminated fs : fs <> [] -> Forall is_cstr fs -> ~ (exists ds q, fs = ds ++ [q; []] /\ needs_quotes q) ->
  let line := CsvWriterClose (write_fields (CsvWriterOpenSpecifyTerminate [] false) fs) in
  fits line -> SeqParseCsvString line = Ok (Some fs).
Proof.
  intros N C NE line F. assert (E : line = join [COMMA] (map enc fs) ++ []) by (unfold line; rewrite fields_eq by auto; cbn; rewrite app_nil_r; reflexivity).
  rewrite E in *. clear line E.
  pose proof (@wfields_record fs [] N (Forall_nil _)) as R.
  destruct (@parse_ok (join [COMMA] (map enc fs) ++ [])) as [P _]; [apply is_cstr_app; split; [apply line_cstr, C|intros []]|exact F|exact (@wfields_no_one_blank _ _ _ R)|].
  rewrite (P _ R); [|intros K; apply NE, wfields_empty2, K]. rewrite wfields_values by auto. reflexivity.
Qed.
(** in that case the empty field comes back as a copy of the field before it *)
Theorem C24_unterminated_refuted : let fs := [lit "a,b"; []] in
  SeqParseCsvString (CsvWriterClose (write_fields (CsvWriterOpenSpecifyTerminate [] false) fs)) = Ok (Some [lit "a,b"; lit "a,b"]).
Proof. reflexivity. Qed.
Example C24_example : let fs := [lit " x "; []; [QUOTE; QUOTE]; lit "a,b"; CRLF; []] in
  fs <> [] /\ Forall is_cstr fs /\ fits (CsvWriterClose (write_fields (CsvWriterOpen []) fs)).
Proof.
  split; [discriminate|]. split; [|reflexivity]. repeat constructor; intros H; cbn in H; repeat (destruct H as [H|H]; [discriminate H|]); exact H.
Qed.

(** * C25 *)
(** reading a file line by line with GetCsvLineNext yields these lines *)
Inductive reads : list byte -> list (list byte) -> Prop :=
| reads_end fp fp' : GetCsvLineNext fp = (None, fp') -> reads fp []
| reads_line fp l fp' ls : GetCsvLineNext fp = (Some l, fp') -> reads fp' ls -> reads fp (l :: ls).
(** write records, each ended by CsvWriterNewRecord *)
Definition write_records (c : CsvWriter) (rs : list (list (list byte))) : CsvWriter :=
  fold_left (fun c r => CsvWriterNewRecord (write_fields c r)) rs c.

Lemma ll_plain t : Forall (fun c => c <> QUOTE /\ c <> LF) t -> forall buf prev q rest, exists p',
  line_loop buf prev q (t ++ rest) = line_loop (buf ++ t) p' q rest.
Proof.
  induction 1 as [|c t [N1 N2] F IH]; intros buf prev q rest.
  - exists prev. cbn. rewrite app_nil_r. reflexivity.
  - cbn [app line_loop]. apply beq_false in N1, N2. rewrite N1, N2, andb_false_r. cbn [andb]. destruct (IH (buf ++ [c]) c q rest) as [p' E]. exists p'. rewrite E, <- app_assoc. reflexivity.
Qed.
Lemma ll_quoted b : forall buf prev rest, line_loop buf prev true (double b ++ QUOTE :: rest) = line_loop (buf ++ double b ++ [QUOTE]) QUOTE false rest.
Proof.
  induction b as [|c b IH]; intros buf prev rest.
  - reflexivity.
  - unfold double. cbn [flat_map]. fold (double b). change (ascii_of_nat 34) with QUOTE. destruct (beq_spec c QUOTE) as [->|N].
    + rewrite <- ?app_assoc. cbn [app line_loop]. rewrite beq_refl. cbn [negb]. rewrite IH, <- ?app_assoc. reflexivity.
    + rewrite <- ?app_assoc. cbn [app line_loop]. apply beq_false in N. rewrite N. cbn [negb andb]. rewrite IH, <- ?app_assoc. reflexivity.
Qed.
Lemma ll_enc s buf prev rest : exists p', line_loop buf prev false (enc s ++ rest) = line_loop (buf ++ enc s) p' false rest.
Proof.
  unfold enc. destruct (needs_spec s) as [H|H].
  - exists QUOTE. cbn [app line_loop]. rewrite beq_refl. cbn [negb]. rewrite <- app_assoc. cbn [app]. rewrite ll_quoted, <- ?app_assoc. reflexivity.
  - apply ll_plain. apply Forall_forall. intros c I0. split; intros ->; apply H; [exists QUOTE; split; [exact I0|left; reflexivity]|exists LF; auto].
Qed.
Lemma ll_line fs : forall buf prev rest, exists p', line_loop buf prev false (join [COMMA] (map enc fs) ++ rest) = line_loop (buf ++ join [COMMA] (map enc fs)) p' false rest.
Proof.
  induction fs as [|s fs IH]; intros buf prev rest.
  - exists prev. cbn. rewrite app_nil_r. reflexivity.
  - destruct fs as [|t fs]; [apply ll_enc|].
    change (join [COMMA] (map enc (s :: t :: fs))) with (enc s ++ [COMMA] ++ join [COMMA] (map enc (t :: fs))). rewrite <- ?app_assoc.
    destruct (ll_enc s buf prev ([COMMA] ++ join [COMMA] (map enc (t :: fs)) ++ rest)) as [p1 E1]. rewrite E1.
    destruct (IH ((buf ++ enc s) ++ [COMMA]) COMMA rest) as [p2 E2]. exists p2.
    change (line_loop (buf ++ enc s) p1 false ([COMMA] ++ join [COMMA] (map enc (t :: fs)) ++ rest)) with (line_loop ((buf ++ enc s) ++ [COMMA]) COMMA false (join [COMMA] (map enc (t :: fs)) ++ rest)).
    rewrite E2, <- ?app_assoc. reflexivity.
Qed.
Definition line_of (r : list (list byte)) : list byte := join [COMMA] (map enc r) ++ CRLF.
Lemma getline r rest : Forall is_cstr r -> GetCsvLineNext (line_of r ++ rest) = (Some (line_of r), rest).
Proof.
  intros C. unfold GetCsvLineNext, line_of. rewrite <- app_assoc. destruct (ll_line r [] NUL (CRLF ++ rest)) as [p' E]. rewrite E. cbn [app CRLF line_loop].
  change (beq CR QUOTE) with false. change (beq CR LF) with false. change (beq LF QUOTE) with false. change (beq LF LF) with true. change (beq CR CR) with true. cbn [negb andb].
  rewrite <- app_assoc. cbn [app]. replace (length (join [COMMA] (map enc r) ++ [CR; LF]) =? 0) with false by (symmetry; apply Nat.eqb_neq; rewrite app_length; cbn; lia).
  rewrite upto_nul_id; [reflexivity|]. apply is_cstr_app. split; [apply line_cstr, C|exact crlf_cstr].
Qed.
Lemma records_eq rs : forall c, beginning_of_line c = true ->
  write_records c rs = mkCsvW (cw c ++ concat (map line_of rs)) true (terminate_last_line c).
Proof.
  induction rs as [|r rs IH]; intros c B.
  - destruct c; cbn in *. rewrite app_nil_r, B. reflexivity.
  - unfold write_records in *. cbn [fold_left map concat]. rewrite IH by reflexivity. unfold CsvWriterNewRecord. cbn [cw terminate_last_line].
    destruct r as [|f r].
    + cbn. rewrite <- ?app_assoc. reflexivity.
    + rewrite fields_eq by (auto; discriminate). cbn [cw terminate_last_line]. unfold line_of. rewrite <- ?app_assoc. reflexivity.
Qed.
(** A file of records written by a CsvWriter is read back line by line, each line being
    one record even if fields contain CRLF, and each line parses to its record. *)
Theorem C25_records rs : Forall (Forall is_cstr) rs -> Forall (fun r => r <> []) rs ->
  Forall (fun r => fits (CsvWriterClose (write_fields (CsvWriterOpen []) r))) rs -> exists ls,
  reads (CsvWriterClose (write_records (CsvWriterOpen []) rs)) ls /\
  Forall2 (fun l r => SeqParseCsvString l = Ok (Some r)) ls rs.
Proof.
  intros C N F. exists (map line_of rs). rewrite records_eq by reflexivity. unfold CsvWriterClose at 1. cbn [beginning_of_line negb andb cw CsvWriterOpen CsvWriterOpenSpecifyTerminate app].
  split.
  - clear N F. induction C as [|r rs Cr C IH]; cbn [map concat].
    + eapply reads_end. reflexivity.
    + eapply reads_line; [apply getline, Cr|exact IH].
  - induction C as [|r rs Cr C IH]; cbn [map concat] in *; [constructor|]. inversion_clear N as [|? ? Nr N']. inversion_clear F as [|? ? Fr F'].
    constructor; [|apply IH; assumption].
    pose proof (@C24_round_trip r Nr Cr) as X. cbv zeta in X. specialize (X Fr). rewrite fields_eq in X by auto. exact X.
Qed.
(** the last record may be left to CsvWriterClose, with or without its CRLF *)
Theorem C25_last_record rs r terminate : Forall (Forall is_cstr) (rs ++ [r]) -> r <> [] -> r <> [[]] ->
  reads (CsvWriterClose (write_fields (write_records (CsvWriterOpenSpecifyTerminate [] terminate) rs) r))
        (map line_of rs ++ [join [COMMA] (map enc r) ++ if terminate then CRLF else []]).
Proof.
  intros C N N1. rewrite records_eq by reflexivity. rewrite fields_eq by auto. unfold CsvWriterClose.
  cbn [beginning_of_line negb andb cw terminate_last_line CsvWriterOpenSpecifyTerminate app].
  replace (if terminate then (concat (map line_of rs) ++ join [COMMA] (map enc r)) ++ CRLF else concat (map line_of rs) ++ join [COMMA] (map enc r))
    with (concat (map line_of rs) ++ join [COMMA] (map enc r) ++ (if terminate then CRLF else [])) by (destruct terminate; rewrite <- ?app_assoc, ?app_nil_r; reflexivity).
  apply Forall_app in C as [C Cr]. inversion_clear Cr as [|? ? Cr' _]. induction C as [|r' rs' Cr C IH]; cbn [map concat app].
  - destruct terminate.
    + apply reads_line with (fp' := []); [|eapply reads_end; reflexivity]. pose proof (@getline r [] Cr') as X. rewrite app_nil_r in X. exact X.
    + rewrite app_nil_r. apply reads_line with (fp' := []); [|eapply reads_end; reflexivity]. unfold GetCsvLineNext.
      destruct (ll_line r [] NUL []) as [p' E]. rewrite app_nil_r in E. rewrite E. cbn [line_loop app].
      replace (length (join [COMMA] (map enc r)) =? 0) with false.
      * rewrite upto_nul_id by (apply line_cstr, Cr'). reflexivity.
      * symmetry. apply Nat.eqb_neq. destruct r as [|f [|g r]]; [congruence| |cbn; rewrite app_length; cbn; lia]. cbn [map join]. unfold enc.
        destruct (strpbrk f _); [cbn; lia|]. destruct f; [congruence|cbn; lia].
  - rewrite <- app_assoc. eapply reads_line; [apply getline, Cr|exact IH].
Qed.
Example C25_example : let rs := [[lit "a"; CRLF]; [lit "b"]] in Forall (fun r => r <> []) rs /\
  reads (CsvWriterClose (write_records (CsvWriterOpen []) rs)) [lit "a," ++ [QUOTE; CR; LF; QUOTE; CR; LF]; lit "b" ++ CRLF].
Proof.
  split; [repeat constructor; discriminate|]. eapply reads_line; [reflexivity|]. eapply reads_line; [reflexivity|]. eapply reads_end. reflexivity.
Qed.

(** * C26 *)
(** One blank between a closing quote and a comma: [one_blank]; elsewhere the parser is
    free of undefined behaviour, *)
Theorem C26_no_stale_read_partial s : is_cstr s -> fits s -> ~ one_blank s -> exists o, SeqParseCsvString s = Ok o.
Proof. intros C F N. apply (@parse_ok s C F N). Qed.
(** accepts every record with exactly its values, except that an empty last field after
    a quoted one gets the value of that one, *)
Theorem C26_records_partial s fs : is_cstr s -> fits s -> ~ one_blank s -> record fs s -> ~ empty_after_quoted fs ->
  SeqParseCsvString s = Ok (Some (values fs)).
Proof. intros C F N R E. destruct (@parse_ok s C F N) as [P _]. exact (P fs R E). Qed.
Theorem C26_empty_after_quoted_refuted s ds pre b post : is_cstr s -> fits s -> ~ one_blank s -> record (ds ++ [Quoted pre b post; Plain []]) s ->
  SeqParseCsvString s = Ok (Some (map field_value ds ++ [b; b])).
Proof. intros C F N R. destruct (@parse_ok s C F N) as [_ [P _]]. exact (P _ _ _ _ R). Qed.
(** refuses text that ends inside quotes, *)
Theorem C26_unclosed s : is_cstr s -> fits s -> ~ one_blank s -> viable s -> ~ (exists fs, record fs s) -> SeqParseCsvString s = Ok None.
Proof. intros C F N V R. destruct (@parse_ok s C F N) as [_ [_ [P _]]]. exact (P V R). Qed.
(** and refuses any text that goes wrong before its last character. *)
Theorem C26_malformed_partial a c b : is_cstr (a ++ c :: b) -> fits (a ++ c :: b) -> ~ one_blank (a ++ c :: b) -> ~ viable a ->
  SeqParseCsvString (a ++ c :: b) = Ok None.
Proof. intros C F N V. destruct (@parse_ok (a ++ c :: b) C F N) as [_ [_ [_ [P _]]]]. exact (P a c b eq_refl V). Qed.
(** a record has only one reading, so [values] is well defined on texts *)
Theorem C26_unambiguous fs fs' s : record fs s -> record fs' s -> fs = fs'.
Proof. apply record_unique. Qed.

(** text that goes wrong at its last character is accepted, and the field is lost *)
Theorem C26_error_at_end_refuted : ~ viable (lit "ab" ++ [QUOTE]) /\ SeqParseCsvString (lit "ab" ++ [QUOTE]) = Ok (Some [[]]).
Proof. split; [apply error_not_viable; reflexivity|reflexivity]. Qed.
(** a single blank after the quotes reads memory that was never written, *)
Theorem C26_one_blank_refuted : SeqParseCsvString ([QUOTE] ++ lit "ab" ++ [QUOTE] ++ lit " ,c") = UB.
Proof. reflexivity. Qed.
(** or the rest of an earlier field *)
Theorem C26_one_blank_stale_refuted :
  SeqParseCsvString ([QUOTE] ++ lit "abc" ++ [QUOTE] ++ lit "," ++ [QUOTE] ++ lit "d" ++ [QUOTE] ++ lit " ,x") = Ok (Some [lit "abc"; lit "dbc"; lit "x"]).
Proof. reflexivity. Qed.
(** the hypotheses of the theorems above are met *)
Example C26_example : record [Plain (lit " a"); Quoted (lit " ") [QUOTE; COMMA] (lit "  "); Plain (lit "b")] (lit " a, " ++ [QUOTE; QUOTE; QUOTE; COMMA; QUOTE] ++ lit "  ,b").
Proof.
  split; [discriminate|]. split; [|reflexivity].
  constructor; [|constructor; [|constructor; [|constructor]]].
  - repeat constructor; intros H; discriminate H.
  - split; repeat (constructor; [left; reflexivity|]); constructor.
  - repeat constructor; intros H; discriminate H.
Qed.
Example C26_example_unclosed : viable [QUOTE; "a"%char] /\ ~ (exists fs, record fs [QUOTE; "a"%char]).
Proof.
  split.
  - exists [QUOTE], [Quoted [] (lit "a") []]. split; [discriminate|]. split; [repeat constructor|reflexivity].
  - intros [fs R]. apply run_record in R. exact R.
Qed.
