(** C129 (the help text lists every option and command), C130 (so does the manual page). *)
From Verif Require Import Prelude PreludeFacts Str StrFacts Libc LibcFacts MemSpec InetModel EditModel EditProofs NumSpec NumProofs WriterModel PropsWriter HelpModel.
From Verif Require PropsAddrinfo PropsEdit.
Set Implicit Arguments.

(** * What the caller describes *)
(** an option: its name, whether it takes a value, its one-letter form, its hint *)
Record opt := mkOpt { name : list byte; value : bool; short : option byte; hint : list byte }.
(** a command: its name, what it does, how it is called *)
Record cmd := mkCmd { cname : list byte; does : list byte; usage : list byte }.

(** a text that can be printed: no NUL, at most 10^9 bytes *)
Definition text (s : list byte) : Prop := is_cstr s /\ (N.of_nat (length s) <= 1000000000)%N.

(** entry [o] of the option array with hint [h] describes [x]: a one-letter form is a value in 1..127,
    values from 128 stand for options without one *)
Definition describes (o : option_t) (h : option (list byte)) (x : opt) : Prop :=
  oname o = Some (name x) /\ (ohas_arg o <> 0%Z <-> value x = true) /\ h = Some (hint x) /\
  match short x with Some c => (0 < code c < 128)%N /\ oval o = Z.of_N (code c) | None => (128 <= oval o)%Z end.
(** the two arrays of the caller: the options end at the first entry without a name,
    what is behind does not matter; there are hints for all options *)
Inductive option_table : list option_t -> list (option (list byte)) -> list opt -> Prop :=
| ot_end e rest hints : oname e = None -> option_table (e :: rest) hints []
| ot_next o h x options hints xs : describes o h x -> text (name x) -> text (hint x) -> option_table options hints xs ->
    option_table (o :: options) (h :: hints) (x :: xs).
Inductive command_table : list Description -> list cmd -> Prop :=
| ct_end e rest : dname e = None -> command_table (e :: rest) []
| ct_next d x ds xs : dname d = Some (cname x) -> ddescription d = Some (does x) -> dusage d = Some (usage x) ->
    text (cname x) -> text (does x) -> text (usage x) -> command_table ds xs -> command_table (d :: ds) (x :: xs).
Definition commands_table (ds : option (list Description)) (xs : option (list cmd)) : Prop :=
  match ds, xs with Some ds, Some xs => command_table ds xs | None, None => True | _, _ => False end.

(** * What is to be printed *)
(** [s] in a column of [n] characters: followed by blanks if it is shorter *)
Definition column (n : nat) (s : list byte) : list byte := s ++ repeat " "%char (n - length s).
Definition short_text (x : opt) : list byte := match short x with Some c => lit ", -" ++ [c] | None => [] end.
Definition option_line (x : opt) : list byte :=
  lit "  --" ++ column 12 (name x) ++ (if value x then short_text x ++ lit " value" else column 10 (short_text x)) ++ lit " - " ++ hint x.
Definition command_lines (x : cmd) : list (list byte) :=
  [lit "  " ++ column 12 (cname x) ++ lit " - " ++ does x ++ lit "."; lit "                 Usage: " ++ usage x].
Definition command_section (xs : list cmd) : list (list byte) := [[]; lit "Commands:"] ++ concat (map command_lines xs).
Definition option_section (xs : list opt) : list (list byte) := [[]; lit "Options:"] ++ map option_line xs.
Definition usage_line (component : list byte) (commands : option (list cmd)) (first file : bool) : list byte :=
  lit "Usage: " ++ component
  ++ match commands, first with
     | None, _ => lit " [OPTIONS]"
     | Some _, true => lit " COMMAND [OPTIONS]"
     | Some _, false => lit " [OPTIONS] COMMAND"
     end ++ (if file then lit " [FILE]" else []).
Definition closing_lines : list (list byte) :=
  [[]; lit "Website: http://www.cfengine.com"; lit "This software is Copyright (C) 2008,2010-present Northern.tech AS."].
Definition help_lines (component : list byte) (xs : list opt) (commands : option (list cmd)) (first file : bool) : list (list byte) :=
  [usage_line component commands first file]
  ++ match commands, first with Some cs, true => command_section cs | _, _ => [] end
  ++ option_section xs
  ++ match commands, first with Some cs, false => command_section cs | _, _ => [] end
  ++ closing_lines.

(** * Writing *)
Definition same_kind (w w' : Writer) : Prop := match w, w' with WT_STRING _, WT_STRING _ | WT_FILE _, WT_FILE _ => True | _, _ => False end.
(** [f] adds the text [t] to any writer *)
Definition writes (f : Writer -> res Writer) (t : list byte) : Prop := is_cstr t /\
  forall w s, wholds w s -> exists w', f w = Ok w' /\ wholds w' (s ++ t) /\ same_kind w w'.

Lemma writes_ret : writes (fun w => Ok w) [].
Proof. split; [intros []|]. intros w s H. exists w. rewrite app_nil_r. split; [reflexivity|]. split; [exact H|]. destruct w; exact Logic.I. Qed.
Lemma writes_bind f g a b : writes f a -> writes g b -> writes (fun w => let* w := f w in g w) (a ++ b).
Proof.
  intros [FC F] [GC G]. split; [apply is_cstr_app; split; assumption|]. intros w s H. destruct (F w s H) as [w1 [E1 [H1 K1]]]. destruct (G w1 _ H1) as [w2 [E2 [H2 K2]]]. exists w2.
  rewrite E1. cbn [bind]. rewrite app_assoc. split; [exact E2|]. split; [exact H2|]. destruct w, w1, w2; cbn in *; tauto.
Qed.
Lemma writes_ok {A} (a : A) (f : A -> Writer -> res Writer) t : writes (f a) t -> writes (fun w => let* x := Ok a in f x w) t.
Proof. intros F. exact F. Qed.
Lemma writes_eq f a b : writes f a -> a = b -> writes f b.
Proof. intros F <-. exact F. Qed.
Definition fits (t : list byte) : Prop := is_cstr t /\ (N.of_nat (length t) <= 2147483647)%N.
Lemma writes_fmt t : fits t -> writes (fun w => fmt w t) t.
Proof.
  intros L. split; [apply L|]. intros w s H. destruct (@wcall_ok w s (WF t) H L) as [w' [E [H' K]]]. exists w'. unfold fmt. cbn [wcall] in E. rewrite E. cbn [bind]. auto.
Qed.
Lemma writes_put t : fits t -> writes (fun w => put_text w t) t.
Proof.
  intros L. split; [apply L|]. intros w s H. destruct (@wcall_ok w s (WWrite t) H L) as [w' [E [H' K]]]. exists w'. unfold put_text. cbn [wcall] in E. rewrite E. cbn [bind]. auto.
Qed.

Definition cstrb (s : list byte) : bool := forallb (fun c => negb (beq c NUL)) s.
Lemma cstrb_ok s : cstrb s = true -> is_cstr s.
Proof. intros H I. unfold cstrb in H. rewrite forallb_forall in H. apply H in I. rewrite negb_true_iff in I. discriminate I. Qed.
Lemma blanks_cstr n : is_cstr (repeat " "%char n).
Proof. intros I. apply repeat_spec in I. discriminate I. Qed.
Ltac cstr := repeat (apply is_cstr_app; split); first [assumption | apply blanks_cstr | apply cstrb_ok; reflexivity | idtac].
Lemma N_length_lit s k : (N.of_nat (@length byte s) =? k)%N = true -> N.of_nat (length s) = k.
Proof. apply N.eqb_eq. Qed.

Lemma lines_app a b : lines (a ++ b) = lines a ++ lines b.
Proof. unfold lines. rewrite map_app, concat_app. reflexivity. Qed.
Lemma lines_cons a b : lines (a :: b) = a ++ [LF] ++ lines b.
Proof. unfold lines. cbn [map concat]. rewrite <- app_assoc. reflexivity. Qed.
Lemma lines_nil : lines [] = [].
Proof. reflexivity. Qed.

Lemma elem_mid {A} (pre : list A) x post : elem (pre ++ x :: post) (length pre) = Ok x.
Proof. unfold elem. rewrite nth_error_app2, Nat.sub_diag by lia. reflexivity. Qed.

Lemma char_of_code c : (0 < code c < 128)%N -> to_char (Z.of_N (code c)) = c.
Proof.
  intros H. unfold to_char. rewrite Z.mod_small by lia. rewrite N2Z.id. apply ascii_N_embedding.
Qed.
Lemma code_not_NUL c : (0 < code c < 128)%N -> c <> NUL.
Proof. intros H ->. vm_compute in H. destruct H; discriminate. Qed.

(** the array short_option after the test *)
Lemma short_ok (o : option_t) h x : describes o h x ->
  (let* m := if (oval o <? 128)%Z then aset (block (lit ", -*")) 3 (to_char (oval o)) else aset (block (lit ", -*")) 0 NUL in mstr m) = Ok (short_text x) /\
  is_cstr (short_text x) /\ length (short_text x) <= 4.
Proof.
  intros [_ [_ [_ D]]]. unfold short_text. destruct (short x) as [c|].
  - destruct D as [B E]. rewrite E. destruct (Z.ltb_spec (Z.of_N (code c)) 128); [|lia]. rewrite char_of_code by exact B.
    pose proof (code_not_NUL B) as N. split; [|split; [|cbn; lia]].
    + change (aset (block (lit ", -*")) 3 c) with (Ok (block (lit ", -" ++ [c]))). cbn [bind].
      apply mstr_holds. split; [|exists []; rewrite block_eq; reflexivity]. apply is_cstr_app. split; [apply cstrb_ok; reflexivity|]. apply is_cstr_cons. split; [exact N|intros []].
    + apply is_cstr_app. split; [apply cstrb_ok; reflexivity|]. apply is_cstr_cons. split; [exact N|intros []].
  - destruct (Z.ltb_spec (oval o) 128); [lia|]. split; [reflexivity|]. split; [intros []|cbn; lia].
Qed.

Lemma fits_intro t : is_cstr t -> (N.of_nat (length t) <= 2147483647)%N -> fits t.
Proof. intros C L. split; assumption. Qed.
Ltac len := unfold column, padded; rewrite ?app_length, ?repeat_length;
  repeat match goal with |- context [length (lit ?s)] => let n := eval vm_compute in (length (lit s)) in change (length (lit s)) with n end;
  cbn [length]; lia.

Lemma options_ok options hints xs : option_table options hints xs -> forall fuel po ph, length po = length ph -> length xs < fuel ->
  writes (fun w => options_loop fuel w (po ++ options) (ph ++ hints) (length po)) (lines (map option_line xs)).
Proof.
  induction 1 as [e rest hints E|o h x options hints xs D TN TH T IH]; intros fuel po ph L F; (destruct fuel as [|fuel]; [cbn in F; lia|]); cbn [options_loop].
  - rewrite elem_mid. cbn [bind]. rewrite E. apply writes_ret.
  - rewrite elem_mid. cbn [bind]. destruct (short_ok D) as [SH [SC SL]]. destruct D as [DN [DV [DH _]]]. rewrite DN.
    replace (elem (ph ++ h :: hints) (length po)) with (Ok h) by (rewrite L; symmetry; apply elem_mid). cbn [bind]. rewrite DH. cbn [str bind].
    destruct (if (oval o <? 128)%Z then aset (block (lit ", -*")) 3 (to_char (oval o)) else aset (block (lit ", -*")) 0 NUL) as [m| | |];
      cbn [bind] in SH |- *; try discriminate SH. rewrite SH. cbn [bind].
    destruct TN as [TN1 TN2], TH as [TH1 TH2].
    cbn [map]. rewrite lines_cons.
    assert (NEXT : writes (fun w => options_loop fuel w (po ++ o :: options) (ph ++ Some (hint x) :: hints) (S (length po))) (lines (map option_line xs))).
    { specialize (IH fuel (po ++ [o]) (ph ++ [Some (hint x)])). rewrite !app_length, <- !app_assoc in IH. cbn [length app] in IH.
      rewrite !Nat.add_1_r in IH. apply IH; [lia|cbn in F; lia]. }
    assert (FIRST : writes (fun w => if (ohas_arg o =? 0)%Z
        then fmt w (lit "  --" ++ padded 12 (name x) ++ padded 10 (short_text x) ++ lit " - " ++ hint x ++ [LF])
        else fmt w (lit "  --" ++ padded 12 (name x) ++ short_text x ++ lit " value - " ++ hint x ++ [LF])) (option_line x ++ [LF])).
    { unfold option_line. destruct (Z.eqb_spec (ohas_arg o) 0) as [Z0|Z0].
      - assert (V : value x = false). { destruct (value x); [|reflexivity]. exfalso. apply (proj2 DV eq_refl). exact Z0. } rewrite V.
        eapply writes_eq; [apply writes_fmt|unfold column, padded; repeat rewrite <- app_assoc; reflexivity].
        apply fits_intro; [unfold padded; cstr|len].
      - apply DV in Z0. rewrite Z0.
        eapply writes_eq; [apply writes_fmt|unfold column, padded; repeat rewrite <- app_assoc; reflexivity].
        apply fits_intro; [unfold padded; cstr|len]. }
    eapply writes_eq; [exact (writes_bind FIRST NEXT)|]. rewrite <- app_assoc. reflexivity.
Qed.
Lemma table_length options hints xs : option_table options hints xs -> length xs < length options.
Proof. induction 1; cbn; lia. Qed.
Lemma WriterWriteOptions_ok options hints xs : option_table options hints xs ->
  writes (fun w => WriterWriteOptions w options hints) (lines (option_section xs)).
Proof.
  intros T. unfold WriterWriteOptions, option_section. cbn [app]. rewrite !lines_cons.
  eapply writes_eq; [eapply writes_bind; [apply writes_fmt|exact (@options_ok _ _ _ T (S (length options)) [] [] eq_refl ltac:(pose proof (table_length T); lia))]|].
  - apply fits_intro; [cstr|cbn; lia].
  - reflexivity.
Qed.

Lemma commands_ok ds xs : command_table ds xs -> forall fuel pre, length xs < fuel ->
  writes (fun w => commands_loop fuel w (pre ++ ds) (length pre)) (lines (concat (map command_lines xs))).
Proof.
  induction 1 as [e rest E|d x ds xs DN DD DU TN TD TU T IH]; intros fuel pre F; (destruct fuel as [|fuel]; [cbn in F; lia|]); cbn [commands_loop].
  - rewrite elem_mid. cbn [bind]. rewrite E. apply writes_ret.
  - rewrite elem_mid. cbn [bind]. rewrite DN, DD, DU. cbn [str bind]. destruct TN as [TN1 TN2], TD as [TD1 TD2], TU as [TU1 TU2].
    cbn [map concat]. rewrite lines_app. unfold command_lines at 1. rewrite !lines_cons, lines_nil.
    assert (NEXT : writes (fun w => commands_loop fuel w (pre ++ d :: ds) (S (length pre))) (lines (concat (map command_lines xs)))).
    { specialize (IH fuel (pre ++ [d])). rewrite !app_length, <- !app_assoc in IH. cbn [length app] in IH.
      rewrite !Nat.add_1_r in IH. apply IH. cbn in F; lia. }
    eapply writes_eq; [eapply writes_bind; [apply writes_fmt|eapply writes_bind; [apply writes_fmt|exact NEXT]]|].
    + apply fits_intro; [unfold padded; cstr|len].
    + apply fits_intro; [unfold padded; cstr|len].
    + unfold column, padded. repeat rewrite <- app_assoc. cbn [app]. reflexivity.
Qed.
Lemma ctable_length ds xs : command_table ds xs -> length xs < length ds.
Proof. induction 1; cbn; lia. Qed.
Lemma WriterWriteCommands_ok ds xs : command_table ds xs ->
  writes (fun w => WriterWriteCommands w ds) (lines (command_section xs)).
Proof.
  intros T. unfold WriterWriteCommands, command_section. cbn [app]. rewrite !lines_cons.
  eapply writes_eq; [eapply writes_bind; [apply writes_fmt|exact (@commands_ok _ _ T (S (length ds)) [] ltac:(pose proof (ctable_length T); lia))]|].
  - apply fits_intro; [cstr|cbn; lia].
  - reflexivity.
Qed.

Lemma WriterWriteHelp_ok component options hints xs ds cs first file : text component -> option_table options hints xs -> commands_table ds cs ->
  writes (fun w => WriterWriteHelp w component options hints ds first file) (lines (help_lines component xs cs first file)).
Proof.
  intros [TC1 TC2] T TD. unfold WriterWriteHelp, help_lines. rewrite !lines_app.
  assert (U : is_some ds = is_some cs) by (destruct ds, cs; cbn in *; tauto). rewrite U.
  eapply writes_eq.
  { eapply writes_bind; [apply writes_fmt|]. 2: eapply writes_bind; [|eapply writes_bind; [apply WriterWriteOptions_ok, T|eapply writes_bind;
       [|eapply writes_bind; apply writes_fmt]]].
    - apply fits_intro; [cstr; destruct cs, first, file; apply cstrb_ok; reflexivity|]. destruct cs, first, file; cbn [is_some andb negb]; len.
    - instantiate (1 := lines match cs with Some cs => if first then command_section cs else [] | None => [] end).
      destruct ds as [ds|], cs as [cs|]; cbn in TD; try contradiction; [destruct first; [apply WriterWriteCommands_ok, TD|]|]; apply writes_ret.
    - instantiate (1 := lines match cs with Some cs => if first then [] else command_section cs | None => [] end).
      destruct ds as [ds|], cs as [cs|]; cbn in TD; try contradiction; [destruct first; cbn [negb]; [|apply WriterWriteCommands_ok, TD]|]; apply writes_ret.
    - apply fits_intro; [cstr|cbn; lia].
    - apply fits_intro; [cstr|cbn; lia]. }
  rewrite lines_cons, lines_nil, app_nil_r. unfold usage_line.
  destruct cs as [cs|], first, file; cbn [is_some andb negb]; repeat rewrite <- app_assoc; reflexivity.
Qed.

(** what is written to a new string writer, and to a file *)
Definition prints (f : Writer -> res Writer) (t : list byte) : Prop :=
  (exists w d, f StringWriter = Ok w /\ StringWriterClose w = Ok d /\ holds d t) /\
  (exists w, f FileWriter = Ok w /\ FileWriterDetach w = Ok t).
Lemma writes_prints f t : writes f t -> prints f t.
Proof.
  intros [C F]. split.
  - destruct (F StringWriter []) as [w [E [H K]]]; [split; [reflexivity|]; split; [reflexivity|]; exists []; reflexivity|].
    destruct w as [i|o]; [|destruct K]. exists (WT_STRING i), (wdata i). split; [exact E|]. split; [reflexivity|]. split; [exact C|]. apply H.
  - destruct (F FileWriter [] eq_refl) as [w [E [H K]]]. destruct w as [i|o]; [destruct K|]. exists (WT_FILE o). split; [exact E|].
    cbn in *. rewrite H. reflexivity.
Qed.

(** * C129 *)
(** The help text: the usage line, for each option one line with its long name, its
    one-letter form if it has one, whether it takes a value, and its hint; for each command
    two lines; commands before the options or behind, as asked. *)
Theorem C129_help_text component options hints xs ds cs first file :
  text component -> option_table options hints xs -> commands_table ds cs ->
  prints (fun w => WriterWriteHelp w component options hints ds first file) (lines (help_lines component xs cs first file)).
Proof. intros TC T TD. apply writes_prints. apply WriterWriteHelp_ok; assumption. Qed.
Print Assumptions C129_help_text.

Lemma split_unique (stop : byte -> bool) a b c d r s : a ++ c :: r = b ++ d :: s -> forallb (fun x => negb (stop x)) a = true ->
  forallb (fun x => negb (stop x)) b = true -> stop c = true -> stop d = true -> a = b /\ c :: r = d :: s.
Proof.
  revert b. induction a as [|x a IH]; intros b E A B C D; destruct b as [|y b]; cbn in *.
  - auto.
  - injection E as <- _. rewrite C in B. discriminate B.
  - injection E as -> _. rewrite D in A. discriminate A.
  - injection E as <- E. apply andb_true_iff in A as [_ A]. apply andb_true_iff in B as [_ B]. destruct (IH b E A B C D) as [-> F]. auto.
Qed.
Lemma lines_inj a : forall b, (forall l, In l a -> ~ In LF l) -> (forall l, In l b -> ~ In LF l) -> lines a = lines b -> a = b.
Proof.
  assert (NL : forall l, ~ In LF l -> forallb (fun x => negb (beq x LF)) l = true).
  { intros l N. apply forallb_forall. intros x I. apply negb_true_iff. apply beq_false. intros ->. exact (N I). }
  induction a as [|l a IH]; intros [|m b] A B E; rewrite ?lines_cons, ?lines_nil in E.
  - reflexivity.
  - destruct m; discriminate E.
  - destruct l; discriminate E.
  - cbn [app] in E. destruct (@split_unique (fun x => beq x LF) l m LF LF _ _ E) as [-> F]; [apply NL, A; left; reflexivity|apply NL, B; left; reflexivity|reflexivity|reflexivity|].
    injection F as F. f_equal. apply IH; [intros ? I; apply A; right; exact I|intros ? I; apply B; right; exact I|exact F].
Qed.

(** a name no reader can mistake *)
Definition plain_name (s : list byte) : Prop := forall c, In c s -> c <> " "%char /\ c <> ","%char /\ c <> LF.
Definition plain (x : opt) : Prop := plain_name (name x) /\ ~ In LF (hint x) /\ short x <> Some LF.

Definition tail (x : opt) : list byte := (if value x then short_text x ++ lit " value" else column 10 (short_text x)) ++ lit " - " ++ hint x.
Lemma tail_starts x n : exists c r, repeat " "%char n ++ tail x = c :: r /\ (beq c " "%char || beq c ","%char) = true.
Proof.
  destruct n; [|eexists _, _; split; reflexivity]. unfold tail, short_text. destruct (value x), (short x); eexists _, _; split; reflexivity.
Qed.
Lemma tail_inj x y : tail x = tail y -> value x = value y /\ short x = short y /\ hint x = hint y.
Proof.
  unfold tail, short_text. destruct (value x), (value y), (short x), (short y); cbn; intros E; try discriminate E; injection E; intros; subst;
    first [discriminate | auto].
Qed.
Lemma option_line_inj x y : plain_name (name x) -> plain_name (name y) -> option_line x = option_line y -> x = y.
Proof.
  intros PX PY E. unfold option_line in E. change (lit "  --" ++ column 12 (name x) ++ tail x = lit "  --" ++ column 12 (name y) ++ tail y) in E.
  apply app_inv_head in E. unfold column in E. rewrite <- !app_assoc in E.
  assert (PL : forall s, plain_name s -> forallb (fun c => negb (beq c " "%char || beq c ","%char)) s = true).
  { intros s P. apply forallb_forall. intros c I. destruct (P c I) as [A [B _]]. apply beq_false in A, B. rewrite A, B. reflexivity. }
  destruct (tail_starts x (12 - length (name x))) as [c [r [E1 C]]]. destruct (tail_starts y (12 - length (name y))) as [d [s [E2 D]]].
  rewrite E1, E2 in E. destruct (@split_unique (fun c => beq c " "%char || beq c ","%char) _ _ _ _ _ _ E (PL _ PX) (PL _ PY) C D) as [N R].
  rewrite <- E1, <- E2, N in R. apply app_inv_head in R. apply tail_inj in R as [R1 [R2 R3]]. destruct x, y; cbn in *; subst. reflexivity.
Qed.
Lemma LF_lit s : forallb (fun c => negb (beq c LF)) s = true -> ~ In LF s.
Proof. intros F I. rewrite forallb_forall in F. apply F in I. discriminate I. Qed.
Lemma option_line_LF x : plain x -> ~ In LF (option_line x).
Proof.
  intros [PN [PH PS]]. unfold option_line, column. rewrite !in_app_iff.
  assert (B : forall n, ~ In LF (repeat " "%char n)) by (intros n I; apply repeat_spec in I; discriminate I).
  assert (SH : ~ In LF (short_text x)).
  { unfold short_text. destruct (short x) as [c|]; [|intros []]. rewrite in_app_iff. intros [I|[->|[]]]; [revert I; apply LF_lit; reflexivity|apply PS; reflexivity]. }
  intros [I|[[I|I]|[I|[I|I]]]].
  - revert I. apply LF_lit. reflexivity.
  - destruct (PN _ I) as [_ [_ N]]. apply N. reflexivity.
  - exact (B _ I).
  - destruct (value x); rewrite in_app_iff in I; destruct I as [I|I]; [exact (SH I)|revert I; apply LF_lit; reflexivity|exact (SH I)|exact (B _ I)].
  - revert I. apply LF_lit. reflexivity.
  - exact (PH I).
Qed.
(** Nothing is lost or confused: who reads the help text knows all options, with their
    one-letter forms, whether they take a value, and their hints. *)
Theorem C129_help_tells_all component xs ys cs first file :
  (forall x, In x xs -> plain x) -> (forall x, In x ys -> plain x) ->
  lines (help_lines component xs cs first file) = lines (help_lines component ys cs first file) -> xs = ys.
Proof.
  intros PX PY E. unfold help_lines in E. rewrite !lines_app in E. apply app_inv_head in E. apply app_inv_head in E. apply app_inv_tail in E.
  unfold option_section in E. rewrite !lines_app in E. apply app_inv_head in E.
  apply lines_inj in E.
  2,3: intros l I; apply in_map_iff in I as [x [<- I]]; apply option_line_LF; auto.
  revert ys PY E. induction xs as [|x xs IH]; intros [|y ys] PY E; try discriminate E; [reflexivity|]. cbn [map] in E.
  assert (E1 : option_line x = option_line y) by exact (f_equal (hd []) E). assert (E2 : map option_line xs = map option_line ys) by exact (f_equal (@tl _) E).
  f_equal; [apply option_line_inj; [apply PX; left; reflexivity|apply PY; left; reflexivity|exact E1]|].
  apply IH; [intros; apply PX; right; assumption|intros; apply PY; right; assumption|exact E2].
Qed.
Print Assumptions C129_help_tells_all.

Definition ex_options : list option_t :=
  [mkOption (Some (lit "help")) 0 104; mkOption (Some (lit "log-level")) 1 103; mkOption (Some (lit "skip-bootstrap-policy")) 0 300; mkOption None 0 0].
Definition ex_hints : list (option (list byte)) := [Some (lit "Print this"); Some (lit "How much to log"); Some (lit "Do not run policy"); None].
Definition ex_xs : list opt := [mkOpt (lit "help") false (Some "h"%char) (lit "Print this"); mkOpt (lit "log-level") true (Some "g"%char) (lit "How much to log");
  mkOpt (lit "skip-bootstrap-policy") false None (lit "Do not run policy")].
Definition ex_commands : list Description := [mkDescription (Some (lit "save")) (Some (lit "Save it")) (Some (lit "cf-net save FILE")); mkDescription None None None].
Definition ex_cs : list cmd := [mkCmd (lit "save") (lit "Save it") (lit "cf-net save FILE")].
Ltac is_text := split; [apply cstrb_ok; reflexivity|cbn; lia].
Ltac is_described := split; [reflexivity|]; split; [cbn; split; [first [reflexivity|intros []; reflexivity]|discriminate]|]; split; [reflexivity|]; cbn; first [lia|split; [lia|reflexivity]].
Lemma ex_table : option_table ex_options ex_hints ex_xs.
Proof. repeat first [apply ot_end; reflexivity | apply ot_next; [is_described|is_text|is_text|]]. Qed.
Lemma ex_ctable : command_table ex_commands ex_cs.
Proof. apply ct_next; try reflexivity; [is_text|is_text|is_text|]. apply ct_end. reflexivity. Qed.
Example C129_nonvacuous :
  text (lit "cf-net") /\ option_table ex_options ex_hints ex_xs /\ commands_table (Some ex_commands) (Some ex_cs) /\ (forall x, In x ex_xs -> plain x) /\
  help_lines (lit "cf-net") ex_xs (Some ex_cs) false true =
    [lit "Usage: cf-net [OPTIONS] COMMAND [FILE]"; []; lit "Options:";
     lit "  --help        , -h       - Print this";
     lit "  --log-level   , -g value - How much to log";
     lit "  --skip-bootstrap-policy           - Do not run policy"; []; lit "Commands:";
     lit "  save         - Save it."; lit "                 Usage: cf-net save FILE"; []; lit "Website: http://www.cfengine.com";
     lit "This software is Copyright (C) 2008,2010-present Northern.tech AS."].
Proof.
  split; [is_text|]. split; [exact ex_table|]. split; [exact ex_ctable|]. split; [|vm_compute; reflexivity].
  intros x I. cbn in I. destruct I as [<-|[<-|[<-|[]]]]; (split; [|split; [apply LF_lit; reflexivity|discriminate]]); cbn; intros c I;
    repeat (destruct I as [<-|I]; [repeat split; discriminate|]); destruct I.
Qed.

(** * C130 *)
(** the time a page is dated: SOURCE_DATE_EPOCH if that begins with a positive number *)
Inductive page_time (last_modified : Z) : option (list byte) -> Z -> Prop :=
| pt_unset : page_time last_modified None last_modified
| pt_epoch s v rest : reads s v rest -> (0 < v)%Z -> page_time last_modified (Some s) (Z.min v LONG_MAX)
| pt_not_positive s v rest : reads s v rest -> (v <= 0)%Z -> page_time last_modified (Some s) last_modified
| pt_no_number s : (forall v rest, ~ reads s v rest) -> page_time last_modified (Some s) last_modified.

Definition quoted (s : list byte) : list byte := [QUOTE] ++ s ++ [QUOTE].
Definition page_head (program date short_description long_description : list byte) (commands : option (list cmd)) (first file : bool) : list (list byte) :=
  [lit ".TH " ++ map PropsEdit.upper (firstn 254 program) ++ lit " 8 " ++ quoted date ++ lit " " ++ quoted (lit "CFEngine") ++ lit " " ++ quoted (lit "System Administration");
   lit ".SH NAME"; program ++ lit " \- " ++ short_description;
   lit ".SH SYNOPSIS"; lit ".B " ++ program]
  ++ match commands, first with
     | None, _ => [lit ".RI [ OPTION ]..."]
     | Some _, true => [lit ".RI COMMAND"; lit ".RI [ OPTION ]..."]
     | Some _, false => [lit ".RI [ OPTION ]..."; lit ".RI COMMAND"]
     end
  ++ [if file then lit ".RI [ FILE ]" else []]
  ++ [lit ".SH DESCRIPTION"; long_description].
Definition man_command (x : cmd) : list (list byte) := [lit ".IP " ++ quoted (cname x); does x ++ lit "."; lit ".br"; lit "Usage: " ++ usage x].
Definition man_option (x : opt) : list (list byte) :=
  [lit ".IP " ++ quoted (lit "--" ++ name x ++ short_text x ++ (if value x then lit " value" else [])); hint x].
Definition page (program date short_description long_description : list byte) (xs : list opt) (commands : option (list cmd)) (first file : bool) : list byte :=
  copyright
  ++ lines (page_head program date short_description long_description commands first file
            ++ match commands with Some cs => lit ".SH COMMANDS" :: concat (map man_command cs) | None => [] end
            ++ lit ".SH OPTIONS" :: concat (map man_option xs))
  ++ cfengine ++ promise_theory
  ++ lines [lit ".SH AVAILABILITY"; program ++ lit " is part of CFEngine."; lit ".br";
            lit "Binary packages may be downloaded from http://cfengine.com/downloads/."; lit ".br";
            lit "The source code is available at http://github.com/cfengine/"]
  ++ bugs ++ see_also ++ author.

Lemma page_time_ok lm epoch t : page_time lm epoch t ->
  match epoch with Some s => let '(v, _, _) := strtol s in if (0 <? v)%Z then v else lm | None => lm end = t.
Proof.
  intros [|s v rest R P|s v rest R P|s N].
  - reflexivity.
  - rewrite (strtol_reads R). destruct (Z.gtb_spec v LONG_MAX).
    + replace (Z.min v LONG_MAX) with LONG_MAX by lia. reflexivity.
    + destruct (Z.ltb_spec v LONG_MIN); [unfold LONG_MIN in *; lia|]. destruct (Z.ltb_spec 0 v); lia.
  - rewrite (strtol_reads R). destruct (Z.gtb_spec v LONG_MAX); [unfold LONG_MAX in *; lia|]. destruct (Z.ltb_spec v LONG_MIN); [reflexivity|].
    destruct (Z.ltb_spec 0 v); [lia|reflexivity].
  - rewrite (strtol_none N). reflexivity.
Qed.

Definition printable_name (s : list byte) : Prop := text s /\ forall c, In c s -> (33 <= code c <= 126)%N.
Lemma upper_cstr s : (forall c, In c s -> (33 <= code c <= 126)%N) -> is_cstr (map PropsEdit.upper s).
Proof.
  intros P I. apply in_map_iff in I as [c [E I]]. apply P in I. unfold PropsEdit.upper in E. destruct (islower c) eqn:L.
  - apply (f_equal code) in E. unfold code in E. rewrite N_ascii_embedding in E by (unfold code in I; lia). cbn in E.
    unfold islower, in_range in L. apply andb_true_iff in L as [L _]. apply N.leb_le in L. unfold code in *. lia.
  - subst c. cbn in I. lia.
Qed.
Lemma writes_lit t : fits t -> forall u, t = u -> writes (fun w => put_text w t) u.
Proof. intros F u <-. apply writes_put, F. Qed.

Section Man.
Variable ymd : Z -> option (list byte).
Lemma WriteHeader_ok program t date : printable_name program -> ymd t = Some date -> is_cstr date -> length date <= 18 ->
  writes (fun w => WriteHeader ymd w program t)
    (lines [lit ".TH " ++ map PropsEdit.upper (firstn 254 program) ++ lit " 8 " ++ quoted date ++ lit " " ++ quoted (lit "CFEngine") ++ lit " " ++ quoted (lit "System Administration")]).
Proof.
  intros [[PC _] PA] Y DC DL. unfold WriteHeader.
  destruct (@PropsAddrinfo.msnprintf_holds (repeat (Some NUL) 256) 255 program PC) as [m [E [H _]]]; [rewrite repeat_length; lia|lia|].
  rewrite E. cbn [bind]. change (255 - 1) with 254 in H.
  assert (P : forall c, In c (firstn 254 program) -> (33 <= code c <= 126)%N).
  { intros c I. apply PA. rewrite <- (firstn_skipn 254 program). apply in_app_iff. left. exact I. }
  rewrite (@PropsEdit.C60_ToUpperStrInplace_partial m _ H P). cbn [bind]. rewrite Y.
  assert (M : mstr (put m (map PropsEdit.upper (firstn 254 program))) = Ok (map PropsEdit.upper (firstn 254 program))).
  { apply mstr_holds. split; [apply upper_cstr, P|]. eexists. reflexivity. }
  rewrite M. cbn [bind]. pose proof (upper_cstr _ P) as UC. eapply writes_eq; [apply writes_fmt|].
  - apply fits_intro; [cstr|]. assert (length (map PropsEdit.upper (firstn 254 program)) <= 254) by (rewrite map_length, firstn_length; lia). len.
  - unfold quoted. rewrite lines_cons, lines_nil. repeat rewrite <- app_assoc. reflexivity.
Qed.
End Man.

Lemma man_options_ok options hints xs : option_table options hints xs -> (forall x, In x xs -> short x <> None) ->
  forall fuel po ph, length po = length ph -> length xs < fuel ->
  writes (fun w => man_options_loop fuel w (po ++ options) (ph ++ hints) (length po)) (lines (concat (map man_option xs))).
Proof.
  induction 1 as [e rest hints E|o h x options hints xs D TN TH T IH]; intros SH fuel po ph L F; (destruct fuel as [|fuel]; [cbn in F; lia|]); cbn [man_options_loop].
  - rewrite elem_mid. cbn [bind]. rewrite E. apply writes_ret.
  - rewrite elem_mid. cbn [bind]. destruct D as [DN [DV [DH DS]]]. rewrite DN.
    replace (elem (ph ++ h :: hints) (length po)) with (Ok h) by (rewrite L; symmetry; apply elem_mid). cbn [bind]. rewrite DH. cbn [str bind].
    destruct (short x) as [c|] eqn:SX; [|exfalso; apply (SH x); [left; reflexivity|exact SX]]. destruct DS as [B EV]. rewrite EV, char_of_code by exact B.
    assert (NC : is_cstr [c]) by (apply is_cstr_cons; split; [apply code_not_NUL, B|intros []]).
    destruct TN as [TN1 TN2], TH as [TH1 TH2].
    cbn [map concat]. rewrite lines_app.
    assert (NEXT : writes (fun w => man_options_loop fuel w (po ++ o :: options) (ph ++ Some (hint x) :: hints) (S (length po))) (lines (concat (map man_option xs)))).
    { assert (SH' : forall x, In x xs -> short x <> None) by (intros; apply SH; right; assumption).
      specialize (IH SH' fuel (po ++ [o]) (ph ++ [Some (hint x)])). rewrite !app_length, <- !app_assoc in IH. cbn [length app] in IH.
      rewrite !Nat.add_1_r in IH. apply IH; [lia|cbn in F; lia]. }
    refine (writes_bind _ NEXT).
    unfold man_option, quoted, short_text. rewrite SX, !lines_cons, lines_nil. destruct (Z.eqb_spec (ohas_arg o) 0) as [Z0|Z0].
      + assert (V : value x = false). { destruct (value x); [|reflexivity]. exfalso. apply (proj2 DV eq_refl). exact Z0. } rewrite V.
        eapply writes_eq; [apply writes_fmt|repeat rewrite <- app_assoc; cbn [app]; reflexivity].
        apply fits_intro; [cstr|len].
      + apply DV in Z0. rewrite Z0.
        eapply writes_eq; [apply writes_fmt|repeat rewrite <- app_assoc; cbn [app]; reflexivity].
        apply fits_intro; [cstr|len].
Qed.
Lemma WriteOptions_ok options hints xs : option_table options hints xs -> (forall x, In x xs -> short x <> None) ->
  writes (fun w => WriteOptions w options hints) (lines (lit ".SH OPTIONS" :: concat (map man_option xs))).
Proof.
  intros T SH. unfold WriteOptions. rewrite lines_cons.
  eapply writes_eq; [eapply writes_bind; [apply writes_put|exact (@man_options_ok _ _ _ T SH (S (length options)) [] [] eq_refl ltac:(pose proof (table_length T); lia))]|].
  - apply fits_intro; [cstr|cbn; lia].
  - reflexivity.
Qed.
Lemma man_commands_ok ds xs : command_table ds xs -> forall fuel pre, length xs < fuel ->
  writes (fun w => man_commands_loop fuel w (pre ++ ds) (length pre)) (lines (concat (map man_command xs))).
Proof.
  induction 1 as [e rest E|d x ds xs DN DD DU TN TD TU T IH]; intros fuel pre F; (destruct fuel as [|fuel]; [cbn in F; lia|]); cbn [man_commands_loop].
  - rewrite elem_mid. cbn [bind]. rewrite E. apply writes_ret.
  - rewrite elem_mid. cbn [bind]. rewrite DN, DD, DU. cbn [str bind]. destruct TN as [TN1 TN2], TD as [TD1 TD2], TU as [TU1 TU2].
    cbn [map concat]. rewrite lines_app. unfold man_command at 1. rewrite !lines_cons, lines_nil.
    assert (NEXT : writes (fun w => man_commands_loop fuel w (pre ++ d :: ds) (S (length pre))) (lines (concat (map man_command xs)))).
    { specialize (IH fuel (pre ++ [d])). rewrite !app_length, <- !app_assoc in IH. cbn [length app] in IH.
      rewrite !Nat.add_1_r in IH. apply IH. cbn in F; lia. }
    eapply writes_eq; [eapply writes_bind; [apply writes_fmt|eapply writes_bind; [apply writes_fmt|eapply writes_bind; [apply writes_put|eapply writes_bind; [apply writes_fmt|exact NEXT]]]]|].
    1-4: apply fits_intro; [cstr|len].
    unfold quoted. repeat rewrite <- app_assoc. cbn [app]. reflexivity.
Qed.
Lemma WriteCommands_ok ds xs : command_table ds xs ->
  writes (fun w => WriteCommands w ds) (lines (lit ".SH COMMANDS" :: concat (map man_command xs))).
Proof.
  intros T. unfold WriteCommands. rewrite lines_cons.
  eapply writes_eq; [eapply writes_bind; [apply writes_put|exact (@man_commands_ok _ _ T (S (length ds)) [] ltac:(pose proof (ctable_length T); lia))]|].
  - apply fits_intro; [cstr|cbn; lia].
  - reflexivity.
Qed.
Lemma WriteSynopsis_ok program (command first file : bool) : text program ->
  writes (fun w => WriteSynopsis w program command first file)
    (lines ([lit ".SH SYNOPSIS"; lit ".B " ++ program] ++
      (if command then if first then [lit ".RI COMMAND"; lit ".RI [ OPTION ]..."] else [lit ".RI [ OPTION ]..."; lit ".RI COMMAND"] else [lit ".RI [ OPTION ]..."])
      ++ [if file then lit ".RI [ FILE ]" else []])).
Proof.
  intros [C L]. unfold WriteSynopsis. rewrite !lines_app, !lines_cons, !lines_nil.
  assert (F1 : fits (lit ".B " ++ program ++ [LF])) by (apply fits_intro; [cstr|len]).
  assert (F2 : forall s, cstrb s = true -> length s <= 30 -> fits s) by (intros s A B; apply fits_intro; [apply cstrb_ok, A|lia]).
  destruct command, first, file; cbn [andb negb];
  (eapply writes_eq; [eapply writes_bind; [apply writes_put, F2; [reflexivity|cbn; lia]|];
    eapply writes_bind; [apply writes_fmt, F1|];
    eapply writes_bind; [first [apply writes_ret | apply writes_put, F2; [reflexivity|cbn; lia]]|];
    eapply writes_bind; [apply writes_put, F2; [reflexivity|cbn; lia]|];
    eapply writes_bind; [first [apply writes_ret | apply writes_put, F2; [reflexivity|cbn; lia]]|];
    apply writes_put, F2; [reflexivity|cbn; lia] |
   rewrite ?lines_cons, ?lines_nil; repeat rewrite <- app_assoc; reflexivity]).
Qed.

(** The manual page: header with the date (SOURCE_DATE_EPOCH if set to a positive number), name,
    synopsis, description, for each command its name, description and usage, for each
    option its long and one-letter form, whether it takes a value, and its hint. *)
Theorem C130_man_page_partial ymd program last_modified t date short_description long_description options hints xs ds cs first file epoch :
  printable_name program -> text short_description -> text long_description ->
  page_time last_modified epoch t -> ymd t = Some date -> is_cstr date -> length date <= 18 ->
  option_table options hints xs -> (forall x, In x xs -> short x <> None) -> commands_table ds cs ->
  prints (fun w => ManPageWrite ymd w program last_modified short_description long_description options hints ds first file epoch)
    (page program date short_description long_description xs cs first file).
Proof.
  intros PP [SC SL] [LC LL] PT Y DC DL T SH TD. apply writes_prints. pose proof PP as [[PC PL] _]. unfold ManPageWrite. cbv zeta. rewrite (page_time_ok PT).
  assert (F2 : forall s, (cstrb s && (N.of_nat (length s) <=? 2147483647)%N)%bool = true -> fits s).
  { intros s A. apply andb_true_iff in A as [A B]. apply N.leb_le in B. apply fits_intro; [apply cstrb_ok, A|exact B]. }
  assert (U : is_some ds = is_some cs) by (destruct ds, cs; cbn in *; tauto). rewrite U.
  eapply writes_eq.
  { eapply writes_bind; [apply writes_put, F2; reflexivity|].
    eapply writes_bind; [apply (@WriteHeader_ok ymd program t date); assumption|].
    eapply writes_bind; [apply writes_fmt, fits_intro; [cstr|len]|].
    eapply writes_bind; [apply WriteSynopsis_ok, PP|].
    eapply writes_bind; [apply writes_fmt, fits_intro; [cstr|len]|].
    eapply writes_bind; [instantiate (1 := lines match cs with Some cs => lit ".SH COMMANDS" :: concat (map man_command cs) | None => [] end);
      destruct ds as [ds|], cs as [cs|]; cbn in TD; try contradiction; [apply WriteCommands_ok, TD|apply writes_ret]|].
    eapply writes_bind; [apply WriteOptions_ok; [exact T|exact SH]|].
    eapply writes_bind; [apply writes_put, F2; reflexivity|].
    eapply writes_bind; [apply writes_put, F2; reflexivity|].
    eapply writes_bind; [apply writes_fmt|].
    2: eapply writes_bind; [apply writes_put, F2; reflexivity|].
    2: eapply writes_bind; [apply writes_put, F2; reflexivity|].
    2: apply writes_put, F2; reflexivity.
    rewrite !lines_cons, lines_nil. apply fits_intro; [cstr|len]. }
  unfold page, page_head. rewrite !lines_app.
  destruct cs as [cs|], first; cbn [is_some]; rewrite ?lines_app, ?lines_cons, ?lines_nil; repeat rewrite <- app_assoc; cbn [app]; reflexivity.
Qed.
Print Assumptions C130_man_page_partial.
Definition ex_ymd (t : Z) : option (list byte) := if (t =? 1000000000)%Z then Some (lit "2001-09-09") else Some (lit "1970-01-01").
Example C130_nonvacuous :
  let xs := firstn 2 ex_xs in let options := firstn 2 ex_options ++ [mkOption None 0 0] in
  printable_name (lit "cf-net") /\ page_time 5 (Some (lit "1000000000 ")) 1000000000 /\ ex_ymd 1000000000 = Some (lit "2001-09-09") /\
  option_table options ex_hints xs /\ (forall x, In x xs -> short x <> None) /\ commands_table (Some ex_commands) (Some ex_cs) /\
  prints (fun w => ManPageWrite ex_ymd w (lit "cf-net") 5 (lit "CFEngine network protocol tool") (lit "Long") options ex_hints (Some ex_commands) true false
                     (Some (lit "1000000000 ")))
    (copyright ++ lines [lit ".TH CF-NET 8 ""2001-09-09"" ""CFEngine"" ""System Administration""";
       lit ".SH NAME"; lit "cf-net \- CFEngine network protocol tool"; lit ".SH SYNOPSIS"; lit ".B cf-net"; lit ".RI COMMAND"; lit ".RI [ OPTION ]..."; [];
       lit ".SH DESCRIPTION"; lit "Long"; lit ".SH COMMANDS"; lit ".IP ""save"""; lit "Save it."; lit ".br"; lit "Usage: cf-net save FILE";
       lit ".SH OPTIONS"; lit ".IP ""--help, -h"""; lit "Print this"; lit ".IP ""--log-level, -g value"""; lit "How much to log"]
     ++ cfengine ++ promise_theory ++ lines [lit ".SH AVAILABILITY"; lit "cf-net is part of CFEngine."; lit ".br";
       lit "Binary packages may be downloaded from http://cfengine.com/downloads/."; lit ".br"; lit "The source code is available at http://github.com/cfengine/"]
     ++ bugs ++ see_also ++ author).
Proof.
  cbv zeta.
  assert (P : printable_name (lit "cf-net")).
  { split; [is_text|]. intros c I. cbn in I. repeat (destruct I as [<-|I]; [vm_compute; split; discriminate|]); destruct I. }
  assert (R : page_time 5 (Some (lit "1000000000 ")) 1000000000).
  { apply (@pt_epoch 5 (lit "1000000000 ") 1000000000 (lit " ")); [|lia]. exists [], [], (lit "1000000000"). split; [reflexivity|]. split; [intros ? []|].
    split; [discriminate|]. split; [intros c I; cbn in I; repeat (destruct I as [<-|I]; [reflexivity|]); destruct I|]. split; [reflexivity|]. left. split; [left; reflexivity|reflexivity]. }
  assert (T : option_table (firstn 2 ex_options ++ [mkOption None 0 0]) ex_hints (firstn 2 ex_xs)).
  { repeat first [apply ot_end; reflexivity | apply ot_next; [is_described|is_text|is_text|]]. }
  assert (SH : forall x, In x (firstn 2 ex_xs) -> short x <> None) by (intros x [<-|[<-|[]]]; discriminate).
  assert (CT : commands_table (Some ex_commands) (Some ex_cs)) by exact ex_ctable.
  split; [exact P|]. split; [exact R|]. split; [reflexivity|]. split; [exact T|]. split; [exact SH|]. split; [exact CT|].
  pose proof (@C130_man_page_partial ex_ymd (lit "cf-net") 5 1000000000 (lit "2001-09-09") (lit "CFEngine network protocol tool") (lit "Long") _ _ _ _ _ true false _
    P ltac:(is_text) ltac:(is_text) R eq_refl ltac:(apply cstrb_ok; reflexivity) ltac:(cbn; lia) T SH CT) as M.
  match type of M with prints _ ?a => match goal with |- prints _ ?b => replace b with a; [exact M|vm_compute; reflexivity] end end.
Qed.
(** the text written to a string writer *)
Definition printed (f : Writer -> res Writer) : res (list byte) := let* w := f StringWriter in let* d := StringWriterClose w in mstr d.
(** Options without a one-letter form (values from 128, as the help text has it) get one on the manual page: the
    low byte of their value.  If that is 0, the rest of the entry with the hint is lost. *)
Example C130_long_only_refuted :
  option_table [mkOption (Some (lit "skip")) 0 300; mkOption None 0 0] [Some (lit "Do not run")] [mkOpt (lit "skip") false None (lit "Do not run")] /\
  printed (fun w => WriteOptions w [mkOption (Some (lit "skip")) 0 300; mkOption None 0 0] [Some (lit "Do not run")]) =
    Ok (lines [lit ".SH OPTIONS"; lit ".IP ""--skip, -,"""; lit "Do not run"]) /\
  option_table [mkOption (Some (lit "skip")) 0 256; mkOption None 0 0] [Some (lit "Do not run")] [mkOpt (lit "skip") false None (lit "Do not run")] /\
  printed (fun w => WriteOptions w [mkOption (Some (lit "skip")) 0 256; mkOption None 0 0] [Some (lit "Do not run")]) =
    Ok (lines [lit ".SH OPTIONS"] ++ lit ".IP ""--skip, -").
Proof.
  split; [repeat first [apply ot_end; reflexivity | apply ot_next; [is_described|is_text|is_text|]]|]. split; [lazy; reflexivity|].
  split; [repeat first [apply ot_end; reflexivity | apply ot_next; [is_described|is_text|is_text|]]|]. lazy; reflexivity.
Qed.
(** a blank in the program's name cuts the title *)
Example C130_blank_refuted : printed (fun w => WriteHeader ex_ymd w (lit "cf net") 0) =
  Ok (lines [lit ".TH CF 8 ""1970-01-01"" ""CFEngine"" ""System Administration"""]).
Proof. lazy. reflexivity. Qed.
(** in the help text a value of 0 (an option that only sets a flag) passes for a one-letter form *)
Example C129_zero_refuted :
  printed (fun w => WriterWriteOptions w [mkOption (Some (lit "skip")) 1 0; mkOption None 0 0] [Some (lit "Do not run")]) =
    Ok (lines [[]; lit "Options:"; lit "  --skip        , - value - Do not run"]).
Proof. lazy. reflexivity. Qed.
