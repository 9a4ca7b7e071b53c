(** Proofs about CSV. *)
From Verif Require Import Prelude PreludeFacts Str StrFacts Libc LibcFacts MemSpec EditProofs EditProofs2 CsvSpec CsvModel.
Set Implicit Arguments.

(** * characters *)
Lemma quote_spec c : reflect (is_quote c) (CSVCL_QUOTE c).
Proof. apply beq_spec. Qed.
Lemma sep_spec c : reflect (is_comma c) (CSVCL_SEP c).
Proof. apply beq_spec. Qed.
Lemma blank_spec c : reflect (is_blank c) (CSVCL_BLANK c).
Proof.
  unfold CSVCL_BLANK, is_blank. destruct (beq_spec c SPACE) as [->|N1]; [constructor; auto|].
  destruct (beq_spec c TAB) as [->|N2]; [constructor; auto|]. destruct (beq_spec c LF) as [->|N3]; [constructor; auto|].
  destruct (beq_spec c CR) as [->|N4]; [constructor; auto|]. constructor. intros [?|[?|[?|?]]]; contradiction.
Qed.
Lemma blank_not c : is_blank c -> ~ is_quote c /\ ~ is_comma c.
Proof. intros [-> | [-> | [-> | -> ]]]; split; intros H; discriminate H. Qed.

Lemma notq c : ~ is_quote c -> CSVCL_QUOTE c = false. Proof. destruct (quote_spec c); [contradiction|reflexivity]. Qed.
Lemma nots c : ~ is_comma c -> CSVCL_SEP c = false. Proof. destruct (sep_spec c); [contradiction|reflexivity]. Qed.
Lemma isb c : is_blank c -> CSVCL_BLANK c = true. Proof. destruct (blank_spec c); [reflexivity|contradiction]. Qed.

Definition pfx (ds : list field) : list byte := concat (map (fun f => field_text f ++ [COMMA]) ds).
Lemma pfx_snoc ds f : pfx (ds ++ [f]) = pfx ds ++ field_text f ++ [COMMA].
Proof. unfold pfx. rewrite map_app, concat_app. cbn. rewrite app_nil_r. reflexivity. Qed.
Lemma record_text_snoc ds f : record_text (ds ++ [f]) = pfx ds ++ field_text f.
Proof.
  unfold record_text. induction ds as [|d ds IH]; [reflexivity|]. cbn [app map]. unfold pfx in *. cbn [map concat].
  rewrite <- ?app_assoc, <- IH. destruct (map field_text (ds ++ [f])) eqn:E; [destruct ds; discriminate|]. cbn [join]. reflexivity.
Qed.
Lemma pfx_app a b : pfx (a ++ b) = pfx a ++ pfx b.
Proof. unfold pfx. rewrite map_app, concat_app. reflexivity. Qed.
Lemma values_snoc ds f : values (ds ++ [f]) = map field_value ds ++ [match f with Plain t => without_crlf t | Quoted _ b _ => b end].
Proof.
  induction ds as [|d ds IH]; [reflexivity|]. cbn [app map values].
  destruct (ds ++ [f]) as [|x y] eqn:E; [destruct ds; discriminate|]. rewrite IH. reflexivity.
Qed.
Lemma double_snoc b c : double (b ++ [c]) = double b ++ (if beq c QUOTE then [c; c] else [c]).
Proof. unfold double. rewrite flat_map_app. cbn. rewrite app_nil_r. reflexivity. Qed.
Lemma double_len b : length b <= length (double b).
Proof. induction b as [|c b IH]; [cbn; lia|]. unfold double in *. cbn [flat_map length]. rewrite app_length. destruct (beq c _); cbn [length]; lia. Qed.

(** * a record has one reading *)
Definition stops (r : list byte) : Prop := match r with [] => True | c :: _ => is_comma c end.
Definition free (c : byte) : bool := negb (CSVCL_QUOTE c) && negb (CSVCL_SEP c).
Lemma free_Forall t : Forall (fun c => ~ is_quote c /\ ~ is_comma c) t -> forallb free t = true.
Proof.
  intros H. apply forallb_forall. intros c I. rewrite Forall_forall in H. destruct (H c I). unfold free.
  destruct (quote_spec c), (sep_spec c); auto.
Qed.
Lemma blank_Forall t : Forall is_blank t -> forallb CSVCL_BLANK t = true.
Proof. intros H. apply forallb_forall. intros c I. rewrite Forall_forall in H. destruct (blank_spec c); auto. Qed.
Lemma blanks_free t : Forall is_blank t -> Forall (fun c => ~ is_quote c /\ ~ is_comma c) t.
Proof. intros H. eapply Forall_impl; [|exact H]. exact blank_not. Qed.

Lemma body_unique b : forall b' post rest post' rest', Forall is_blank post -> Forall is_blank post' -> stops rest -> stops rest' ->
  double b ++ QUOTE :: post ++ rest = double b' ++ QUOTE :: post' ++ rest' -> b = b' /\ post = post' /\ rest = rest'.
Proof.
  assert (NQ : forall post rest x, Forall is_blank post -> stops rest -> post ++ rest <> QUOTE :: x).
  { intros [|c post] rest x F S0; cbn [app].
    - destruct rest as [|d rest]; [discriminate|]. intros E. injection E as -> _. discriminate S0.
    - inversion_clear F as [|? ? B _]. intros E. injection E as -> _. destruct B as [H|[H|[H|H]]]; discriminate H. }
  assert (DC : forall c b x, double (c :: b) ++ x = c :: (if beq c QUOTE then [c] else []) ++ double b ++ x).
  { intros c b0 x. unfold double. cbn [flat_map]. change (ascii_of_nat 34) with QUOTE. destruct (beq c QUOTE); reflexivity. }
  induction b as [|c b IH]; intros b' post rest post' rest' F F' S0 S0' E.
  - destruct b' as [|c' b'].
    + cbn in E. injection E as E. split; [reflexivity|].
      assert (X : span CSVCL_BLANK (post ++ rest) = (post, rest)).
      { apply span_app; [apply blank_Forall, F|]. destruct rest as [|d r]; [exact Logic.I|]. rewrite S0. reflexivity. }
      assert (X' : span CSVCL_BLANK (post' ++ rest') = (post', rest')).
      { apply span_app; [apply blank_Forall, F'|]. destruct rest' as [|d r]; [exact Logic.I|]. rewrite S0'. reflexivity. }
      rewrite E, X' in X. injection X as <- <-. auto.
    + exfalso. rewrite DC in E. cbn [double flat_map app] in E. injection E as <- E. rewrite beq_refl in E. cbn [app] in E.
      exact (NQ _ _ _ F S0 E).
  - destruct b' as [|c' b'].
    + exfalso. rewrite DC in E. cbn [double flat_map app] in E. injection E as -> E. rewrite beq_refl in E. cbn [app] in E. symmetry in E.
      exact (NQ _ _ _ F' S0' E).
    + rewrite !DC in E. injection E as <- E. apply app_inv_head in E. destruct (IH _ _ _ _ _ F F' S0 S0' E) as [<- [<- <-]]. auto.
Qed.

Lemma field_unique f f' rest rest' : field_ok f -> field_ok f' -> stops rest -> stops rest' ->
  field_text f ++ rest = field_text f' ++ rest' -> f = f' /\ rest = rest'.
Proof.
  intros O O' S0 S0' E.
  assert (SP : forall t r, Forall (fun c => ~ is_quote c /\ ~ is_comma c) t -> match r with [] => True | c :: _ => free c = false end -> span free (t ++ r) = (t, r)).
  { intros t r F H. apply span_app; [apply free_Forall, F|exact H]. }
  assert (SF : forall r, stops r -> match r with [] => True | c :: _ => free c = false end).
  { intros [|c r] H; [exact Logic.I|]. rewrite H. reflexivity. }
  destruct f as [t|pre b post], f' as [t'|pre' b' post']; cbn [field_text field_ok] in *.
  - pose proof (SP _ _ O (SF _ S0)) as X. rewrite E, (SP _ _ O' (SF _ S0')) in X. injection X as -> ->. auto.
  - destruct O' as [F1 F2]. rewrite <- ?app_assoc in E. cbn [app] in E.
    pose proof (SP _ _ O (SF _ S0)) as X. rewrite E, SP in X by (try apply blanks_free; auto). injection X as -> <-. discriminate S0.
  - destruct O as [F1 F2]. rewrite <- ?app_assoc in E. cbn [app] in E.
    pose proof (SP _ _ O' (SF _ S0')) as X. rewrite <- E, SP in X by (try apply blanks_free; auto). injection X as -> <-. discriminate S0'.
  - destruct O as [F1 F2], O' as [F1' F2']. rewrite <- ?app_assoc in E. cbn [app] in E.
    assert (X : span free (pre ++ ascii_of_nat 34 :: double b ++ ascii_of_nat 34 :: post ++ rest) = (pre, ascii_of_nat 34 :: double b ++ ascii_of_nat 34 :: post ++ rest))
      by (apply SP; [apply blanks_free, F1|reflexivity]).
    assert (X' : span free (pre' ++ ascii_of_nat 34 :: double b' ++ ascii_of_nat 34 :: post' ++ rest') = (pre', ascii_of_nat 34 :: double b' ++ ascii_of_nat 34 :: post' ++ rest'))
      by (apply SP; [apply blanks_free, F1'|reflexivity]).
    rewrite E, X' in X. injection X as <- E'. symmetry in E'.
    destruct (@body_unique _ _ _ _ _ _ F2 F2' S0 S0' E') as [<- [<- <-]]. auto.
Qed.

Lemma record_unique fs : forall fs' s, record fs s -> record fs' s -> fs = fs'.
Proof.
  assert (RC : forall f fs, record_text (f :: fs) = field_text f ++ match fs with [] => [] | _ => COMMA :: record_text fs end).
  { intros f [|g gs]; unfold record_text; cbn [map join]; [rewrite app_nil_r; reflexivity|reflexivity]. }
  assert (ST : forall fs, stops (match fs with [] => [] | _ => COMMA :: record_text fs end)) by (intros [|? ?]; cbn; auto; reflexivity).
  induction fs as [|f fs IH]; intros fs' s [N [O E]] [N' [O' E']]; [contradiction|]. destruct fs' as [|f' fs']; [contradiction|].
  inversion_clear O as [|? ? Of Ofs]. inversion_clear O' as [|? ? Of' Ofs']. rewrite E in E'. rewrite !RC in E'.
  destruct (@field_unique _ _ _ _ Of Of' (ST _) (ST _) E') as [<- E2]. f_equal.
  destruct fs as [|g fs], fs' as [|g' fs']; try discriminate; [reflexivity|]. injection E2 as E2. eapply IH; split; eauto; try (split; eauto); discriminate.
Qed.

(** * the state as a function of the text read *)
Definition next (q : csv_state) (c : byte) : csv_state :=
  match q with
  | ERROR => ERROR
  | NEW_LINE | PRE_START_SPACE | SEPARATOR =>
      if CSVCL_SEP c then SEPARATOR else if CSVCL_BLANK c then PRE_START_SPACE else if CSVCL_QUOTE c then LEADING_QUOTE else NO_QUOTE_MODE
  | NO_QUOTE_MODE => if CSVCL_SEP c then SEPARATOR else if CSVCL_QUOTE c then ERROR else NO_QUOTE_MODE
  | LEADING_QUOTE => if CSVCL_QUOTE c then INTERNAL_QUOTE else WITH_QUOTE_MODE
  | INTERNAL_QUOTE => if CSVCL_SEP c then SEPARATOR else if CSVCL_BLANK c then SPACE_AFTER_QUOTE else if CSVCL_QUOTE c then WITH_QUOTE_MODE else ERROR
  | WITH_QUOTE_MODE => if CSVCL_QUOTE c then INTERNAL_QUOTE else WITH_QUOTE_MODE
  | SPACE_AFTER_QUOTE => if CSVCL_SEP c then SEPARATOR else if CSVCL_BLANK c then SPACE_AFTER_QUOTE else ERROR
  end.
Definition run (p : list byte) : csv_state := fold_left next p NEW_LINE.
Definition closed (q : csv_state) : Prop := match q with LEADING_QUOTE | WITH_QUOTE_MODE | ERROR => False | _ => True end.
Definition between (q : csv_state) : Prop := match q with NEW_LINE | SEPARATOR => True | _ => False end.

Lemma run_error t : fold_left next t ERROR = ERROR.
Proof. induction t; [reflexivity|exact IHt]. Qed.
Lemma run_plain t : Forall (fun c => ~ is_quote c /\ ~ is_comma c) t ->
  forall q, q = NEW_LINE \/ q = SEPARATOR \/ q = PRE_START_SPACE \/ q = NO_QUOTE_MODE -> closed (fold_left next t q) /\ next (fold_left next t q) COMMA = SEPARATOR.
Proof.
  induction 1 as [|c t [Nq Nc] F IH]; intros q Hq.
  - destruct Hq as [-> | [-> | [-> | -> ]]]; cbn; auto.
  - cbn [fold_left]. apply IH. pose proof (notq Nq) as Eq1. pose proof (nots Nc) as Eq2.
    destruct Hq as [-> | [-> | [-> | -> ]]]; cbn [next]; rewrite Eq1, Eq2; auto; destruct (CSVCL_BLANK c); auto.
Qed.
Lemma run_pre t : Forall is_blank t -> forall q, q = NEW_LINE \/ q = SEPARATOR \/ q = PRE_START_SPACE ->
  next (fold_left next t q) QUOTE = LEADING_QUOTE.
Proof.
  induction 1 as [|c t B F IH]; intros q Hq; cbn [fold_left].
  - destruct Hq as [-> | [-> | -> ]]; reflexivity.
  - apply IH. destruct (blank_not B) as [Nq Nc]. pose proof (nots Nc) as E2. pose proof (isb B) as E1.
    destruct Hq as [-> | [-> | -> ]]; cbn [next]; rewrite E2, E1; auto.
Qed.
Lemma run_body b : forall q, q = LEADING_QUOTE \/ q = WITH_QUOTE_MODE -> next (fold_left next (double b) q) QUOTE = INTERNAL_QUOTE.
Proof.
  induction b as [|c b IH]; intros q Hq.
  - destruct Hq as [-> | -> ]; reflexivity.
  - unfold double. cbn [flat_map]. change (ascii_of_nat 34) with QUOTE. rewrite fold_left_app. fold (double b).
    apply IH. right. destruct (beq_spec c QUOTE) as [->|N].
    + destruct Hq as [-> | -> ]; reflexivity.
    + apply beq_false in N. destruct Hq as [-> | -> ]; cbn [fold_left next]; unfold CSVCL_QUOTE; rewrite N; reflexivity.
Qed.
Lemma run_post t : Forall is_blank t -> forall q, q = INTERNAL_QUOTE \/ q = SPACE_AFTER_QUOTE ->
  closed (fold_left next t q) /\ next (fold_left next t q) COMMA = SEPARATOR.
Proof.
  induction 1 as [|c t B F IH]; intros q Hq; cbn [fold_left].
  - destruct Hq as [-> | -> ]; cbn; auto.
  - apply IH. destruct (blank_not B) as [Nq Nc]. pose proof (nots Nc) as E2. pose proof (isb B) as E1.
    destruct Hq as [-> | -> ]; cbn [next]; rewrite E2, E1; auto.
Qed.
Lemma run_field f q : field_ok f -> between q -> closed (fold_left next (field_text f) q) /\ next (fold_left next (field_text f) q) COMMA = SEPARATOR.
Proof.
  intros O B. destruct f as [t|pre b post]; cbn [field_text field_ok] in *.
  - apply run_plain; [exact O|]. destruct q; auto; destruct B.
  - destruct O as [F1 F2]. rewrite !fold_left_app. cbn [fold_left]. apply run_post; [exact F2|]. left.
    apply run_body. left. apply run_pre; [exact F1|]. destruct q; auto; destruct B.
Qed.
Lemma run_pfx ds : Forall field_ok ds -> forall q, between q -> between (fold_left next (pfx ds) q).
Proof.
  induction 1 as [|f ds O F IH]; intros q B; [exact B|]. unfold pfx. cbn [map concat]. fold (pfx ds). rewrite fold_left_app. apply IH.
  rewrite fold_left_app. cbn [fold_left]. destruct (@run_field f q O B) as [_ ->]. exact Logic.I.
Qed.
Lemma record_snoc fs s : record fs s -> exists ds f, fs = ds ++ [f] /\ Forall field_ok ds /\ field_ok f /\ s = pfx ds ++ field_text f.
Proof.
  intros [N [O E]]. destruct (exists_last N) as [ds [f ->]]. apply Forall_app in O as [O1 O2]. inversion_clear O2.
  exists ds, f. rewrite record_text_snoc in E. auto.
Qed.
Lemma record_intro ds f : Forall field_ok ds -> field_ok f -> record (ds ++ [f]) (pfx ds ++ field_text f).
Proof. intros O1 O2. split; [destruct ds; discriminate|]. split; [apply Forall_app; auto|]. symmetry. apply record_text_snoc. Qed.
Lemma run_record fs s : record fs s -> closed (run s).
Proof.
  intros R. destruct (record_snoc R) as [ds [f [-> [O1 [O2 ->]]]]]. unfold run. rewrite fold_left_app. apply run_field; [exact O2|].
  apply run_pfx; [exact O1|exact Logic.I].
Qed.
Lemma error_not_viable p : run p = ERROR -> ~ viable p.
Proof. intros E [t [fs R]]. apply run_record in R. unfold run in *. rewrite fold_left_app, E, run_error in R. exact R. Qed.

(** * the automaton *)
(** one blank between a closing quote and a comma: the field is then taken from a
    buffer that was not terminated *)
Definition one_blank (s : list byte) : Prop :=
  exists ds pre b x t, Forall field_ok ds /\ field_ok (Quoted pre b [x]) /\ s = pfx ds ++ field_text (Quoted pre b [x]) ++ COMMA :: t.
(** what the buffer holds after a field was taken from it *)
Definition left_over (f : field) : list byte := match f with Plain _ => [] | Quoted _ b _ => b end.

Inductive Inv (n : nat) : vars -> list byte -> Prop :=
| I_new r : S (length r) = n -> Inv n (mkV NEW_LINE (Some NUL :: r) (Some 0) []) []
| I_sep ds f r : Forall field_ok (ds ++ [f]) -> is_cstr (left_over f) -> length (map Some (left_over f) ++ Some NUL :: r) = n ->
    Inv n (mkV SEPARATOR (map Some (left_over f) ++ Some NUL :: r) None (map field_value (ds ++ [f]))) (pfx (ds ++ [f]))
| I_pre ds t r : Forall field_ok ds -> t <> [] -> Forall is_blank t -> is_cstr t -> length (map Some t ++ r) = n ->
    Inv n (mkV PRE_START_SPACE (map Some t ++ r) (Some (length t)) (map field_value ds)) (pfx ds ++ t)
| I_plain ds t r : Forall field_ok ds -> t <> [] -> field_ok (Plain t) -> is_cstr t -> length (map Some t ++ r) = n ->
    Inv n (mkV NO_QUOTE_MODE (map Some t ++ r) (Some (length t)) (map field_value ds)) (pfx ds ++ t)
| I_lead ds pre m : Forall field_ok ds -> Forall is_blank pre -> length m = n ->
    Inv n (mkV LEADING_QUOTE m None (map field_value ds)) (pfx ds ++ pre ++ [QUOTE])
| I_with ds pre b r : Forall field_ok ds -> Forall is_blank pre -> is_cstr b -> length (map Some b ++ r) = n ->
    Inv n (mkV WITH_QUOTE_MODE (map Some b ++ r) (Some (length b)) (map field_value ds)) (pfx ds ++ pre ++ QUOTE :: double b)
| I_int ds pre b r : Forall field_ok ds -> Forall is_blank pre -> is_cstr b -> length (map Some b ++ r) = n ->
    Inv n (mkV INTERNAL_QUOTE (map Some b ++ r) (Some (length b)) (map field_value ds)) (pfx ds ++ field_text (Quoted pre b []))
| I_sp1 ds pre b x r : Forall field_ok ds -> field_ok (Quoted pre b [x]) -> is_cstr b -> length (map Some b ++ r) = n ->
    Inv n (mkV SPACE_AFTER_QUOTE (map Some b ++ r) (Some (length b)) (map field_value ds)) (pfx ds ++ field_text (Quoted pre b [x]))
| I_sp2 ds pre b post r : Forall field_ok ds -> field_ok (Quoted pre b post) -> is_cstr b -> length (map Some b ++ Some NUL :: r) = n ->
    Inv n (mkV SPACE_AFTER_QUOTE (map Some b ++ Some NUL :: r) None (map field_value ds)) (pfx ds ++ field_text (Quoted pre b post))
| I_err fs p c r s l : record fs p -> S (length r) = n -> match s with Some i => i < n | None => True end ->
    Inv n (mkV ERROR (Some NUL :: r) s l) (p ++ [c]).

Lemma reset_ok v : 0 < length (snatched v) -> exists r, reset v = Ok (mkV (st v) (Some NUL :: r) (sn v) (newlist v)) /\ S (length r) = length (snatched v).
Proof. destruct v as [q [|x m] s l]; cbn; [lia|]. intros _. exists m. auto. Qed.
Lemma push_ok q a r l c : 0 < length r -> push_sn (mkV q (map Some a ++ r) (Some (length a)) l) c =
  Ok (mkV q (map Some (a ++ [c]) ++ skipn 1 r) (Some (length (a ++ [c]))) l).
Proof. intros H. unfold push_sn. cbn [sn snatched st newlist]. rewrite write_at by auto. cbn [bind]. rewrite app_length, Nat.add_1_r. reflexivity. Qed.
Lemma put_ok q a r l : 0 < length r -> put_sn (mkV q (map Some a ++ r) (Some (length a)) l) NUL =
  Ok (mkV q (map Some a ++ Some NUL :: skipn 1 r) (Some (length a)) l).
Proof. intros H. unfold put_sn. cbn [sn snatched st newlist]. rewrite write_end by auto. reflexivity. Qed.
Lemma mstr_at a r : is_cstr a -> mstr (map Some a ++ Some NUL :: r) = Ok a.
Proof. intros C. apply mstr_holds. split; [exact C|exists r; reflexivity]. Qed.
Lemma push0_ok q m l c : 0 < length m -> exists r, push_sn (set_sn (mkV q m None l) (Some 0)) c = Ok (mkV q (map Some [c] ++ r) (Some 1) l) /\ length (map Some [c] ++ r) = length m.
Proof. destruct m as [|x m]; cbn; [lia|]. intros _. exists m. auto. Qed.

(** length of the text read bounds the length of the field being read *)
Lemma len_pfx ds t : length t <= length (pfx ds ++ t).
Proof. rewrite app_length. lia. Qed.


Lemma quoted_snoc ds pre b post c : (pfx ds ++ field_text (Quoted pre b post)) ++ [c] = pfx ds ++ field_text (Quoted pre b (post ++ [c])).
Proof. cbn [field_text]. rewrite <- ?app_assoc. reflexivity. Qed.
Ltac solve_len := repeat (rewrite ?app_length, ?map_length, ?skipn_length in *; cbn [length] in *); lia.

Ltac fin := unfold set_sn, append in *; cbn [length st snatched sn newlist] in *; solve_len.
Lemma step_ok n v p c : Inv n v p -> st v <> ERROR -> c <> NUL -> S (length p) < n ->
  one_blank (p ++ [c]) \/ exists v', csv_step v c = Ok (Some v') /\ Inv n v' (p ++ [c]) /\ st v' = next (st v) c.
Proof.
  intros I0 NE NC LN.
  assert (CS : forall t, is_cstr t -> is_cstr (t ++ [c])) by (intros t H; apply is_cstr_app; split; [exact H|]; apply is_cstr_cons; split; [exact NC|intros []]).
  assert (C1 : is_cstr [c]) by (apply is_cstr_cons; split; [exact NC|intros []]).
  destruct I0 as [r L|ds f r O C L|ds t r O N B C L|ds t r O N Ot C L|ds pre m O B L|ds pre b r O B C L|ds pre b r O B C L
                 |ds pre b x r O Of C L|ds pre b post r O Of C L|fs p0 c0 r s l R L Hs]; cbn [st] in *; [| | | | | | | | |congruence].
  - (* NEW_LINE *)
    right. unfold csv_step. cbn [st next app]. destruct (sep_spec c) as [Hc|Hc].
    + unfold is_comma in Hc. subst c. eexists. split; [reflexivity|]. split; [|reflexivity]. cbn.
      apply (@I_sep n [] (Plain []) r); [repeat constructor|intros []|exact L].
    + destruct (blank_spec c) as [Hb|Hb].
      * eexists. split; [reflexivity|]. split; [|reflexivity]. apply (@I_pre n [] [c] r); auto; discriminate.
      * destruct (quote_spec c) as [Hq|Hq].
        -- unfold is_quote in Hq. subst c. eexists. split; [reflexivity|]. split; [|reflexivity]. apply (@I_lead n [] [] (Some NUL :: r)); auto.
        -- unfold CSVCL_ANY1. destruct (blank_spec c), (quote_spec c), (sep_spec c); try contradiction. cbn [negb andb].
           eexists. split; [reflexivity|]. split; [|reflexivity]. apply (@I_plain n [] [c] r); auto; [discriminate|]. repeat constructor; auto.
  - (* SEPARATOR *)
    right. unfold csv_step. cbn [st next]. set (m := map Some (left_over f) ++ Some NUL :: r) in *.
    assert (L0 : 0 < length m) by lia. destruct (sep_spec c) as [Hc|Hc].
    + unfold is_comma in Hc. subst c. destruct (@reset_ok (mkV SEPARATOR m None (map field_value (ds ++ [f]))) L0) as [r' [E L']].
      rewrite E. cbn [bind]. unfold append_snatched, set_sn, append. cbn [st snatched sn newlist]. change (mstr (Some NUL :: r')) with (Ok (@nil byte)). cbn [bind append st snatched sn newlist].
      eexists. split; [reflexivity|]. split; [|reflexivity].
      pose proof (@I_sep n (ds ++ [f]) (Plain []) r') as X. rewrite (pfx_snoc (ds ++ [f])), (map_app field_value (ds ++ [f])) in X. cbn [field_text app left_over map field_value] in X. apply X.
      * apply Forall_app. split; [exact O|repeat constructor].
      * intros [].
      * fin.
    + destruct (blank_spec c) as [Hb|Hb].
      * destruct (@push0_ok SEPARATOR m (map field_value (ds ++ [f])) c L0) as [r' [E L']]. rewrite E. eexists. split; [reflexivity|]. split; [|reflexivity].
        apply (@I_pre n (ds ++ [f]) [c] r'); auto; [discriminate|lia].
      * destruct (quote_spec c) as [Hq|Hq].
        -- unfold is_quote in Hq. subst c. destruct (@reset_ok (mkV SEPARATOR m None (map field_value (ds ++ [f]))) L0) as [r' [E L']].
           rewrite E. eexists. split; [reflexivity|]. split; [|reflexivity]. apply (@I_lead n (ds ++ [f]) [] (Some NUL :: r')); auto.
           fin.
        -- unfold CSVCL_ANY1. destruct (blank_spec c), (quote_spec c), (sep_spec c); try contradiction. cbn [negb andb].
           destruct (@push0_ok SEPARATOR m (map field_value (ds ++ [f])) c L0) as [r' [E L']]. rewrite E.
           eexists. split; [reflexivity|]. split; [|reflexivity]. apply (@I_plain n (ds ++ [f]) [c] r'); auto; [discriminate|repeat constructor; auto|lia].
  - (* PRE_START_SPACE *)
    right. unfold csv_step. cbn [st next]. assert (Lr : 0 < length r) by (pose proof (len_pfx ds t); solve_len).
    assert (L0 : 0 < length (map Some t ++ r)) by lia.
    assert (Ot : field_ok (Plain t)) by (apply blanks_free, B).
    destruct (sep_spec c) as [Hc|Hc].
    + unfold is_comma in Hc. subst c. rewrite put_ok by exact Lr. cbn [bind]. unfold append_snatched, set_sn, append. cbn [st snatched sn newlist]. rewrite mstr_at by exact C.
      cbn [bind append st snatched sn newlist].
      match goal with |- context [reset ?v] => destruct (@reset_ok v) as [r' [E L']]; [cbn [snatched]; solve_len|rewrite E] end.
      eexists. split; [reflexivity|]. split; [|reflexivity]. cbn [st snatched sn newlist] in *.
      pose proof (@I_sep n ds (Plain t) r') as X. rewrite pfx_snoc, map_app in X. rewrite <- app_assoc. apply X;
        [apply Forall_app; auto|intros []|cbn [left_over map app length]; solve_len].
    + destruct (blank_spec c) as [Hb|Hb].
      * rewrite push_ok by exact Lr. eexists. split; [reflexivity|]. split; [|reflexivity]. rewrite <- app_assoc. apply I_pre; auto;
          [destruct t; discriminate|apply Forall_app; auto|solve_len].
      * destruct (quote_spec c) as [Hq|Hq].
        -- unfold is_quote in Hq. subst c. match goal with |- context [reset ?v] => destruct (@reset_ok v L0) as [r' [E L']]; rewrite E end.
           eexists. split; [reflexivity|]. split; [|reflexivity]. rewrite <- app_assoc. apply I_lead; auto. fin.
        -- unfold CSVCL_ANY1. destruct (blank_spec c), (quote_spec c), (sep_spec c); try contradiction. cbn [negb andb].
           rewrite push_ok by exact Lr. eexists. split; [reflexivity|]. split; [|reflexivity]. rewrite <- app_assoc. apply I_plain; auto;
             [destruct t; discriminate|apply Forall_app; auto|solve_len].
  - (* NO_QUOTE_MODE *)
    right. unfold csv_step. cbn [st next]. assert (Lr : 0 < length r) by (pose proof (len_pfx ds t); solve_len).
    assert (L0 : 0 < length (map Some t ++ r)) by lia.
    destruct (sep_spec c) as [Hc|Hc].
    + unfold is_comma in Hc. subst c. rewrite put_ok by exact Lr. cbn [bind]. unfold append_snatched, set_sn, append. cbn [st snatched sn newlist]. rewrite mstr_at by exact C.
      cbn [bind append st snatched sn newlist].
      match goal with |- context [reset ?v] => destruct (@reset_ok v) as [r' [E L']]; [cbn [snatched]; solve_len|rewrite E] end.
      eexists. split; [reflexivity|]. split; [|reflexivity]. cbn [st snatched sn newlist] in *.
      pose proof (@I_sep n ds (Plain t) r') as X. rewrite pfx_snoc, map_app in X. rewrite <- app_assoc. apply X;
        [apply Forall_app; auto|intros []|cbn [left_over map app length]; solve_len].
    + destruct (quote_spec c) as [Hq|Hq].
      * unfold is_quote in Hq. subst c. match goal with |- context [reset ?v] => destruct (@reset_ok v L0) as [r' [E L']]; rewrite E end.
        eexists. split; [reflexivity|]. split; [|reflexivity]. unfold set_sn; cbn [st snatched sn newlist]; eapply I_err; [apply (@record_intro ds (Plain t)); auto|fin|exact Logic.I].
      * unfold CSVCL_ANY3. destruct (quote_spec c), (sep_spec c); try contradiction. cbn [negb andb].
        rewrite push_ok by exact Lr. eexists. split; [reflexivity|]. split; [|reflexivity]. rewrite <- app_assoc. apply I_plain; auto;
             [destruct t; discriminate|apply Forall_app; auto|solve_len].
  - (* LEADING_QUOTE *)
    right. unfold csv_step. cbn [st next]. assert (L0 : 0 < length m) by lia. destruct (quote_spec c) as [Hq|Hq].
    + unfold is_quote in Hq. subst c. eexists. split; [reflexivity|]. split; [|reflexivity]. rewrite <- ?app_assoc.
      pose proof (@I_int n ds pre [] m O B) as X. cbn [field_text double flat_map app map length] in X. apply X; [intros []|exact L].
    + unfold CSVCL_ANY5. destruct (quote_spec c); [contradiction|]. cbn [negb].
      destruct (@push0_ok LEADING_QUOTE m (map field_value ds) c L0) as [r' [E L']]. rewrite E. eexists. split; [reflexivity|]. split; [|reflexivity].
      rewrite <- ?app_assoc. cbn [app]. pose proof (@I_with n ds pre [c] r' O B) as X. unfold double in X. cbn [flat_map] in X.
      change (ascii_of_nat 34) with QUOTE in X. assert (Eb : beq c QUOTE = false) by (apply beq_false; exact n0). rewrite Eb in X. apply X; auto. lia.
  - (* WITH_QUOTE_MODE *)
    right. unfold csv_step. cbn [st next].
    assert (Lr : 0 < length r) by (pose proof (double_len b); solve_len).
    destruct (quote_spec c) as [Hq|Hq].
    + unfold is_quote in Hq. subst c. eexists. split; [reflexivity|]. split; [|reflexivity].
      pose proof (@I_int n ds pre b r O B C L) as X. cbn [field_text] in X. rewrite <- ?app_assoc. cbn [app] in X |- *. exact X.
    + unfold CSVCL_ANY5. destruct (quote_spec c); [contradiction|]. cbn [negb]. rewrite push_ok by exact Lr. eexists. split; [reflexivity|]. split; [|reflexivity].
      pose proof (@I_with n ds pre (b ++ [c]) (skipn 1 r) O B) as X. rewrite double_snoc in X. assert (Eb : beq c QUOTE = false) by (apply beq_false; exact n0). rewrite Eb in X.
      rewrite <- ?app_assoc. cbn [app] in X |- *. apply X; [auto|solve_len].
  - (* INTERNAL_QUOTE *)
    assert (Lb : S (S (length b)) < n).
    { pose proof (double_len b). cbn [field_text] in LN. solve_len. }
    assert (Lr : 1 < length r) by solve_len.
    assert (L0 : 0 < length (map Some b ++ r)) by lia.
    right. unfold csv_step. cbn [st next]. destruct (sep_spec c) as [Hc|Hc].
    + unfold is_comma in Hc. subst c. rewrite put_ok by lia. cbn [bind]. unfold append_snatched, set_sn, append. cbn [st snatched sn newlist]. rewrite mstr_at by exact C.
      eexists. split; [reflexivity|]. split; [|reflexivity]. cbn [append st snatched sn newlist].
      pose proof (@I_sep n ds (Quoted pre b []) (skipn 1 r)) as X. rewrite pfx_snoc, map_app in X. rewrite <- app_assoc. apply X;
        [apply Forall_app; split; [exact O|]; repeat constructor; exact B|exact C|cbn [left_over]; solve_len].
    + destruct (blank_spec c) as [Hb|Hb].
      * eexists. split; [reflexivity|]. split; [|reflexivity]. pose proof (@I_sp1 n ds pre b c r O) as X. cbn [field_text app] in X |- *.
        rewrite <- ?app_assoc in *. cbn [app] in *. rewrite <- ?app_assoc. cbn [app]. apply X; auto. split; [exact B|constructor; [exact Hb|constructor]].
      * destruct (quote_spec c) as [Hq|Hq].
        -- unfold is_quote in Hq. subst c. rewrite push_ok by lia. eexists. split; [reflexivity|]. split; [|reflexivity].
           pose proof (@I_with n ds pre (b ++ [QUOTE]) (skipn 1 r) O B) as X. rewrite double_snoc, beq_refl in X. cbn [field_text].
           rewrite <- ?app_assoc. cbn [app]. rewrite <- ?app_assoc. cbn [app]. apply X; [apply CS, C|solve_len].
        -- unfold CSVCL_ANY1. destruct (blank_spec c), (quote_spec c), (sep_spec c); try contradiction. cbn [negb andb].
           match goal with |- context [reset ?v] => destruct (@reset_ok v L0) as [r' [E L']]; rewrite E end. cbn [bind sn].
           eexists. split; [reflexivity|]. split; [|reflexivity]. unfold set_sn; cbn [st snatched sn newlist]; eapply I_err; [apply (@record_intro ds (Quoted pre b [])); [exact O|split; [exact B|constructor]]|fin|lia].
  - (* one blank *)
    destruct (sep_spec c) as [Hc|Hc].
    + left. exists ds, pre, b, x, []. split; [exact O|]. split; [exact Of|]. rewrite <- app_assoc. unfold is_comma in Hc. subst c. reflexivity.
    + right. assert (Lb : S (S (length b)) < n).
      { pose proof (double_len b). cbn [field_text] in LN. solve_len. }
      assert (Lr : 1 < length r) by solve_len. assert (L0 : 0 < length (map Some b ++ r)) by lia.
      unfold csv_step. cbn [st next]. destruct (sep_spec c); [contradiction|]. destruct (blank_spec c) as [Hb|Hb].
      * cbn [sn]. rewrite put_ok by lia. eexists. split; [reflexivity|]. split; [|reflexivity]. cbn [set_sn st snatched newlist].
        unfold set_sn; cbn [st snatched sn newlist]. rewrite quoted_snoc. pose proof (@I_sp2 n ds pre b [x; c] (skipn 1 r) O) as X. apply X; auto; [|solve_len]. destruct Of as [F1 F2]. split; [exact F1|]. inversion_clear F2. constructor; [assumption|constructor; [exact Hb|constructor]].
      * unfold CSVCL_ANY8. destruct (blank_spec c), (sep_spec c); try contradiction. cbn [negb andb].
        match goal with |- context [reset ?v] => destruct (@reset_ok v L0) as [r' [E L']]; rewrite E end.
        eexists. split; [reflexivity|]. split; [|reflexivity]. unfold set_sn; cbn [st snatched sn newlist]; eapply I_err; [apply (@record_intro ds _); [exact O|exact Of]|fin|exact Logic.I].
  - (* more blanks *)
    right. unfold csv_step. cbn [st next]. assert (L0 : 0 < length (map Some b ++ Some NUL :: r)) by lia. destruct (sep_spec c) as [Hc|Hc].
    + unfold is_comma in Hc. subst c. unfold append_snatched, set_sn, append. cbn [st snatched sn newlist]. rewrite mstr_at by exact C.
      eexists. split; [reflexivity|]. split; [|reflexivity]. cbn [append st snatched sn newlist].
      pose proof (@I_sep n ds (Quoted pre b post) r) as X. rewrite pfx_snoc, map_app in X. rewrite <- app_assoc. apply X;
        [apply Forall_app; split; [exact O|]; repeat constructor; apply Of|exact C|exact L].
    + destruct (blank_spec c) as [Hb|Hb].
      * eexists. split; [reflexivity|]. split; [|reflexivity]. cbn [set_sn st snatched newlist].
        unfold set_sn; cbn [st snatched sn newlist]. rewrite quoted_snoc. pose proof (@I_sp2 n ds pre b (post ++ [c]) r O) as X. apply X; auto. destruct Of as [F1 F2]. split; [exact F1|]. apply Forall_app. auto.
      * unfold CSVCL_ANY8. destruct (blank_spec c), (sep_spec c); try contradiction. cbn [negb andb].
        match goal with |- context [reset ?v] => destruct (@reset_ok v L0) as [r' [E L']]; rewrite E end.
        eexists. split; [reflexivity|]. split; [|reflexivity]. unfold set_sn; cbn [st snatched sn newlist]; eapply I_err; [apply (@record_intro ds _); [exact O|exact Of]|fin|exact Logic.I].
Qed.

Lemma one_blank_app p t : one_blank p -> one_blank (p ++ t).
Proof.
  intros [ds [pre [b [x [u [O [Of ->]]]]]]]. exists ds, pre, b, x, (u ++ t). split; [exact O|]. split; [exact Of|].
  rewrite <- ?app_assoc. reflexivity.
Qed.

Lemma loop_ok n : forall s v p, Inv n v p -> run p = st v -> is_cstr s -> length p + length s < n ->
  one_blank (p ++ s) \/
  (exists v', csv_loop v s = Ok (Some v') /\ Inv n v' (p ++ s) /\ run (p ++ s) = st v') \/
  (csv_loop v s = Ok None /\ exists a c b, p ++ s = a ++ c :: b /\ run a = ERROR).
Proof.
  induction s as [|c s IH]; intros v p I0 R C L.
  - right; left. exists v. rewrite app_nil_r. auto.
  - apply is_cstr_cons in C as [NC C]. cbn [csv_loop length] in *.
    assert (D : st v = ERROR \/ st v <> ERROR) by (destruct (st v); auto; right; discriminate). destruct D as [D|D].
    + right; right. unfold csv_step. rewrite D. split; [reflexivity|]. exists p, c, s. split; [reflexivity|congruence].
    + destruct (@step_ok n v p c I0 D NC ltac:(lia)) as [OB|[v' [E [I1 S1]]]].
      * left. replace (p ++ c :: s) with ((p ++ [c]) ++ s) by (rewrite <- app_assoc; reflexivity). apply one_blank_app, OB.
      * rewrite E. cbn [bind]. specialize (IH v' (p ++ [c]) I1). rewrite app_length in IH. cbn [length] in IH.
        replace ((p ++ [c]) ++ s) with (p ++ c :: s) in IH by (rewrite <- app_assoc; reflexivity). apply IH; [|exact C|lia].
        unfold run in *. rewrite fold_left_app. cbn [fold_left]. rewrite R. auto.
Qed.

(** the last field is empty and the one before it was quoted *)
Definition empty_after_quoted (fs : list field) : Prop := exists ds pre b post, fs = ds ++ [Quoted pre b post; Plain []].

Lemma int_of_size_small k : (Z.of_nat k < 2147483648)%Z -> int_of_size k = Z.of_nat k.
Proof. intros H. unfold int_of_size. rewrite Z.mod_small by lia. lia. Qed.

Lemma trim_ok t r : is_cstr t -> (Z.of_nat (length t) < 2147483648)%Z ->
  (let* t' := mstr (map Some t ++ Some NUL :: r) in
   let len := int_of_size (length t') in
   let* m := (if (1 <? len)%Z then
     let* a := aget (map Some t ++ Some NUL :: r) (Z.to_nat (len - 2)) in
     if beq a CR then
       let* b := aget (map Some t ++ Some NUL :: r) (Z.to_nat (len - 1)) in
       if beq b LF then aset (map Some t ++ Some NUL :: r) (Z.to_nat (len - 2)) NUL else Ok (map Some t ++ Some NUL :: r)
     else Ok (map Some t ++ Some NUL :: r)
   else Ok (map Some t ++ Some NUL :: r)) in mstr m) = Ok (without_crlf t).
Proof.
  intros C B. rewrite mstr_at by exact C. cbn [bind]. cbv zeta. rewrite int_of_size_small by exact B.
  destruct (Z.ltb_spec 1 (Z.of_nat (length t))) as [H|H].
  - assert (X : exists u x y, t = u ++ [x; y]).
    { destruct (@exists_last _ t) as [u [y ->]]; [intros ->; cbn in H; lia|]. rewrite app_length in H. cbn [length] in H.
      destruct (@exists_last _ u) as [u' [x ->]]; [intros ->; cbn in H; lia|]. exists u', x, y. rewrite <- app_assoc. reflexivity. }
    destruct X as [u [x [y ->]]]. rewrite app_length in *. cbn [length] in *.
    replace (Z.to_nat (Z.of_nat (length u + 2) - 2)) with (length u) by lia. replace (Z.to_nat (Z.of_nat (length u + 2) - 1)) with (length u + 1) by lia.
    assert (E1 : map Some (u ++ [x; y]) ++ Some NUL :: r = map Some u ++ Some x :: Some y :: Some NUL :: r) by (rewrite map_app, <- app_assoc; reflexivity).
    assert (E2 : map Some (u ++ [x; y]) ++ Some NUL :: r = map Some (u ++ [x]) ++ Some y :: Some NUL :: r) by (rewrite !map_app, <- ?app_assoc; reflexivity).
    rewrite E1 at 1. rewrite aget_mid by reflexivity. cbn [bind].
    unfold without_crlf. rewrite app_length. cbn [length]. replace (length u + 2 - 2) with (length u) by lia.
    rewrite skipn_app_ge, firstn_app_le by lia. rewrite Nat.sub_diag, firstn_all. cbn [skipn].
    assert (Cu : is_cstr u) by (apply is_cstr_app in C; apply C).
    change [ascii_of_nat 13; ascii_of_nat 10] with [CR; LF].
    destruct (beq_spec x CR) as [->|N1].
    + rewrite E2 at 1. rewrite aget_mid by (rewrite app_length; cbn; lia). cbn [bind]. destruct (beq_spec y LF) as [->|N2].
      * rewrite bytes_eqb_refl. rewrite E1, write_end by (cbn; auto; lia). cbn [bind skipn]. apply mstr_at, Cu.
      * replace (bytes_eqb [_; _] [CR; LF]) with false by (symmetry; apply bytes_eqb_neq; congruence). cbn [bind]. apply mstr_at, C.
    + replace (bytes_eqb [_; _] [CR; LF]) with false by (symmetry; apply bytes_eqb_neq; congruence). cbn [bind]. apply mstr_at, C.
  - cbn [bind]. rewrite mstr_at by exact C. f_equal. unfold without_crlf. cbv zeta. match goal with |- context [bytes_eqb ?a ?b] => replace (bytes_eqb a b) with false; [reflexivity|symmetry; apply bytes_eqb_neq] end.
    intros E. apply (f_equal (@length _)) in E. rewrite skipn_length in E. cbn in E. lia.
Qed.

Lemma finish_ok n v s : Inv n v s -> length s < n -> (Z.of_nat (length s) < 2147483648)%Z -> closed (st v) ->
  exists fs, record fs s /\
    (~ empty_after_quoted fs -> csv_finish v = Ok (Some (values fs))) /\
    (forall ds pre b post, fs = ds ++ [Quoted pre b post; Plain []] -> csv_finish v = Ok (Some (map field_value ds ++ [b; b]))).
Proof.
  intros I0 LN B CL.
  assert (NL : forall (ds0 ds : list field) f pre b post, (f = Plain [] -> False) -> ds0 ++ [f] = ds ++ [Quoted pre b post; Plain []] -> False).
  { intros ds0 ds f pre b post H E. change [Quoted pre b post; Plain []] with ([Quoted pre b post] ++ [Plain []]) in E. rewrite app_assoc in E.
    apply app_inj_tail in E as [_ E]. auto. }
  destruct I0 as [r L|ds f r O C L|ds t r O N Bt C L|ds t r O N Ot C L|ds pre m O Bp L|ds pre b r O Bp C L|ds pre b r O Bp C L
                 |ds pre b x r O Of C L|ds pre b post r O Of C L|fs p0 c0 r s l R L Hs]; cbn [st closed] in CL; try contradiction.
  - exists [Plain []]. split; [split; [discriminate|split; [repeat constructor|reflexivity]]|]. split; [intros _; reflexivity|].
    intros ds pre b post E. destruct ds as [|d1 [|d2 ds]]; discriminate E.
  - exists ((ds ++ [f]) ++ [Plain []]). assert (FE : csv_finish (mkV SEPARATOR (map Some (left_over f) ++ Some NUL :: r) None (map field_value (ds ++ [f]))) = Ok (Some (map field_value (ds ++ [f]) ++ [left_over f]))).
    { unfold csv_finish. cbn [st sn bind snatched newlist]. rewrite mstr_at by exact C. reflexivity. }
    split; [|split].
    + pose proof (@record_intro (ds ++ [f]) (Plain []) O) as X. cbn [field_text] in X. rewrite app_nil_r in X. apply X. constructor.
    + intros NQ. rewrite values_snoc, FE. destruct f as [t|pre b post]; [reflexivity|]. exfalso. apply NQ. exists ds, pre, b, post. rewrite <- app_assoc. reflexivity.
    + intros ds' pre b post E. rewrite FE. change [Quoted pre b post; Plain []] with ([Quoted pre b post] ++ [Plain []]) in E. rewrite app_assoc in E.
      apply app_inj_tail in E as [E _]. apply app_inj_tail in E as [-> ->]. rewrite map_app, <- app_assoc. reflexivity.
  - exists (ds ++ [Plain t]). split; [apply record_intro; [exact O|apply blanks_free, Bt]|]. split.
    + intros _. rewrite values_snoc. unfold csv_finish. cbn [st sn].
      rewrite put_ok by (pose proof (len_pfx ds t); solve_len). cbn [bind snatched newlist].
      pose proof (@trim_ok t (skipn 1 r) C ltac:(pose proof (len_pfx ds t); lia)) as X. rewrite mstr_at in * by exact C. cbn [bind] in *. cbv zeta in X |- *.
      match goal with |- bind ?M _ = _ => change (bind M mstr = Ok (without_crlf t)) in X; destruct M as [m| | |] end; cbn [bind] in *; try discriminate X. rewrite X. reflexivity.
    + intros ds' pre b post E. exfalso. eapply NL; [|exact E]. intros K. injection K. exact N.
  - exists (ds ++ [Plain t]). split; [apply record_intro; [exact O|exact Ot]|]. split.
    + intros _. rewrite values_snoc. unfold csv_finish. cbn [st sn].
      rewrite put_ok by (pose proof (len_pfx ds t); solve_len). cbn [bind snatched newlist].
      pose proof (@trim_ok t (skipn 1 r) C ltac:(pose proof (len_pfx ds t); lia)) as X. rewrite mstr_at in * by exact C. cbn [bind] in *. cbv zeta in X |- *.
      match goal with |- bind ?M _ = _ => change (bind M mstr = Ok (without_crlf t)) in X; destruct M as [m| | |] end; cbn [bind] in *; try discriminate X. rewrite X. reflexivity.
    + intros ds' pre b post E. exfalso. eapply NL; [|exact E]. intros K. injection K. exact N.
  - exists (ds ++ [Quoted pre b []]). split; [apply record_intro; [exact O|split; [exact Bp|constructor]]|]. split.
    + intros _. rewrite values_snoc. unfold csv_finish. cbn [st sn]. rewrite put_ok by (pose proof (double_len b); cbn [field_text] in LN; solve_len).
      cbn [bind snatched newlist]. rewrite mstr_at by exact C. reflexivity.
    + intros ds' pre' b' post' E. exfalso. eapply NL; [|exact E]. discriminate.
  - exists (ds ++ [Quoted pre b [x]]). split; [apply record_intro; [exact O|exact Of]|]. split.
    + intros _. rewrite values_snoc. unfold csv_finish. cbn [st sn]. rewrite put_ok by (pose proof (double_len b); cbn [field_text] in LN; solve_len).
      cbn [bind snatched newlist]. rewrite mstr_at by exact C. reflexivity.
    + intros ds' pre' b' post' E. exfalso. eapply NL; [|exact E]. discriminate.
  - exists (ds ++ [Quoted pre b post]). split; [apply record_intro; [exact O|exact Of]|]. split.
    + intros _. rewrite values_snoc. unfold csv_finish. cbn [st sn bind snatched newlist]. rewrite mstr_at by exact C. reflexivity.
    + intros ds' pre' b' post' E. exfalso. eapply NL; [|exact E]. discriminate.
Qed.

Lemma start_ok (s : list byte) : Inv (S (@length byte s)) (mkV NEW_LINE (Some NUL :: repeat None (@length byte s)) (Some 0) []) [].
Proof. apply I_new. rewrite repeat_length. reflexivity. Qed.

Lemma inv_viable n v s : Inv n v s -> st v <> ERROR -> viable s.
Proof.
  intros I0 NE. destruct I0 as [r L|ds f r O C L|ds t r O N Bt C L|ds t r O N Ot C L|ds pre m O Bp L|ds pre b r O Bp C L|ds pre b r O Bp C L
                 |ds pre b x r O Of C L|ds pre b post r O Of C L|fs p0 c0 r s l R L Hs]; cbn [st] in NE; try congruence.
  - exists [], [Plain []]. split; [discriminate|split; [repeat constructor|reflexivity]].
  - exists [], ((ds ++ [f]) ++ [Plain []]). apply (@record_intro (ds ++ [f]) (Plain []) O). constructor.
  - exists [], (ds ++ [Plain t]). rewrite app_nil_r. apply record_intro; [exact O|apply blanks_free, Bt].
  - exists [], (ds ++ [Plain t]). rewrite app_nil_r. apply record_intro; auto.
  - exists [QUOTE], (ds ++ [Quoted pre [] []]). rewrite <- ?app_assoc. apply (@record_intro ds (Quoted pre [] []) O). split; [exact Bp|constructor].
  - exists [QUOTE], (ds ++ [Quoted pre b []]). rewrite <- ?app_assoc. apply (@record_intro ds (Quoted pre b []) O). split; [exact Bp|constructor].
  - exists [], (ds ++ [Quoted pre b []]). rewrite app_nil_r. apply record_intro; [exact O|]. split; [exact Bp|constructor].
  - exists [], (ds ++ [Quoted pre b [x]]). rewrite app_nil_r. apply record_intro; auto.
  - exists [], (ds ++ [Quoted pre b post]). rewrite app_nil_r. apply record_intro; auto.
Qed.

Lemma csv_state_eq_ERROR q : q = ERROR \/ q <> ERROR.
Proof. destruct q; auto; right; discriminate. Qed.
Lemma csv_loop_app a : forall v b, csv_loop v (a ++ b) = let* o := csv_loop v a in match o with None => Ok None | Some v => csv_loop v b end.
Proof.
  induction a as [|c a IH]; intros v b; [reflexivity|]. cbn [app csv_loop]. destruct (csv_step v c) as [[v'|]| | |]; cbn [bind]; auto.
Qed.
Lemma empty_dec fs : empty_after_quoted fs \/ ~ empty_after_quoted fs.
Proof.
  assert (X : forall fs, fs = [] \/ exists ds (f : field), fs = ds ++ [f]).
  { intros l. destruct l as [|x l]; [auto|]. right. destruct (@exists_last _ (x :: l)) as [u [y E]]; [discriminate|]. eauto. }
  assert (T : forall ds pre b post, ds ++ [Quoted pre b post; Plain []] = (ds ++ [Quoted pre b post]) ++ [Plain []]) by (intros; rewrite <- app_assoc; reflexivity).
  destruct (X fs) as [->|[us [f ->]]]; [right; intros [ds [pre [b [post E]]]]; destruct ds; discriminate E|].
  destruct f as [[|c t]|pre b post]; [|right; intros [ds [p' [b' [q' E]]]]; rewrite T in E; apply app_inj_tail in E as [_ E]; discriminate E..].
  destruct (X us) as [->|[ds [g ->]]]; [right; intros [ds [pre [b [post E]]]]; rewrite T in E; apply app_inj_tail in E as [E _]; destruct ds; discriminate E|].
  destruct g as [t|pre b post]; [right; intros [ds' [p' [b' [q' E]]]]; rewrite T in E; apply app_inj_tail in E as [E _]; apply app_inj_tail in E as [_ E]; discriminate E|].
  left. exists ds, pre, b, post. rewrite <- app_assoc. reflexivity.
Qed.

(** what the parser does with any string *)
Lemma parse_ok s : is_cstr s -> (Z.of_nat (length s) < 2147483648)%Z -> ~ one_blank s ->
  (forall fs, record fs s -> ~ empty_after_quoted fs -> SeqParseCsvString s = Ok (Some (values fs))) /\
  (forall ds pre b post, record (ds ++ [Quoted pre b post; Plain []]) s -> SeqParseCsvString s = Ok (Some (map field_value ds ++ [b; b]))) /\
  (viable s -> ~ (exists fs, record fs s) -> SeqParseCsvString s = Ok None) /\
  (forall a c b, s = a ++ c :: b -> ~ viable a -> SeqParseCsvString s = Ok None) /\
  (exists o, SeqParseCsvString s = Ok o).
Proof.
  intros C B NB. unfold SeqParseCsvString. cbn [repeat aset]. change (aset (None :: repeat None (length s)) 0 NUL) with (Ok (Some NUL :: repeat (@None byte) (length s))). cbn [bind].
  destruct (@loop_ok (S (length s)) s _ [] (start_ok s) eq_refl C ltac:(cbn; lia)) as [OB|[[v' [E [I1 R1]]]|[E [a [c [b [Es Ra]]]]]]]; cbn [app] in *; [contradiction| |].
  - rewrite E. cbn [bind].
    assert (Dec : closed (st v') \/ st v' = ERROR \/ st v' = LEADING_QUOTE \/ st v' = WITH_QUOTE_MODE) by (destruct (st v'); cbn; auto).
    assert (NV : forall a c b, s = a ++ c :: b -> ~ viable a -> st v' = ERROR /\ False).
    { intros a c b Es NV. exfalso.
      destruct (@loop_ok (S (length s)) a _ [] (start_ok s) eq_refl) as [OB|[[va [Ea [Ia Ra]]]|[Ea [a' [c' [b' [Ea' Ra']]]]]]].
      - rewrite Es in C. apply is_cstr_app in C. apply C.
      - rewrite Es, app_length. cbn [length]. lia.
      - cbn [app] in OB. apply NB. rewrite Es. apply one_blank_app, OB.
      - cbn [app] in *. destruct (csv_state_eq_ERROR (st va)) as [H|H]; [|apply NV; exact (inv_viable Ia H)].
        assert (X : csv_loop (mkV NEW_LINE (Some NUL :: repeat None (length s)) (Some 0) []) s = Ok None).
        { rewrite Es at 2. rewrite csv_loop_app, Ea. cbn [bind csv_loop]. unfold csv_step. rewrite H. reflexivity. }
        rewrite X in E. discriminate E.
      - cbn [app] in *. assert (X : csv_loop (mkV NEW_LINE (Some NUL :: repeat None (length s)) (Some 0) []) s = Ok None).
        { rewrite Es at 2. rewrite csv_loop_app, Ea. reflexivity. }
        rewrite X in E. discriminate E. }
    split; [|split; [|split; [|split]]].
    + intros fs Rf NQ. pose proof (run_record Rf) as CL. rewrite R1 in CL.
      destruct (finish_ok I1 ltac:(lia) B CL) as [fs' [Rf' [F1 _]]]. rewrite <- (record_unique Rf Rf') in F1. exact (F1 NQ).
    + intros ds pre b post Rf. pose proof (run_record Rf) as CL. rewrite R1 in CL.
      destruct (finish_ok I1 ltac:(lia) B CL) as [fs' [Rf' [_ F2]]]. rewrite <- (record_unique Rf Rf') in F2. eapply F2. reflexivity.
    + intros V NR. destruct Dec as [CL|[D|[D|D]]].
      * exfalso. apply NR. destruct (finish_ok I1 ltac:(lia) B CL) as [fs' [Rf' _]]. eauto.
      * exfalso. rewrite D in R1. exact (error_not_viable R1 V).
      * unfold csv_finish. rewrite D. reflexivity.
      * unfold csv_finish. rewrite D. reflexivity.
    + intros a c b Es Na. destruct (NV a c b Es Na) as [_ []].
    + destruct Dec as [CL|[D|[D|D]]].
      * destruct (finish_ok I1 ltac:(lia) B CL) as [fs' [Rf' [F1 F2]]].
        destruct (empty_dec fs') as [[ds [pre [b [post Ef]]]]|NQ]; [eexists; exact (F2 _ _ _ _ Ef)|eexists; exact (F1 NQ)].
      * inversion I1; subst; cbn [st] in D; try discriminate D. unfold csv_finish. cbn [st sn snatched newlist].
        destruct s0 as [i|].
        -- unfold put_sn. cbn [sn snatched st newlist]. unfold aset. destruct (Nat.ltb_spec i (length (Some NUL :: r))) as [Hi|Hi]; [|cbn [length] in Hi; lia].
           destruct i as [|i]; cbn; eauto.
        -- cbn. eauto.
      * unfold csv_finish. rewrite D. eauto.
      * unfold csv_finish. rewrite D. eauto.
  - rewrite E. cbn [bind]. split; [|split; [|split; [|split]]]; try reflexivity.
    + intros fs Rf. exfalso. apply run_record in Rf. rewrite Es in Rf. unfold run in *. rewrite fold_left_app, Ra, run_error in Rf. exact Rf.
    + intros ds pre b' post Rf. exfalso. apply run_record in Rf. rewrite Es in Rf. unfold run in *. rewrite fold_left_app, Ra, run_error in Rf. exact Rf.
    + eauto.
Qed.
