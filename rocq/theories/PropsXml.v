(** C27: the XML writer. *)
From Verif Require Import Prelude PreludeFacts Str StrFacts Libc LibcFacts MemSpec WriterModel PropsWriter XmlModel XmlSpec.
Set Implicit Arguments.

(** what is asked of the XML writer *)
Inductive xop :=
| XComment (c : list byte)
| XStart (tag : list byte) (attrs : list XmlAttribute)
| XEnd (tag : list byte)
| XTag (tag : list byte) (value : option (list byte)) (attrs : list XmlAttribute)
| XContent (v : list byte).
Definition xcall (w : Writer) (o : xop) : res Writer :=
  match o with
  | XComment c => XmlComment w c
  | XStart t a => XmlStartTag w t a
  | XEnd t => XmlEndTag w t
  | XTag t v a => XmlTag w t v a
  | XContent v => XmlContent w v
  end.
Fixpoint xcalls (w : Writer) (os : list xop) : res Writer :=
  match os with [] => Ok w | o :: os => let* w := xcall w o in xcalls w os end.

(** text with the five markup characters replaced *)
Definition escaped : list byte -> list byte :=
  flat_map (fun c => match find (fun p => beq c (snd p)) entities with Some (n, _) => lit "&" ++ n ++ lit ";" | None => [c] end).
(** what a reader must see *)
Definition newline : byte := ascii_of_N 10.
Definition xevents (o : xop) : list event :=
  match o with
  | XComment c => [Comment (lit " " ++ escaped c ++ lit " "); Char newline]
  | XStart t a => [Start t a; Char newline]
  | XEnd t => [End_ t; Char newline]
  | XTag t v a => [Start t a] ++ match v with Some v => map Char v | None => [] end ++ [End_ t; Char newline]
  | XContent v => map Char v
  end.
(** names are names, attribute values have no markup characters, comments no two dashes
    in a row; values, content and comments are otherwise arbitrary C strings *)
Definition plain_value (v : list byte) : Prop := is_cstr v /\ ~ In (ascii_of_N 34) v /\ ~ In "<"%char v /\ ~ In "&"%char v.
Definition small (s : list byte) : Prop := (N.of_nat (length s) <= 1073741824)%N.
Definition attrs_ok (a : list XmlAttribute) : Prop :=
  Forall (fun kv => is_name (fst kv) /\ plain_value (snd kv) /\ (N.of_nat (length (fst kv)) + N.of_nat (length (snd kv)) <= 2147483600)%N) a.
Definition tag_ok (t : list byte) : Prop := is_name t /\ (N.of_nat (length t) <= 2147483600)%N.
Definition xlegal (o : xop) : Prop :=
  match o with
  | XComment c => is_cstr c /\ ~ (exists a b, c = a ++ lit "--" ++ b)
  | XStart t a => tag_ok t /\ attrs_ok a
  | XEnd t => tag_ok t
  | XTag t v a => tag_ok t /\ attrs_ok a /\ match v with Some v => is_cstr v | None => True end
  | XContent v => is_cstr v
  end.

(** ** the text that reaches the writer *)
Definition attrs_text (a : list XmlAttribute) : list byte :=
  flat_map (fun kv => fst kv ++ lit "=" ++ [cQUOT] ++ snd kv ++ [cQUOT] ++ lit " ") a.
Definition start_text (t : list byte) (a : list XmlAttribute) : list byte :=
  (lit "<" ++ t) ++ (if 0 <? length a then lit " " else []) ++ attrs_text a ++ lit ">".
Definition xtext (o : xop) : list byte :=
  match o with
  | XComment c => lit "<!-- " ++ escaped c ++ lit " -->" ++ [cNL]
  | XStart t a => start_text t a ++ [cNL]
  | XEnd t => lit "</" ++ t ++ lit ">" ++ [cNL]
  | XTag t v a => start_text t a ++ match v with Some v => escaped v | None => [] end ++ lit "</" ++ t ++ lit ">" ++ [cNL]
  | XContent v => escaped v
  end.

Definition wkind (w w' : Writer) : Prop := match w, w' with WT_STRING _, WT_STRING _ | WT_FILE _, WT_FILE _ => True | _, _ => False end.
Lemma wkind_refl w : wkind w w. Proof. destruct w; exact Logic.I. Qed.
Lemma wkind_trans a b c : wkind a b -> wkind b c -> wkind a c. Proof. destruct a, b, c; cbn; tauto. Qed.
(** [f w] adds the text [t] *)
Definition adds (f : Writer -> res Writer) (t : list byte) : Prop :=
  forall w s, wholds w s -> exists w', f w = Ok w' /\ wholds w' (s ++ t) /\ wkind w w'.

Lemma adds_ret : adds (fun w => Ok w) [].
Proof. intros w s H. exists w. rewrite app_nil_r. auto using wkind_refl. Qed.
Lemma adds_bind f g t u : adds f t -> adds g u -> adds (fun w => let* w := f w in g w) (t ++ u).
Proof.
  intros F G w s H. destruct (F w s H) as [w1 [E1 [H1 K1]]]. destruct (G w1 _ H1) as [w2 [E2 [H2 K2]]].
  exists w2. rewrite E1. cbn [bind]. rewrite E2, app_assoc. eauto using wkind_trans.
Qed.
Lemma adds_op o : wlegal o -> adds (fun w => let* ' (w, _) := wcall w o in Ok w) (wtext o).
Proof. intros L w s H. destruct (@wcall_ok w s o H L) as [w' [E [H' K]]]. exists w'. rewrite E. auto. Qed.
Lemma adds_text t : is_cstr t -> (N.of_nat (length t) <= 2147483647)%N -> adds (fun w => put_text w t) t.
Proof. intros C L. exact (@adds_op (WWrite t) (conj C L)). Qed.
Lemma adds_fmt t : is_cstr t -> (N.of_nat (length t) <= 2147483647)%N -> adds (fun w => put_fmt w t) t.
Proof. intros C L. exact (@adds_op (WF t) (conj C L)). Qed.
Lemma adds_char c : c <> NUL -> adds (fun w => put_char w c) [c].
Proof. intros C. exact (@adds_op (WChar c) C). Qed.

Ltac cstr := let H := fresh in intros H; repeat destruct H as [H|H]; try discriminate H; try destruct H.
Lemma adds_escaped v : is_cstr v -> adds (fun w => WriteEscaped w v) (escaped v).
Proof.
  induction v as [|c v IH]; intros C; [exact adds_ret|]. apply is_cstr_cons in C as [N C]. specialize (IH C).
  unfold escaped. cbn [flat_map]. fold (escaped v).
  assert (X : adds (fun w => if beq c cAMP then put_text w (lit "&amp;")
                else if beq c cGT then put_text w (lit "&gt;")
                else if beq c cQUOT then put_text w (lit "&quot;")
                else if beq c cAPOS then put_text w (lit "&apos;")
                else if beq c cLT then put_text w (lit "&lt;")
                else put_char w c) (match find (fun p => beq c (snd p)) entities with Some (n, _) => lit "&" ++ n ++ lit ";" | None => [c] end)).
  { cbn [find entities snd]. change "&"%char with cAMP. change "<"%char with cLT. change ">"%char with cGT. change "'"%char with cAPOS. fold cQUOT.
    destruct (beq_spec c cAMP) as [->|]; [apply adds_text; [cstr|cbn; lia]|].
    destruct (beq_spec c cGT) as [->|]; [apply adds_text; [cstr|cbn; lia]|].
    destruct (beq_spec c cQUOT) as [->|]; [apply adds_text; [cstr|cbn; lia]|].
    destruct (beq_spec c cAPOS) as [->|]; [apply adds_text; [cstr|cbn; lia]|].
    destruct (beq_spec c cLT) as [->|]; [apply adds_text; [cstr|cbn; lia]|].
    apply adds_char. exact N. }
  intros w s H. destruct (adds_bind X IH w s H) as [w' [E R]]. exists w'. split; [exact E|exact R].
Qed.

Lemma name_cstr s : is_name s -> is_cstr s.
Proof.
  assert (Z : forall c, name_char c = true -> c <> NUL) by (intros c H ->; discriminate).
  destruct s as [|c r]; [intros []|]. intros [A B]. apply is_cstr_cons. split; [intros ->; discriminate|].
  rewrite forallb_forall in B. intros I. exact (Z NUL (B _ I) eq_refl).
Qed.
Lemma len_lit s t : length (A:=byte) (s ++ t) = length s + length t. Proof. apply app_length. Qed.

Lemma adds_attrs a : attrs_ok a -> adds (fun w => emit_attrs w a) (attrs_text a).
Proof.
  induction a as [|[k v] a IH]; intros H; [exact adds_ret|]. inversion_clear H as [|? ? [Hk [[Hv _] Hl]] H']. specialize (IH H'). cbn [fst snd] in *.
  unfold attrs_text. cbn [flat_map fst snd]. fold (attrs_text a).
  assert (F : adds (fun w => put_fmt w (k ++ lit "=" ++ [cQUOT] ++ v ++ [cQUOT] ++ lit " ")) (k ++ lit "=" ++ [cQUOT] ++ v ++ [cQUOT] ++ lit " ")).
  { apply adds_fmt.
    - rewrite !is_cstr_app. split; [apply name_cstr; exact Hk|]. split; [cstr|]. split; [cstr|]. split; [exact Hv|]. split; cstr.
    - rewrite !app_length. cbn [length]. change (length (lit "=")) with 1. change (length (lit " ")) with 1. lia. }
  intros w s W. destruct (adds_bind F IH w s W) as [w' [E R]]. exists w'. split; [exact E|exact R].
Qed.
Lemma adds_start t a : tag_ok t -> attrs_ok a -> adds (fun w => XmlEmitStartTag w t a) (start_text t a).
Proof.
  intros [T L] A. unfold XmlEmitStartTag, start_text. apply adds_bind; [|apply adds_bind; [|apply adds_bind]].
  - apply adds_fmt; [apply is_cstr_app; split; [cstr|apply name_cstr; exact T]|]. rewrite app_length. change (length (lit "<")) with 1; change (length (lit "</")) with 2; change (length (lit ">")) with 1; cbn [length]; lia.
  - destruct (0 <? length a); [apply adds_text; [cstr|cbn; lia]|exact adds_ret].
  - apply adds_attrs. exact A.
  - apply adds_text; [cstr|cbn; lia].
Qed.
Lemma adds_end t : tag_ok t -> adds (fun w => XmlEndTag w t) (lit "</" ++ t ++ lit ">" ++ [cNL]).
Proof.
  intros [T L]. apply adds_fmt.
  - rewrite !is_cstr_app. split; [cstr|]. split; [apply name_cstr; exact T|]. split; cstr.
  - rewrite !app_length. change (length (lit "<")) with 1; change (length (lit "</")) with 2; change (length (lit ">")) with 1; cbn [length]; lia.
Qed.
Lemma adds_xcall o : xlegal o -> adds (fun w => xcall w o) (xtext o).
Proof.
  destruct o as [c|t a|t|t v a|v]; cbn [xlegal xcall xtext].
  - intros [C _]. unfold XmlComment. apply adds_bind; [apply adds_text; [cstr|cbn; lia]|]. apply adds_bind; [apply adds_escaped; exact C|].
    apply adds_text; [cstr|cbn; lia].
  - intros [T A]. unfold XmlStartTag. apply adds_bind; [apply adds_start; auto|apply adds_text; [cstr|cbn; lia]].
  - apply adds_end.
  - intros [T [A V]]. unfold XmlTag. apply adds_bind; [apply adds_start; auto|]. apply adds_bind; [|apply adds_end; auto].
    destruct v; [apply adds_escaped; exact V|exact adds_ret].
  - apply adds_escaped.
Qed.
Lemma adds_xcalls os : Forall xlegal os -> adds (fun w => xcalls w os) (concat (map xtext os)).
Proof.
  induction 1 as [|o os L H IH]; [exact adds_ret|]. cbn [map concat]. intros w s W.
  destruct (adds_bind (adds_xcall _ L) IH w s W) as [w' [E R]]. exists w'. split; [exact E|exact R].
Qed.

(** ** what a reader makes of it *)
Lemma read_app a b p : read_from p (a ++ b) = match read_from p a with None => None | Some (q, e) => match read_from q b with None => None | Some (r, es) => Some (r, e ++ es) end end.
Proof.
  revert p. induction a as [|c a IH]; intros p; cbn [read_from app].
  - destruct (read_from p b) as [[? ?]|]; reflexivity.
  - destruct (step p c) as [[q e]|]; [|reflexivity]. rewrite IH. destruct (read_from q a) as [[q' e']|]; [|reflexivity].
    destruct (read_from q' b) as [[? ?]|]; [|reflexivity]. rewrite app_assoc. reflexivity.
Qed.
Lemma read_then p a q e b r es : read_from p a = Some (q, e) -> read_from q b = Some (r, es) -> read_from p (a ++ b) = Some (r, e ++ es).
Proof. intros A B. rewrite read_app, A, B. reflexivity. Qed.

Lemma read_escaped v : read_from InText (escaped v) = Some (InText, map Char v).
Proof.
  induction v as [|c v IH]; [reflexivity|]. unfold escaped. cbn [flat_map]. fold (escaped v). change (map Char (c :: v)) with ([Char c] ++ map Char v).
  eapply read_then; [|exact IH]. destruct c as [[] [] [] [] [] [] [] []]; reflexivity.
Qed.
Lemma name_not c x : name_char c = true -> name_char x = false -> beq c x = false.
Proof. intros A B. apply beq_false. intros ->. congruence. Qed.
Lemma name_start_char c : name_start c = true -> name_char c = true.
Proof. unfold name_char. intros ->. reflexivity. Qed.

Lemma read_start_name t : forall n, forallb name_char t = true -> n <> [] -> read_from (InStartTag n) t = Some (InStartTag (n ++ t), []).
Proof.
  induction t as [|c t IH]; intros n F N; [rewrite app_nil_r; reflexivity|]. cbn [forallb] in F. apply andb_prop in F as [F1 F2].
  cbn [read_from step]. rewrite (@name_not c ">"%char), (@name_not c " "%char), F1 by auto. rewrite IH; [|exact F2|destruct n; discriminate].
  rewrite <- app_assoc. reflexivity.
Qed.
Lemma read_end_name t : forall n, forallb name_char t = true -> n <> [] -> read_from (InEndTag n) t = Some (InEndTag (n ++ t), []).
Proof.
  induction t as [|c t IH]; intros n F N; [rewrite app_nil_r; reflexivity|]. cbn [forallb] in F. apply andb_prop in F as [F1 F2].
  cbn [read_from step]. rewrite (@name_not c ">"%char) by auto. destruct n as [|x n]; [congruence|]. rewrite F1. rewrite IH; [|exact F2|discriminate].
  rewrite <- app_assoc. reflexivity.
Qed.
Lemma read_attr_name k n a : forall m, forallb name_char k = true -> read_from (InAttrName n a m) k = Some (InAttrName n a (m ++ k), []).
Proof.
  induction k as [|c k IH]; intros m F; [rewrite app_nil_r; reflexivity|]. cbn [forallb] in F. apply andb_prop in F as [F1 F2].
  cbn [read_from step]. rewrite (@name_not c "="%char), F1 by auto. rewrite IH by exact F2. rewrite <- app_assoc. reflexivity.
Qed.
Lemma read_attr_value n a k v : forall m, plain_value v -> read_from (InAttrValue n a k m) v = Some (InAttrValue n a k (m ++ v), []).
Proof.
  induction v as [|c v IH]; intros m P; [rewrite app_nil_r; reflexivity|]. destruct P as [P0 [P1 [P2 P3]]].
  cbn [read_from step]. assert (Q : forall x, ~ In x (c :: v) -> beq c x = false) by (intros x Hx; apply beq_false; intros ->; apply Hx; left; reflexivity).
  rewrite !Q by assumption. cbn [orb]. rewrite IH; [rewrite <- app_assoc; reflexivity|].
  apply is_cstr_cons in P0 as [_ P0]. split; [exact P0|]. repeat split; intros I; [apply P1|apply P2|apply P3]; right; exact I.
Qed.
Lemma read_attrs a : forall n b, attrs_ok a -> read_from (InAttrs n b) (attrs_text a) = Some (InAttrs n (b ++ a), []).
Proof.
  induction a as [|[k v] a IH]; intros n b H; [rewrite app_nil_r; reflexivity|]. inversion_clear H as [|? ? [Hk [Hv _]] H']. cbn [fst snd] in *.
  unfold attrs_text. cbn [flat_map fst snd]. fold (attrs_text a).
  destruct k as [|c k]; [destruct Hk|]. destruct Hk as [K1 K2].
  change ((c :: k) ++ lit "=" ++ [cQUOT] ++ v ++ [cQUOT] ++ lit " ") with ([c] ++ (k ++ (lit "=" ++ [cQUOT]) ++ (v ++ [cQUOT] ++ lit " "))).
  specialize (IH n (b ++ [(c :: k, v)]) H'). rewrite <- app_assoc in IH.
  change (@nil event) with (@nil event ++ []). eapply read_then; [|exact IH].
  change (@nil event) with (@nil event ++ []). eapply read_then.
  { cbn [read_from step]. rewrite (@name_not c ">"%char), (@name_not c " "%char), K1 by (auto using name_start_char). reflexivity. }
  change (@nil event) with (@nil event ++ []). eapply read_then; [apply read_attr_name; exact K2|].
  change (@nil event) with (@nil event ++ []). eapply read_then; [reflexivity|].
  change (@nil event) with (@nil event ++ []). eapply read_then; [apply read_attr_value; exact Hv|]. reflexivity.
Qed.
Lemma read_lt c : name_start c = true -> read_from InText (lit "<" ++ [c]) = Some (InStartTag [c], []).
Proof. destruct c as [[] [] [] [] [] [] [] []]; vm_compute; intros H; first [discriminate H | reflexivity]. Qed.
Lemma read_lt_slash c : name_start c = true -> read_from InText (lit "</" ++ [c]) = Some (InEndTag [c], []).
Proof. destruct c as [[] [] [] [] [] [] [] []]; vm_compute; intros H; first [discriminate H | reflexivity]. Qed.
Lemma read_start t a : is_name t -> attrs_ok a -> read_from InText (start_text t a) = Some (InText, [Start t a]).
Proof.
  intros T A. unfold start_text. destruct t as [|c t]; [destruct T|]. destruct T as [T1 T2].
  change (lit "<" ++ c :: t) with ((lit "<" ++ [c]) ++ t).
  assert (N : [c] <> []) by discriminate.
  pose proof (@read_then _ _ _ _ _ _ _ (read_lt _ T1) (@read_start_name _ _ T2 N)) as X. cbn [app] in X.
  change [Start (c :: t) a] with ([] ++ [Start (c :: t) a]). eapply read_then; [exact X|].
  destruct a as [|x a]; [reflexivity|]. change (0 <? length (x :: a)) with true. cbn iota.
  change [Start (c :: t) (x :: a)] with ([] ++ [Start (c :: t) (x :: a)]). eapply read_then; [reflexivity|].
  change [Start (c :: t) (x :: a)] with ([] ++ [Start (c :: t) (x :: a)]). eapply read_then; [apply read_attrs; exact A|]. reflexivity.
Qed.
Lemma read_end t : is_name t -> read_from InText (lit "</" ++ t ++ lit ">" ++ [cNL]) = Some (InText, [End_ t; Char newline]).
Proof.
  intros T. destruct t as [|c t]; [destruct T|]. destruct T as [T1 T2]. change (lit "</" ++ (c :: t) ++ lit ">" ++ [cNL]) with ((lit "</" ++ [c]) ++ t ++ lit ">" ++ [cNL]).
  assert (N : [c] <> []) by discriminate.
  change [End_ (c :: t); Char newline] with ([] ++ [End_ (c :: t); Char newline]). eapply read_then; [apply read_lt_slash; exact T1|].
  change [End_ (c :: t); Char newline] with ([] ++ [End_ (c :: t); Char newline]). eapply read_then; [apply (@read_end_name _ _ T2 N)|]. reflexivity.
Qed.

(** comments: the text seen so far never ends in two dashes *)
Definition no_dashes (c : list byte) : Prop := ~ (exists a b, c = a ++ lit "--" ++ b).
Lemma no_dashes_tail c r : no_dashes (c :: r) -> no_dashes r.
Proof. intros H [a [b E]]. apply H. exists (c :: a), b. rewrite E. reflexivity. Qed.
Lemma esc_char_comment c t : c <> "-"%char ->
  read_from (InComment t) (escaped [c]) = Some (InComment (t ++ escaped [c]), []) /\
  read_from (InCommentDash t) (escaped [c]) = Some (InComment (t ++ ["-"%char] ++ escaped [c]), []).
Proof.
  intros N. assert (G : forall u m, ~ In "-"%char u -> read_from (InComment m) u = Some (InComment (m ++ u), [])).
  { induction u as [|x u IH]; intros m I; [rewrite app_nil_r; reflexivity|]. cbn [read_from step].
    replace (beq x "-") with false by (symmetry; apply beq_false; intros ->; apply I; left; reflexivity).
    rewrite IH by (intros J; apply I; right; exact J). rewrite <- app_assoc. reflexivity. }
  assert (D : forall u m, u <> [] -> ~ In "-"%char u -> read_from (InCommentDash m) u = Some (InComment (m ++ ["-"%char] ++ u), [])).
  { intros u m Z I. destruct u as [|x u]; [congruence|]. cbn [read_from step].
    replace (beq x "-") with false by (symmetry; apply beq_false; intros ->; apply I; left; reflexivity).
    rewrite G by (intros J; apply I; right; exact J). rewrite <- app_assoc. reflexivity. }
  assert (I : ~ In "-"%char (escaped [c])).
  { cbn [escaped flat_map]. rewrite app_nil_r. destruct (find _ entities) as [[n d]|] eqn:F; [|intros [->|[]]; congruence].
    apply find_some in F as [F _]. cbn in F. intros J.
    repeat destruct F as [F|F]; try (injection F as <- <-); try destruct F; repeat destruct J as [J|J]; try discriminate J; destruct J. }
  split; [apply G; exact I|apply D; [|exact I]]. cbn [escaped flat_map]. rewrite app_nil_r. destruct (find _ entities) as [[n d]|]; discriminate.
Qed.
Lemma escaped_app a b : escaped (a ++ b) = escaped a ++ escaped b.
Proof. apply flat_map_app. Qed.
Lemma read_comment c : forall t, no_dashes c ->
  (exists p, read_from (InComment t) (escaped c) = Some (p, []) /\ (p = InComment (t ++ escaped c) \/ exists u, p = InCommentDash u /\ u ++ lit "-" = t ++ escaped c)) /\
  (hd_error c <> Some "-"%char -> exists p, read_from (InCommentDash t) (escaped c) = Some (p, []) /\
     (p = InComment (t ++ lit "-" ++ escaped c) \/ exists u, p = InCommentDash u /\ u ++ lit "-" = t ++ lit "-" ++ escaped c)).
Proof.
  induction c as [|x c IH]; intros t N.
  - split.
    + exists (InComment t). split; [reflexivity|]. left. rewrite app_nil_r. reflexivity.
    + intros _. exists (InCommentDash t). split; [reflexivity|]. right. exists t. split; [reflexivity|]. reflexivity.
  - change (escaped (x :: c)) with (escaped ([x] ++ c)). rewrite escaped_app. destruct (beq_spec x "-"%char) as [->|X].
    + split; [|intros H; exfalso; apply H; reflexivity].
      destruct (IH t (no_dashes_tail N)) as [_ D]. destruct D as [p [E P]].
      { destruct c as [|y c]; [discriminate|]. intros H. injection H as ->. apply N. exists [], c. reflexivity. }
      exists p. split; [|exact P]. change (@nil event) with (@nil event ++ []). eapply read_then; [reflexivity|exact E].
    + pose proof (@esc_char_comment x t X) as [A B]. destruct (IH (t ++ escaped [x]) (no_dashes_tail N)) as [[p [E P]] _].
      destruct (IH (t ++ lit "-" ++ escaped [x]) (no_dashes_tail N)) as [[q [F Q]] _]. split.
      * exists p. split; [change (@nil event) with (@nil event ++ []); eapply read_then; [exact A|exact E]|]. rewrite <- app_assoc in P. exact P.
      * intros _. exists q. split; [change (@nil event) with (@nil event ++ []); eapply read_then; [exact B|exact F]|]. rewrite <- !app_assoc in Q. exact Q.
Qed.

Lemma read_xtext o : xlegal o -> read_from InText (xtext o) = Some (InText, xevents o).
Proof.
  destruct o as [c|t a|t|t v a|v]; cbn [xlegal xtext xevents].
  - intros [_ D]. change [Comment (lit " " ++ escaped c ++ lit " "); Char newline] with ([] ++ [Comment (lit " " ++ escaped c ++ lit " "); Char newline]).
    eapply read_then; [reflexivity|]. destruct (@read_comment c (lit " ") D) as [[p [E P]] _].
    change [Comment (lit " " ++ escaped c ++ lit " "); Char newline] with ([] ++ [Comment (lit " " ++ escaped c ++ lit " "); Char newline]).
    eapply read_then; [exact E|]. destruct P as [-> | [u [-> U]]].
    + cbn. rewrite ?app_assoc. reflexivity.
    + assert (Z : lit " " ++ escaped c ++ lit " " = u ++ lit "- ") by (rewrite app_assoc, <- U, <- app_assoc; reflexivity). rewrite Z. reflexivity.
  - intros [T A]. change [Start t a; Char newline] with ([Start t a] ++ [Char newline]). eapply read_then; [apply read_start; [apply T|exact A]|reflexivity].
  - intros [T _]. apply read_end. exact T.
  - intros [[T _] [A V]]. eapply read_then; [apply read_start; auto|]. eapply read_then; [|apply read_end; exact T]. destruct v; [apply read_escaped|reflexivity].
  - intros _. apply read_escaped.
Qed.

(** Every sequence of calls on a new string writer succeeds, and an XML reader gets back
    exactly the tags, attributes, comments and character data that were written. *)
Theorem C27_document os : Forall xlegal os -> exists w d doc,
  xcalls StringWriter os = Ok w /\ StringWriterData w = Ok d /\ holds d doc /\
  xml_read doc = Some (concat (map xevents os)).
Proof.
  intros L. destruct (@adds_xcalls os L StringWriter []) as [w [E [H K]]].
  { split; [reflexivity|]. split; [reflexivity|]. exists []. reflexivity. }
  cbn in K. destruct w as [i|f]; [|destruct K]. cbn [app wholds] in H. destruct H as [H1 [H2 [r H3]]].
  exists (WT_STRING i), (wdata i), (concat (map xtext os)). split; [exact E|]. split; [reflexivity|].
  assert (X : Forall (fun o => is_cstr (xtext o)) os).
  { clear - L. eapply Forall_impl; [|exact L]. intros o Lo.
    assert (W : forall v, is_cstr v -> is_cstr (escaped v)).
    { induction v as [|c v IH]; [intros _ []|]. intros C. apply is_cstr_cons in C as [N C]. unfold escaped. cbn [flat_map]. apply is_cstr_app. split; [|apply IH; exact C].
      destruct (find _ entities) as [[n d]|] eqn:F; [|intros [I|[]]; congruence]. apply find_some in F as [F _]. cbn in F. intros J.
      repeat destruct F as [F|F]; try (injection F as <- <-); try destruct F; repeat destruct J as [J|J]; try discriminate J; destruct J. }
    assert (S : forall t a, is_name t -> attrs_ok a -> is_cstr (start_text t a)).
    { intros t a T A. unfold start_text. rewrite !is_cstr_app. split; [split; [cstr|apply name_cstr; exact T]|]. split; [destruct (0 <? length a); cstr|]. split; [|cstr].
      induction A as [|[k v] a [Ak [[Av _] _]] A IH]; [intros []|]. unfold attrs_text. cbn [flat_map fst snd] in *. apply is_cstr_app. split; [|exact IH].
      rewrite !is_cstr_app. split; [apply name_cstr; exact Ak|]. split; [cstr|]. split; [cstr|]. split; [exact Av|]. split; cstr. }
    destruct o as [c|t a|t|t v a|v]; cbn [xlegal xtext] in *.
    - rewrite !is_cstr_app. split; [cstr|]. split; [apply W; apply Lo|]. split; cstr.
    - rewrite is_cstr_app. destruct Lo as [[T _] A]. split; [apply S; auto|cstr].
    - rewrite !is_cstr_app. split; [cstr|]. split; [apply name_cstr; apply Lo|]. split; cstr.
    - destruct Lo as [[T _] [A V]]. rewrite !is_cstr_app. split; [apply S; auto|]. split; [destruct v; [apply W; exact V|intros []]|]. split; [cstr|]. split; [apply name_cstr; exact T|]. split; cstr.
    - apply W. exact Lo. }
  split.
  - split; [|exists r; exact H3]. clear - X. induction X; cbn; [intros []|]. apply is_cstr_app. auto.
  - assert (R : read_from InText (concat (map xtext os)) = Some (InText, concat (map xevents os))); [|unfold xml_read; rewrite R; reflexivity].
    clear - L. induction L as [|o os Lo L IH]; [reflexivity|]. cbn [map concat]. eapply read_then; [apply read_xtext; exact Lo|exact IH].
Qed.

(** Escaped content has no markup characters other than the & of a predefined entity,
    so no value can open or close a tag, *)
Theorem C27_no_markup v c : In c (escaped v) -> c <> "<"%char /\ c <> ">"%char /\ c <> ascii_of_N 34 /\ c <> "'"%char.
Proof.
  unfold escaped. rewrite in_flat_map. intros [x [_ I]].
  destruct (find _ entities) as [[n d]|] eqn:F.
  - apply find_some in F as [F _]. cbn in F.
    repeat destruct F as [F|F]; try (injection F as <- <-); try destruct F; repeat destruct I as [I|I]; try (destruct I); repeat split; discriminate.
  - destruct I as [<-|[]]. assert (N : forall p, In p entities -> beq x (snd p) = false) by (intros p Ip; exact (find_none _ _ F p Ip)).
    repeat split; intros ->.
    + discriminate (N (lit "lt", "<"%char)). cbn. tauto.
    + discriminate (N (lit "gt", ">"%char)). cbn. tauto.
    + discriminate (N (lit "quot", ascii_of_N 34)). cbn. tauto.
    + discriminate (N (lit "apos", "'"%char)). cbn. tauto.
Qed.
(** and different values give different text. *)
Theorem C27_reversible v v' : escaped v = escaped v' -> v = v'.
Proof.
  intros E. pose proof (read_escaped v) as A. rewrite E, read_escaped in A. injection A as A.
  revert v' A E. induction v as [|c v IH]; intros [|c' v'] A E; try discriminate A; [reflexivity|]. injection A as -> A.
  f_equal. apply IH; [exact A|]. unfold escaped in E. cbn [flat_map] in E. apply app_inv_head in E. exact E.
Qed.

(** Attribute values are written as they are: a quote in one ends it and adds an attribute, *)
Theorem C27_attribute_refuted : exists w d doc,
  XmlTag StringWriter (lit "a") None [(lit "k", lit "v" ++ [ascii_of_N 34] ++ lit " x=" ++ [ascii_of_N 34] ++ lit "y")] = Ok w /\
  StringWriterData w = Ok d /\ holds d doc /\
  xml_read doc = Some [Start (lit "a") [(lit "k", lit "v"); (lit "x", lit "y")]; End_ (lit "a"); Char newline].
Proof.
  destruct (@adds_bind (fun w => XmlEmitStartTag w (lit "a") [(lit "k", lit "v" ++ [ascii_of_N 34] ++ lit " x=" ++ [ascii_of_N 34] ++ lit "y")]) (fun w => XmlEndTag w (lit "a"))
     (start_text (lit "a") [(lit "k", lit "v" ++ [ascii_of_N 34] ++ lit " x=" ++ [ascii_of_N 34] ++ lit "y")]) (lit "</" ++ lit "a" ++ lit ">" ++ [cNL])) with (w := StringWriter) (s := @nil byte) as [w [E [H K]]].
  - unfold XmlEmitStartTag, start_text. apply adds_bind; [apply adds_fmt; [cstr|cbn; lia]|]. apply adds_bind; [apply adds_text; [cstr|cbn; lia]|]. apply adds_bind; [|apply adds_text; [cstr|cbn; lia]].
    cbn [emit_attrs]. unfold attrs_text. cbn [flat_map fst snd]. apply adds_bind; [apply adds_fmt; [cstr|cbn; lia]|exact adds_ret].
  - apply adds_end. split; [split; reflexivity|cbn; lia].
  - split; [reflexivity|]. split; [reflexivity|]. exists []. reflexivity.
  - cbn in K. destruct w as [i|f]; [|destruct K]. cbn [app wholds] in H. destruct H as [H1 [H2 [r H3]]].
    eexists (WT_STRING i), (wdata i), _. split; [unfold XmlTag; cbn [bind]; exact E|]. split; [reflexivity|]. split; [split; [|exists r; exact H3]; cstr|]. reflexivity.
Qed.
(** and a comment with two dashes makes the document malformed. *)
Theorem C27_comment_refuted : exists w d doc, XmlComment StringWriter (lit "a--b") = Ok w /\ StringWriterData w = Ok d /\ holds d doc /\ xml_read doc = None.
Proof.
  destruct (@adds_bind (fun w => put_text w (lit "<!-- ")) (fun w => let* w := WriteEscaped w (lit "a--b") in put_text w (lit " -->" ++ [cNL]))
     (lit "<!-- ") (escaped (lit "a--b") ++ lit " -->" ++ [cNL])) with (w := StringWriter) (s := @nil byte) as [w [E [H K]]].
  - apply adds_text; [cstr|cbn; lia].
  - apply adds_bind; [apply adds_escaped; cstr|apply adds_text; [cstr|cbn; lia]].
  - split; [reflexivity|]. split; [reflexivity|]. exists []. reflexivity.
  - cbn in K. destruct w as [i|f]; [|destruct K]. cbn [app wholds] in H. destruct H as [H1 [H2 [r H3]]].
    eexists (WT_STRING i), (wdata i), _. split; [exact E|]. split; [reflexivity|]. split; [split; [|exists r; exact H3]; cstr|]. reflexivity.
Qed.
Example C27_example : Forall xlegal [XComment (lit "a-b"); XStart (lit "doc") [(lit "k", lit "v>w")]; XTag (lit "x") (Some (lit "</x>&lt;")) []; XContent (lit "<>"); XEnd (lit "doc")].
Proof.
  constructor; [split; [cstr|intros [a [b E]]; repeat (destruct a as [|? a]; try discriminate E)]|].
  constructor; [split; [split; [split; reflexivity|cbn; lia]|constructor; [|constructor]; split; [split; reflexivity|split; [|cbn; lia]]; repeat split; cstr]|].
  constructor; [split; [split; [split; reflexivity|cbn; lia]|split; [constructor|cstr]]|].
  constructor; [cstr|]. constructor; [split; [split; reflexivity|cbn; lia]|constructor].
Qed.
