(** C23: writers. *)
From Verif Require Import Prelude PreludeFacts Str StrFacts Libc LibcFacts MemSpec EditProofs WriterModel BufProofs.
Set Implicit Arguments.

(** what is asked of a writer *)
Inductive wop :=
| WWrite (s : list byte)            (* WriterWrite *)
| WLen (bs : list byte) (rest : cells byte)   (* WriterWriteLen with |bs| bytes; rest: whatever follows them in memory *)
| WF (s : list byte)                (* WriterWriteF *)
| WChar (c : byte).                 (* WriterWriteChar *)

(** the text it adds *)
Definition wtext (o : wop) : list byte :=
  match o with WWrite s | WF s => s | WLen bs _ => upto_nul bs | WChar c => [c] end.
Definition wlegal (o : wop) : Prop :=
  match o with
  | WWrite s | WF s => is_cstr s /\ (N.of_nat (length s) <= 2147483647)%N
  | WLen _ _ => True
  | WChar c => c <> NUL
  end.
Definition wcall (w : Writer) (o : wop) : res (Writer * nat) :=
  match o with
  | WWrite s => WriterWrite w s
  | WLen bs rest => WriterWriteLen w (map Some bs ++ rest) (length bs)
  | WF s => WriterWriteF w s
  | WChar c => WriterWriteChar w c
  end.
(** run the calls, collecting what they return *)
Fixpoint wcalls (w : Writer) (os : list wop) : res (Writer * list nat) :=
  match os with
  | [] => Ok (w, [])
  | o :: os => let* ' (w, n) := wcall w o in let* ' (w, ns) := wcalls w os in Ok (w, n :: ns)
  end.

Definition wrep (w : StringWriterImpl) (s : list byte) : Prop :=
  wlen w = length s /\ length (wdata w) = wallocated w /\ exists r, wdata w = map Some s ++ Some NUL :: r.

(** [str] read up to [len] bytes is the string [t] *)
Definition gives (str : cells byte) (len : nat) (t : list byte) : Prop :=
  mstrnlen str len = Ok (length t) /\ exists j, str = map Some t ++ j.

Lemma gives_len bs rest : gives (map Some bs ++ rest) (length bs) (upto_nul bs).
Proof.
  split; [apply mstrnlen_seen|]. destruct (upto_nul_prefix bs) as [j E]. exists (map Some j ++ rest). rewrite E at 1.
  rewrite map_app, <- app_assoc. reflexivity.
Qed.
Lemma gives_str s n : is_cstr s -> length s <= n -> gives (block s) n s.
Proof.
  intros C L. rewrite block_eq. split; [|exists [Some NUL]; reflexivity]. revert n L. induction s as [|c s IH]; intros n L; cbn [map app length].
  - destruct n; reflexivity.
  - apply is_cstr_cons in C as [N C]. destruct n as [|n]; [cbn in L; lia|]. cbn [mstrnlen]. apply beq_false in N. rewrite N, IH by (auto; cbn in L; lia). reflexivity.
Qed.
Lemma nint s : (N.of_nat (length s) <= 2147483647)%N -> @length byte s <= NINT_MAX.
Proof. unfold NINT_MAX. intros. apply (proj1 (N.compare_le_iff _ _)) in H. lia. Qed.

Lemma realloc_rep w s extra : wrep w s -> wrep (StringWriterReallocate w extra) s /\ length s + extra < wallocated (StringWriterReallocate w extra).
Proof.
  intros [L [A [r E]]]. unfold StringWriterReallocate. cbn [wallocated]. split; [|rewrite L; lia].
  unfold wrep. cbn [wlen wdata wallocated]. split; [exact L|]. split.
  - unfold arealloc. rewrite app_length, firstn_length, repeat_length. lia.
  - unfold arealloc. rewrite firstn_all2 by lia. rewrite E, <- app_assoc. cbn [app]. eexists. reflexivity.
Qed.

Lemma char_ok w s c : wrep w s -> exists w', StringWriterWriteChar w c = Ok (w', 1) /\ wrep w' (s ++ [c]).
Proof.
  intros R. unfold StringWriterWriteChar.
  assert (X : exists w1, (if wallocated w <? wlen w + 2 then StringWriterReallocate w 2 else w) = w1 /\ wrep w1 s /\ length s + 2 <= wallocated w1).
  { eexists. split; [reflexivity|]. destruct (Nat.ltb_spec (wallocated w) (wlen w + 2)) as [H|H].
    - destruct (realloc_rep 2 R) as [R' G]. split; [exact R'|lia].
    - split; [exact R|]. destruct R as [L _]. lia. }
  destruct X as [w1 [-> [R1 G]]]. destruct R1 as [L [A [r E]]]. rewrite E, L.
  assert (Lr : 0 < length r) by (rewrite <- A, E, app_length, map_length in G; cbn [length] in G; lia).
  rewrite (@write_at s (Some NUL :: r) (length s) c eq_refl) by (cbn; lia). cbn [bind skipn].
  rewrite (@write_end (s ++ [c]) r (length s + 1)) by (rewrite ?app_length; auto). cbn [bind]. eexists. split; [reflexivity|].
  unfold wrep. cbn [wlen wdata wallocated]. split; [rewrite app_length; cbn; lia|]. split.
  - rewrite <- A, E, !app_length, !map_length, app_length. cbn [length]. rewrite skipn_length. lia.
  - eexists. reflexivity.
Qed.
Lemma len_ok w s str n t : wrep w s -> gives str n t -> exists w', StringWriterWriteLen w str n = Ok (w', length t) /\ wrep w' (s ++ t).
Proof.
  intros R [G1 [j Es]]. unfold StringWriterWriteLen. rewrite G1. cbn [bind].
  assert (X : exists w1, (if wallocated w <? wlen w + length t + 1 then StringWriterReallocate w (length t) else w) = w1 /\ wrep w1 s /\ length s + length t + 1 <= wallocated w1).
  { eexists. split; [reflexivity|]. destruct (Nat.ltb_spec (wallocated w) (wlen w + length t + 1)) as [H|H].
    - destruct (realloc_rep (length t) R) as [R' G]. split; [exact R'|lia].
    - split; [exact R|]. destruct R as [L _]. lia. }
  destruct X as [w1 [-> [R1 G]]]. destruct R1 as [L [A [r E]]].
  rewrite acopy_Ok; [|rewrite A, L; lia|rewrite Es, app_length, map_length; lia]. cbn [bind skipn].
  assert (Em : firstn (wlen w1) (wdata w1) ++ firstn (length t) str ++ skipn (wlen w1 + length t) (wdata w1) = map Some (s ++ t) ++ skipn (length t) (Some NUL :: r)).
  { rewrite E, L, Es. rewrite firstn_app_le, (firstn_all2 (map Some s)) by (rewrite map_length; lia).
    rewrite firstn_app_le, (firstn_all2 (map Some t)) by (rewrite map_length; lia). rewrite skipn_app_ge by (rewrite map_length; lia).
    rewrite map_length. replace (length s + length t - length s) with (length t) by lia. rewrite map_app, <- app_assoc. reflexivity. }
  assert (Lr : length s + S (length r) = wallocated w1) by (rewrite <- A, E, app_length, map_length; reflexivity).
  rewrite Em, (@write_end (s ++ t) _ (wlen w1 + length t)) by (rewrite ?app_length, ?skipn_length, ?L; cbn [length]; lia).
  cbn [bind]. eexists. split; [reflexivity|]. unfold wrep. cbn [wlen wdata wallocated]. split; [rewrite app_length; lia|]. split.
  - rewrite app_length, map_length, app_length. cbn [length]. rewrite !skipn_length. cbn [length]. lia.
  - eexists. reflexivity.
Qed.
Lemma file_ok f str n t : gives str n t -> FileWriterWriteLen f str n = Ok (f ++ t, length t).
Proof.
  intros [G1 [j Es]]. unfold FileWriterWriteLen. rewrite G1. cbn [bind].
  match goal with |- bind (?g _ _) _ = _ => set (rd := g) end.
  assert (X : forall u a, t = a ++ u -> rd (length u) (length a) = Ok u).
  { induction u as [|c u IH]; intros a Ea; [reflexivity|]. cbn [length rd]. fold rd.
    rewrite Es, Ea, map_app, <- app_assoc. cbn [map app]. rewrite EditProofs2.aget_mid by reflexivity. cbn [bind].
    specialize (IH (a ++ [c])). rewrite app_length in IH. cbn [length] in IH. rewrite Nat.add_1_r in IH. rewrite IH by (rewrite <- app_assoc; exact Ea). reflexivity. }
  pose proof (X t [] eq_refl) as Y. cbn [length] in Y. rewrite Y. reflexivity.
Qed.

(** a writer that has received the text [s] *)
Definition wholds (w : Writer) (s : list byte) : Prop := match w with WT_STRING i => wrep i s | WT_FILE f => f = s end.

Lemma wcall_ok w s o : wholds w s -> wlegal o -> exists w', wcall w o = Ok (w', length (wtext o)) /\ wholds w' (s ++ wtext o) /\
  (match w, w' with WT_STRING _, WT_STRING _ | WT_FILE _, WT_FILE _ => True | _, _ => False end).
Proof.
  intros H L. destruct o as [t|bs rest|t|c]; cbn [wcall wtext wlegal] in *.
  - destruct L as [C B]. pose proof (gives_str C (@nint t B)) as G. unfold WriterWrite, WriterWriteLen. destruct w as [i|f]; cbn [wholds] in H.
    + destruct (len_ok H G) as [w' [E R]]. rewrite E. eexists. split; [reflexivity|]. auto.
    + rewrite (file_ok f G). subst. eexists. split; [reflexivity|]. cbn. auto.
  - pose proof (gives_len bs rest) as G. unfold WriterWriteLen. destruct w as [i|f]; cbn [wholds] in H.
    + destruct (len_ok H G) as [w' [E R]]. rewrite E. eexists. split; [reflexivity|]. auto.
    + rewrite (file_ok f G). subst. eexists. split; [reflexivity|]. cbn. auto.
  - destruct L as [C B]. pose proof (gives_str C (@nint t B)) as G. unfold WriterWriteF. destruct w as [i|f]; cbn [wholds] in H.
    + destruct (len_ok H G) as [w' [E R]]. rewrite E. eexists. split; [reflexivity|]. auto.
    + subst. eexists. split; [reflexivity|]. cbn. auto.
  - unfold WriterWriteChar. destruct w as [i|f]; cbn [wholds] in H.
    + destruct (char_ok c H) as [w' [E R]]. rewrite E. eexists. split; [reflexivity|]. auto.
    + assert (G : gives [Some c; Some NUL] 1 [c]).
      { split; [cbn; apply beq_false in L; rewrite L; reflexivity|exists [Some NUL]; reflexivity]. }
      rewrite (file_ok f G). subst. eexists. split; [reflexivity|]. cbn. auto.
Qed.
Lemma wcalls_ok os : forall w s, wholds w s -> Forall wlegal os -> exists w',
  wcalls w os = Ok (w', map (fun o => length (wtext o)) os) /\ wholds w' (s ++ concat (map wtext os)) /\
  (match w, w' with WT_STRING _, WT_STRING _ | WT_FILE _, WT_FILE _ => True | _, _ => False end).
Proof.
  induction os as [|o os IH]; intros w s H L.
  - exists w. cbn [wcalls map concat]. rewrite app_nil_r. split; [reflexivity|]. split; [exact H|]. destruct w; exact Logic.I.
  - inversion_clear L as [|? ? L1 L2]. destruct (@wcall_ok w s o H L1) as [w1 [E1 [H1 K1]]]. destruct (IH w1 _ H1 L2) as [w2 [E2 [H2 K2]]].
    exists w2. cbn [wcalls map concat]. rewrite E1. cbn [bind]. rewrite E2. cbn [bind]. split; [reflexivity|]. rewrite app_assoc. split; [exact H2|].
    destruct w, w1, w2; auto.
Qed.

(** Any sequence of writes to a new string writer succeeds without undefined behaviour,
    every call returns the number of characters it added, and the data is the
    concatenation of the texts as a C string of the reported length. *)
Theorem C23_StringWriter os : Forall wlegal os -> exists w d,
  wcalls StringWriter os = Ok (w, map (fun o => length (wtext o)) os) /\
  StringWriterLength w = Ok (length (concat (map wtext os))) /\
  StringWriterData w = Ok d /\ StringWriterClose w = Ok d /\ holds d (concat (map wtext os)).
Proof.
  intros L. destruct (@wcalls_ok os StringWriter []) as [w [E [H K]]]; [|exact L|].
  - split; [reflexivity|]. split; [reflexivity|]. exists []. reflexivity.
  - cbn in K. destruct w as [i|f]; [|destruct K]. cbn [app wholds] in H. destruct H as [H1 [H2 [r H3]]].
    exists (WT_STRING i), (wdata i). split; [exact E|]. split; [cbn; rewrite H1; reflexivity|]. split; [reflexivity|]. split; [reflexivity|].
    split; [|exists r; exact H3]. clear - L. induction L as [|o os Lo L IH]; cbn; [intros []|]. apply is_cstr_app. split; [|exact IH].
    destruct o; cbn in *; [apply Lo|apply upto_nul_cstr|apply Lo|]. apply is_cstr_cons. split; [exact Lo|intros []].
Qed.
(** The same writes to a file writer send the same text to the file. *)
Theorem C23_FileWriter os : Forall wlegal os -> exists w,
  wcalls FileWriter os = Ok (w, map (fun o => length (wtext o)) os) /\ FileWriterDetach w = Ok (concat (map wtext os)).
Proof.
  intros L. destruct (@wcalls_ok os FileWriter []) as [w [E [H K]]]; [reflexivity|exact L|]. cbn in K. destruct w as [i|f]; [destruct K|].
  exists (WT_FILE f). split; [exact E|]. cbn in *. congruence.
Qed.
(** asking a file writer for its string aborts *)
Theorem C23_wrong_type f i : StringWriterLength (WT_FILE f) = Abort /\ StringWriterData (WT_FILE f) = Abort /\
  StringWriterClose (WT_FILE f) = Abort /\ FileWriterDetach (WT_STRING i) = Abort.
Proof. repeat split. Qed.

(** WriterWrite drops everything past INT_MAX bytes of one string *)
Theorem C23_long_string_refuted : exists s, is_cstr s /\ exists w n, WriterWrite StringWriter s = Ok (w, n) /\ n < length s.
Proof.
  exists (repeat "a"%char (S NINT_MAX)). assert (C : forall n, is_cstr (repeat "a"%char n)).
  { intros n I. apply repeat_spec in I. discriminate. }
  split; [apply C|].
  assert (G : gives (block (repeat "a"%char (S NINT_MAX))) NINT_MAX (repeat "a"%char NINT_MAX)).
  { generalize NINT_MAX. intros n. rewrite block_eq. split.
    - rewrite repeat_length. assert (H : forall k, mstrnlen (map Some (repeat "a"%char (S k)) ++ [Some NUL]) k = Ok k); [|apply H].
      induction k as [|k IH]; [reflexivity|]. change (repeat "a"%char (S (S k))) with ("a"%char :: repeat "a"%char (S k)). cbn [map app mstrnlen]. change (beq "a" NUL) with false. cbn iota. change (Some "a"%char :: map Some (repeat "a"%char k) ++ [Some NUL]) with (map Some (repeat "a"%char (S k)) ++ [Some NUL]). rewrite IH. reflexivity.
    - exists [Some "a"%char; Some NUL]. replace (S n) with (n + 1) by lia. rewrite repeat_app, map_app, <- app_assoc. reflexivity. }
  assert (R0 : wrep (mkSW (block []) 0 1) []) by (split; [reflexivity|]; split; [reflexivity|]; exists []; reflexivity).
  destruct (len_ok R0 G) as [w' [E _]]. rewrite repeat_length in E.
  exists (WT_STRING w'), NINT_MAX. unfold WriterWrite, WriterWriteLen, StringWriter. rewrite E. split; [reflexivity|]. rewrite repeat_length. lia.
Qed.
(** a NUL character written to a string writer is counted, to a file it is not written *)
Theorem C23_nul_char_refuted : exists w, wcalls StringWriter [WChar NUL; WWrite (lit "x")] = Ok (w, [1; 1]) /\
  StringWriterLength w = Ok 2 /\ (let* d := StringWriterData w in mstr d) = Ok [] /\
  wcalls FileWriter [WChar NUL] = Ok (WT_FILE [], [0]).
Proof. 
  destruct (@wcall_ok (WT_STRING (mkSW [Some NUL; Some NUL; None] 1 3)) [NUL] (WWrite (lit "x"))) as [w' [E [H _]]].
  - split; [reflexivity|]. split; [reflexivity|]. exists [None]. reflexivity.
  - cbn. split; [|lia]. intros [H|[]]. discriminate.
  - destruct w' as [i|f]; [|destruct H; discriminate]. exists (WT_STRING i). destruct H as [H1 [H2 [r H3]]]. split; [|split; [|split]].
    + cbn [wcalls]. change (wcall StringWriter (WChar NUL)) with (Ok (WT_STRING (mkSW [Some NUL; Some NUL; None] 1 3), 1)). cbn [bind]. rewrite E. reflexivity.
    + cbn. rewrite H1. reflexivity.
    + cbn [StringWriterData bind]. rewrite H3. reflexivity.
    + reflexivity.
Qed.
Example C23_example : Forall wlegal [WWrite (lit "ab"); WChar "c"%char; WLen (lit "defg" ++ [NUL]) [None]; WF (lit "hij")].
Proof. repeat constructor; cbn; try lia; try (intros H; repeat destruct H as [H|H]; try discriminate H; try destruct H); discriminate. Qed.
