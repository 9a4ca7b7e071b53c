(** C141: writers on files that fail. *)
From Verif Require Import Prelude PreludeFacts Str StrFacts Libc LibcFacts MemSpec IoModel IoProofs PropsIo WriterModel PropsWriter StrSeqModel PropsStrSeq FileOutModel.
Set Implicit Arguments.

(** the next call on the stream takes everything *)
Definition healthy (f : ofile) : Prop := match answers f with Some _ :: _ => False | _ => True end.

(** WriterWriteLen on a file returns how many bytes of the string were taken: exactly these
    are behind what the file had, and it is all of them unless the stream failed *)
Theorem C141_write_len f str n t : gives str n t ->
  exists f' k, FileOutWriteLen f str n = Ok (f', k) /\ k <= length t /\ written f' = written f ++ firstn k t /\
    answers f' = tl (answers f) /\ (healthy f -> k = length t).
Proof.
  intros G. unfold FileOutWriteLen. rewrite (file_ok [] G). cbn [bind app]. unfold fwrite, healthy.
  destruct (answers f) as [|[k|] l].
  - eexists _, _. split; [reflexivity|]. cbn. rewrite firstn_all. auto.
  - eexists _, _. split; [reflexivity|]. cbn. split; [lia|]. split; [|split; [reflexivity|intros []]].
    f_equal. destruct (Nat.min_spec k (length t)) as [[H ->]|[H ->]]; [reflexivity|]. rewrite firstn_all. apply firstn_all2. lia.
  - eexists _, _. split; [reflexivity|]. cbn. rewrite firstn_all. auto.
Qed.
(** WriterWrite of a string an int can count *)
Theorem C141_write f s : is_cstr s -> (N.of_nat (length s) <= 2147483647)%N ->
  exists f' k, FileOutWrite f s = Ok (f', k) /\ k <= length s /\ written f' = written f ++ firstn k s /\
    answers f' = tl (answers f) /\ (healthy f -> k = length s).
Proof. intros C L. apply C141_write_len, gives_str; [exact C|]. apply nint, L. Qed.
(** WriterWriteChar of a character other than NUL *)
Theorem C141_write_char f c : c <> NUL ->
  exists f' k, FileOutWriteChar f c = Ok (f', k) /\ k <= 1 /\ written f' = written f ++ firstn k [c] /\
    answers f' = tl (answers f) /\ (healthy f -> k = 1).
Proof. intros N. refine (@C141_write_len f [Some c; Some NUL] 1 [c] _). split; [|exists [Some NUL]; reflexivity]. cbn. apply beq_false in N. rewrite N. reflexivity. Qed.

(** WriterWriteF returns the length of the text if the stream takes it and an int can count it *)
Theorem C141_write_f_partial f text : healthy f -> (Z.of_nat (length text) <= INT_MAX)%Z ->
  exists f', FileWriterWriteF f text = (f', N.of_nat (length text)) /\ written f' = written f ++ text /\ answers f' = tl (answers f).
Proof.
  intros H L. unfold FileWriterWriteF, vfprintf. unfold healthy in H. rewrite (proj2 (Z.leb_le _ _) L).
  assert (X : Z.to_N (Z.of_nat (length text) mod 2 ^ 64) = N.of_nat (length text)) by (unfold INT_MAX in L; rewrite Z.mod_small by lia; lia).
  destruct (answers f) as [|[k|] l]; [|destruct H|]; rewrite X; eexists; split; try reflexivity; split; reflexivity.
Qed.
(** on a stream that fails it returns the greatest size_t, not what was written *)
Theorem C141_write_f_refuted f text k l : answers f = Some k :: l ->
  exists f', FileWriterWriteF f text = (f', SIZE_MAX) /\ written f' = written f ++ firstn k text.
Proof. intros E. unfold FileWriterWriteF, vfprintf. rewrite E. eexists. split; reflexivity. Qed.

(** * Saving a sequence of strings *)
Definition fits_int (s : list byte) : Prop := (Z.of_nat (length s) + 21 <= INT_MAX)%Z.
(** what a sequence looks like in a file (C28 reads it back) *)
Definition file_text (ss : list (list byte)) : list byte := concat (map record_text ss).

Lemma record_length s : fits_int s -> (0 < Z.of_nat (length (record_text s)) <= INT_MAX)%Z.
Proof.
  unfold fits_int, record_text, ljust10, INT_MAX. intros H. rewrite !app_length, repeat_length. cbn [length].
  assert (length (udec (N.of_nat (length s))) <= 20).
  { apply udec_length; [change (10 ^ N.of_nat 20)%N with 100000000000000000000%N; lia|lia]. }
  lia.
Qed.

Lemma prefixed_true f s : exists f', FileOutLenPrefixed f s = (f', true) /\ answers f' = tl (answers f) /\
  (fits_int s -> healthy f -> written f' = written f ++ record_text s).
Proof.
  unfold FileOutLenPrefixed. fold (record_text s). unfold FileWriterWriteF, vfprintf, healthy.
  assert (P : 0 < length (record_text s)) by (unfold record_text; rewrite !app_length; cbn [length]; lia).
  assert (M : (if (Z.to_N (-1 mod 2 ^ 64) =? 0)%N then false else true) = true) by reflexivity.
  destruct (Z.leb_spec (Z.of_nat (length (record_text s))) INT_MAX) as [L|L].
  - assert (X : (if (Z.to_N (Z.of_nat (length (record_text s)) mod 2 ^ 64) =? 0)%N then false else true) = true).
    { unfold INT_MAX in L. rewrite Z.mod_small by lia. destruct (N.eqb_spec (Z.to_N (Z.of_nat (length (record_text s)))) 0); [lia|reflexivity]. }
    destruct (answers f) as [|[k|] l]; cbv beta iota zeta; rewrite ?X, ?M; eexists; (split; [reflexivity|]); (split; [reflexivity|]); intros _ H; try destruct H; reflexivity.
  - assert (F : ~ fits_int s) by (intros F; apply record_length in F; lia).
    destruct (answers f) as [|[k|] l]; cbv beta iota zeta; rewrite ?M; eexists; (split; [reflexivity|]); (split; [reflexivity|]); intros H; destruct (F H).
Qed.

Lemma seq_true : forall ss f, exists f', FileOutSeq ss f = (f', true) /\
  (Forall fits_int ss -> (forall a, In a (answers f) -> a = None) -> written f' = written f ++ file_text ss).
Proof.
  unfold file_text. induction ss as [|s ss IH]; intros f; cbn [FileOutSeq map concat].
  - exists f. split; [reflexivity|]. rewrite app_nil_r. auto.
  - destruct (prefixed_true f s) as [f1 [-> [A W]]]. destruct (IH f1) as [f2 [-> W2]]. exists f2. split; [reflexivity|].
    intros FI N. inversion_clear FI as [|? ? FI1 FI2]. rewrite W2, W, app_assoc; [reflexivity|exact FI1| |exact FI2|].
    + unfold healthy. destruct (answers f) as [|[k|] l]; auto. discriminate (N (Some k) (or_introl eq_refl)).
    + rewrite A. intros a I. apply N. destruct (answers f); [destruct I|]. right. exact I.
Qed.

(** If no write fails, the file has exactly the text of the sequence, and the result tells
    whether the file could be opened and closed *)
Theorem C141_save_partial ss closes ans : Forall fits_int ss -> (forall a, In a ans -> a = None) ->
  SeqStringWriteFile ss true closes ans = (Some (file_text ss), closes).
Proof.
  intros FI N. unfold SeqStringWriteFile, SeqStringWriteFileStream_out.
  destruct (seq_true ss (mkOut [] ans)) as [f' [-> W]]. rewrite (W FI N). reflexivity.
Qed.
Theorem C141_cannot_open ss closes ans : SeqStringWriteFile ss false closes ans = (None, false).
Proof. reflexivity. Qed.

(** and reading that file gives the same strings, or NULL if the kernel fails *)
Theorem C141_save_and_read_partial ss ans rs : Forall is_cstr ss -> Forall short ss -> (forall a, In a ans -> a = None) ->
  exists content, SeqStringWriteFile ss true true ans = (Some content, true) /\
  match SeqStringReadFile (mkIn content rs) with
  | Ok (Some ds) => Forall2 holds ds ss
  | Ok None => In Fail rs
  | Fuel => progress rs <= length content
  | _ => False
  end.
Proof.
  intros C S N. exists (file_text ss). split.
  - apply C141_save_partial; [|exact N]. eapply Forall_impl; [|exact S]. unfold short, fits_int, INT_MAX. intros s H. lia.
  - unfold SeqStringReadFile. cbn [left_].
    pose proof (@read_file_spec ss C S (1 + (length (concat (map record_text ss)))) rs [] (Nat.lt_succ_diag_r _)) as X.
    unfold file_text. destruct (read_file _ _ _) as [[ds|]| | |]; auto. destruct X as [ds' [-> X]]. exact X.
Qed.

(** Failed writes go unnoticed: whatever the stream does, the result is the same *)
Theorem C141_save_failure_unnoticed_refuted ss closes ans :
  exists content, SeqStringWriteFile ss true closes ans = (Some content, closes).
Proof.
  unfold SeqStringWriteFile, SeqStringWriteFileStream_out.
  destruct (seq_true ss (mkOut [] ans)) as [f' [-> _]]. eexists. reflexivity.
Qed.
(** for example a full disk: success is reported, and the file has nothing of the strings *)
Theorem C141_full_disk_refuted ss : ss <> [] ->
  SeqStringWriteFile ss true true (repeat (Some 0) (length ss)) = (Some [], true) /\ file_text ss <> [].
Proof.
  intros N. split.
  - clear N. unfold SeqStringWriteFile, SeqStringWriteFileStream_out.
    assert (X : forall ss, FileOutSeq ss (mkOut [] (repeat (Some 0) (length ss))) = (mkOut [] [], true)).
    { induction ss0 as [|s ss' IH]; [reflexivity|]. cbn [FileOutSeq length repeat].
      unfold FileOutLenPrefixed, FileWriterWriteF, vfprintf. cbn [answers written firstn app]. apply IH. }
    rewrite X. reflexivity.
  - destruct ss as [|s ss]; [congruence|]. unfold file_text, record_text. cbn [map concat]. intros E.
    apply (f_equal (@length byte)) in E. rewrite !app_length in E. cbn [length] in E. lia.
Qed.

Example C141_ex :
  SeqStringWriteFile [lit "ab"; lit "c"] true true [] = (Some (lit "2         ab" ++ [cNEWL] ++ lit "1         c" ++ [cNEWL]), true) /\
  (* the first record is cut, the second is not *)
  SeqStringWriteFile [lit "ab"; lit "c"] true true [Some 5] = (Some (lit "2    1         c" ++ [cNEWL]), true) /\
  FileOutWriteChar (mkOut (lit "x") [Some 0]) "y"%char = Ok (mkOut (lit "x") [], 0) /\
  FileOutWriteLen (mkOut (lit "x") [Some 2; None]) (block (lit "abcd")) 3 = Ok (mkOut (lit "xab") [None], 2).
Proof. repeat split. Qed.

Print Assumptions C141_write_len. Print Assumptions C141_write. Print Assumptions C141_write_char.
Print Assumptions C141_write_f_partial. Print Assumptions C141_write_f_refuted. Print Assumptions C141_save_partial.
Print Assumptions C141_save_and_read_partial. Print Assumptions C141_cannot_open. Print Assumptions C141_save_failure_unnoticed_refuted. Print Assumptions C141_full_disk_refuted.
