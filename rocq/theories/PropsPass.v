(** Properties of passopenfile.c: C112. *)
From Verif Require Import Prelude PreludeFacts Str StrFacts Libc PassModel.
Set Implicit Arguments.

(** ** specification: the two ends of a socket *)
(** an action: the sender (whatever descriptors it has then) passes a descriptor with a text; the receiver gets one; the receiver closes one *)
Inductive action :=
| Put (sender : table) (fd : Z) (text : option (list byte)) (sends : bool)
| Get (env : receiving)
| Close (fd : nat).
(** what was passed and what arrived, oldest first *)
Record history := mkHist { passed : list (file * option (list byte)); arrived : list (file * option (list byte)) }.
Record world := mkWorld { queue : list message; receiver : table; hist : history }.
Definition text_of (r : text_result) : option (list byte) := match r with SetText s => Some s | _ => None end.
Definition step (w : world) (a : action) : res world :=
  match a with
  | Put sender fd text sends =>
      let* ' (q, ok) := PassOpenFile_Put sender (queue w) fd text sends in
      Ok (mkWorld q (receiver w) (mkHist (match ok, lookup sender fd with true, Some f => passed (hist w) ++ [(f, text)] | _, _ => passed (hist w) end) (arrived (hist w))))
  | Get env =>
      let* ' (t, q, fd, r) := PassOpenFile_Get (receiver w) (queue w) true env in
      Ok (mkWorld q t (mkHist (passed (hist w)) (match lookup t fd with Some f => arrived (hist w) ++ [(f, text_of r)] | None => arrived (hist w) end)))
  | Close fd => Ok (mkWorld (queue w) (filter (fun df => negb (fst df =? fd)%nat) (receiver w)) (hist w))
  end.
Fixpoint steps (w : world) (l : list action) : res world := match l with [] => Ok w | a :: l => let* w := step w a in steps w l end.
Definition start (t : table) : world := mkWorld [] t (mkHist [] []).
(** the texts are C strings that fit, and the kernel has a descriptor left, which is not in use *)
Definition fits (a : action) : Prop :=
  match a with
  | Put _ _ (Some s) _ => is_cstr s /\ length s < 1024
  | _ => True
  end.
Fixpoint room (w : world) (l : list action) : Prop :=
  match l with
  | [] => True
  | a :: l =>
      match a with Get (RFree free) => exists fd r, free = fd :: r /\ ~ In fd (map fst (receiver w)) | _ => True end /\
      match step w a with Ok w => room w l | _ => True end
  end.

(** ** proofs *)
Definition content (text : option (list byte)) : list byte := match text with Some s => s ++ [NUL] | None => NULL_MSG end.
Definition good (text : option (list byte)) : Prop := match text with Some s => is_cstr s /\ length s < 1024 | None => True end.
Lemma lookup_fresh fd f t : lookup ((fd, f) :: t) (Z.of_nat fd) = Some f.
Proof. unfold lookup. cbn [find fst]. now rewrite Z.eqb_refl. Qed.
Lemma lookup_neg t : lookup t (-1)%Z = None.
Proof. unfold lookup. induction t as [|[d f] t IH]; [reflexivity|]. cbn [find fst]. destruct (Z.eqb_spec (Z.of_nat d) (-1)%Z); [lia|exact IH]. Qed.
Lemma put_ok t q fd text sends : good text ->
  PassOpenFile_Put t q fd text sends = Ok (match lookup t fd with Some f => if sends : bool then (q ++ [mkMsg (content text) (Some (inl [f]))], true) else (q, false) | None => (q, false) end).
Proof.
  intros G. unfold PassOpenFile_Put. fold (content text).
  assert (L : (length (content text) <=? MAX_MESSAGE_SIZE) = true).
  { apply Nat.leb_le. unfold MAX_MESSAGE_SIZE. destruct text as [s|]; cbn [content]; [destruct G as (_ & L); rewrite app_length; cbn [length]; lia|cbn; lia]. }
  rewrite L. cbn [massert]. destruct (lookup t fd); [destruct sends|]; reflexivity.
Qed.
Definition result_of (text : option (list byte)) : text_result := match text with Some s => SetText s | None => SetNull end.
Lemma get_ok t q fd r f text : good text ->
  PassOpenFile_Get t (mkMsg (content text) (Some (inl [f])) :: q) true (RFree (fd :: r)) = Ok ((fd, f) :: t, q, Z.of_nat fd, result_of text).
Proof.
  intros G. unfold PassOpenFile_Get, recvmsg. cbn [bytes control].
  assert (L : length (content text) <= MAX_MESSAGE_SIZE).
  { unfold MAX_MESSAGE_SIZE. destruct text as [s|]; cbn [content]; [destruct G as (_ & L); rewrite app_length; cbn [length]; lia|cbn; lia]. }
  rewrite (skipn_all2 _ L), (firstn_all2 _ L).
  assert (CB : combine (firstn CONTROL_ROOM (fd :: r)) [f] = [(fd, f)]) by (destruct r; reflexivity). rewrite CB. cbn [map fst length Nat.eqb massert app].
  assert (EX : existsb (fun c => beq c NUL) (content text ++ repeat NUL (MAX_MESSAGE_SIZE - length (content text))) = true).
  { apply existsb_exists. exists NUL. split; [|reflexivity]. apply in_or_app. left. destruct text as [s|]; cbn [content]; [apply in_or_app; right; now left|now left]. }
  rewrite EX. clear EX. destruct text as [s|].
  - destruct G as (C & LS). cbn [content result_of]. rewrite <- app_assoc. cbn [app]. rewrite (upto_nul_cstr _ C). destruct s as [|c s].
    + cbn [app]. set (k := MAX_MESSAGE_SIZE - _). cbn [nth skipn]. destruct k; cbn [repeat upto_nul]; reflexivity.
    + cbn [app nth]. assert (NB : beq c NUL = false) by (apply Bool.not_true_is_false; intros E; apply beq_true in E; subst c; apply C; now left). rewrite NB. reflexivity.
  - vm_compute (MAX_MESSAGE_SIZE - _). cbn [content NULL_MSG app nth skipn]. reflexivity.
Qed.
Definition inv (w : world) : Prop :=
  exists pending, passed (hist w) = arrived (hist w) ++ pending /\ queue w = map (fun ft => mkMsg (content (snd ft)) (Some (inl [fst ft]))) pending /\ Forall (fun ft => good (snd ft)) pending.
Lemma step_ok w a : inv w -> fits a -> match a with Get (RFree free) => exists fd r, free = fd :: r /\ ~ In fd (map fst (receiver w)) | _ => True end ->
  exists w', step w a = Ok w' /\ inv w'.
Proof.
  intros (pending & P & Q & G) FT RM. destruct a as [sender fd text sends|[|free]|fd]; cbn [step].
  - assert (GT : good text) by (destruct text; exact FT). rewrite (@put_ok sender (queue w) fd text sends GT). destruct (lookup sender fd) as [f|] eqn:E; [destruct sends|]; cbn [bind]; (eexists; split; [reflexivity|]).
    + exists (pending ++ [(f, text)]). cbn [hist passed arrived queue]. rewrite P, <- app_assoc. split; [reflexivity|]. split; [rewrite Q, map_app; reflexivity|]. apply Forall_app. auto.
    + exists pending. auto.
    + exists pending. auto.
  - cbn [PassOpenFile_Get bind]. rewrite lookup_neg. eexists. split; [reflexivity|]. exists pending. auto.
  - destruct RM as (fd & r & -> & NI). rewrite Q. destruct pending as [|[f text] pending].
    + cbn [map PassOpenFile_Get recvmsg bind]. rewrite lookup_neg. eexists. split; [reflexivity|]. exists []. auto.
    + cbn [map fst snd]. rewrite get_ok by now inversion G. cbn [bind]. rewrite lookup_fresh. eexists. split; [reflexivity|]. exists pending. cbn [hist passed arrived queue]. rewrite P, <- app_assoc. cbn [app].
      split; [destruct text; reflexivity|]. split; [reflexivity|now inversion G].
  - eexists. split; [reflexivity|]. exists pending. auto.
Qed.
Lemma steps_ok l : forall w, inv w -> Forall fits l -> room w l -> exists w', steps w l = Ok w' /\ inv w'.
Proof.
  induction l as [|a l IH]; intros w I F R; cbn [steps]; [eauto|]. cbn [room] in R. destruct R as (RA & R). destruct (@step_ok w a I (Forall_inv F) RA) as (w' & E & I'). rewrite E in R |- *. cbn [bind]. apply IH; auto. now apply Forall_inv_tail in F.
Qed.

(** * C112 *)
(** Whatever the interleaving: what arrived are the open files passed first, in order, each with its text (NULL as NULL, empty as empty), and what did not arrive yet is still in the socket. *)
Theorem C112_order : forall t l, Forall fits l -> room (start t) l ->
  exists w pending, steps (start t) l = Ok w /\ passed (hist w) = arrived (hist w) ++ pending /\ length (queue w) = length pending.
Proof.
  intros t l F R. destruct (@steps_ok l (start t)) as (w & E & (pending & P & Q & _)); auto.
  - exists []. auto.
  - exists w, pending. rewrite Q, map_length. auto.
Qed.
Print Assumptions C112_order.
(** Put answers true exactly if the descriptor is open and the system sends; otherwise nothing is sent. *)
Theorem C112_put : forall t q fd text sends, match text with Some s => length s < 1024 | None => True end ->
  exists q', PassOpenFile_Put t q fd text sends = Ok (q', match lookup t fd with Some _ => sends | None => false end) /\
    (match lookup t fd with Some _ => sends | None => false end = false -> q' = q).
Proof.
  intros t q fd text sends L. unfold PassOpenFile_Put.
  assert (LE : (length (match text with Some s => s ++ [NUL] | None => NULL_MSG end) <=? MAX_MESSAGE_SIZE) = true).
  { apply Nat.leb_le. unfold MAX_MESSAGE_SIZE. destruct text as [s|]; [rewrite app_length; cbn [length]; lia|cbn; lia]. }
  rewrite LE. cbn [massert]. destruct (lookup t fd); [destruct sends|]; eexists; (split; [reflexivity|]); auto; discriminate.
Qed.
Print Assumptions C112_put.
(** Get, whatever the other side sent: it returns -1 and opens nothing, or the one descriptor it opened; an assert fails only if more than
    one descriptor was sent, and it reads past its buffer only if a message of 1024 bytes or more without a NUL was sent. *)
Theorem C112_get : forall t q text free,
  (forall t' q' fd r, PassOpenFile_Get t q text (RFree free) = Ok (t', q', fd, r) ->
     (fd = (-1)%Z /\ t' = t /\ r = Unset) \/
     (exists d f fs m q0, fd = Z.of_nat d /\ In d free /\ t' = (d, f) :: t /\ q = m :: q0 /\ control m = Some (inl (f :: fs)))) /\
  (PassOpenFile_Get t q text (RFree free) = Abort -> exists m q0 f f' fs, q = m :: q0 /\ control m = Some (inl (f :: f' :: fs)) /\ 2 <= length free) /\
  (PassOpenFile_Get t q text (RFree free) = UB -> exists m q0, q = m :: q0 /\ 1024 <= length (bytes m) /\ ~ In NUL (firstn 1024 (bytes m))).
Proof.
  intros t q text free. unfold PassOpenFile_Get, recvmsg. destruct q as [|m q].
  - split; [|split; discriminate]. intros t' q' fd r E. injection E as <- <- <- <-. auto.
  - set (q1 := match skipn MAX_MESSAGE_SIZE (bytes m) with [] => q | rest => mkMsg rest None :: q end).
    set (buffer := firstn MAX_MESSAGE_SIZE (bytes m) ++ repeat NUL (MAX_MESSAGE_SIZE - length (firstn MAX_MESSAGE_SIZE (bytes m)))).
    assert (BUF : existsb (fun c => beq c NUL) buffer = false -> 1024 <= length (bytes m) /\ ~ In NUL (firstn 1024 (bytes m))).
    { intros E. assert (NI : ~ In NUL buffer) by (intros I; assert (T : existsb (fun c => beq c NUL) buffer = true) by (apply existsb_exists; exists NUL; auto); congruence).
      split; [|intros I; apply NI, in_or_app; now left]. apply Nat.nlt_ge. intros L. apply NI. apply in_or_app. right. rewrite firstn_all2 by (unfold MAX_MESSAGE_SIZE; lia).
      replace (MAX_MESSAGE_SIZE - length (bytes m)) with (S (1023 - length (bytes m))) by (unfold MAX_MESSAGE_SIZE; lia). now left. }
    assert (ONE : forall d f fs, control m = Some (inl (f :: fs)) -> In d free ->
      forall R, R = (if negb (beq (nth 0 buffer NUL) NUL) || negb (bytes_eqb (upto_nul (skipn 1 buffer)) (lit "NULL"))
                     then if existsb (fun c => beq c NUL) buffer then Ok ((d, f) :: t, q1, Z.of_nat d, if text then SetText (upto_nul buffer) else Unset) else UB
                     else Ok ((d, f) :: t, q1, Z.of_nat d, if text then SetNull else Unset)) ->
      (forall t' q' fd r, R = Ok (t', q', fd, r) -> (fd = (-1)%Z /\ t' = t /\ r = Unset) \/ (exists d f fs m0 q0, fd = Z.of_nat d /\ In d free /\ t' = (d, f) :: t /\ m :: q = m0 :: q0 /\ control m0 = Some (inl (f :: fs)))) /\
      R <> Abort /\ (R = UB -> exists m0 q0, m :: q = m0 :: q0 /\ 1024 <= length (bytes m0) /\ ~ In NUL (firstn 1024 (bytes m0)))).
    { intros d f fs C I R ->. destruct (negb _ || negb _); [destruct (existsb _ buffer) eqn:EB|].
      - split; [|split; discriminate]. intros t' q' fd r E. right. injection E as <- <- <- <-. exists d, f, fs, m, q. auto.
      - split; [discriminate|]. split; [discriminate|]. intros _. exists m, q. auto.
      - split; [|split; discriminate]. intros t' q' fd r E. right. injection E as <- <- <- <-. exists d, f, fs, m, q. auto. }
    assert (NONE : forall R, R = Ok (t, q1, (-1)%Z, Unset) ->
      (forall t' q' fd r, R = Ok (t', q', fd, r) -> (fd = (-1)%Z /\ t' = t /\ r = Unset) \/ (exists d f fs m0 q0, fd = Z.of_nat d /\ In d free /\ t' = (d, f) :: t /\ m :: q = m0 :: q0 /\ control m0 = Some (inl (f :: fs)))) /\
      (R = Abort -> exists m0 q0 f f' fs, m :: q = m0 :: q0 /\ control m0 = Some (inl (f :: f' :: fs)) /\ 2 <= length free) /\ (R = UB -> exists m0 q0, m :: q = m0 :: q0 /\ 1024 <= length (bytes m0) /\ ~ In NUL (firstn 1024 (bytes m0)))).
    { intros R ->. split; [|split; discriminate]. intros t' q' fd r E. injection E as <- <- <- <-. auto. }
    destruct (control m) as [[fs|[]]|] eqn:C; [|now apply NONE|now apply NONE].
    destruct free as [|d free]; [now apply NONE|]. destruct fs as [|f fs].
    { replace (combine (firstn CONTROL_ROOM (d :: free)) []) with (@nil (nat * file)) by (destruct (firstn CONTROL_ROOM (d :: free)); reflexivity). now apply NONE. }
    assert (ONE' := ONE d f fs eq_refl (or_introl eq_refl) _ eq_refl).
    destruct free as [|d' free]; [|destruct fs as [|f' fs]].
    + cbn [firstn CONTROL_ROOM combine app map fst length Nat.eqb massert]. destruct ONE' as (A & B & D). split; [exact A|]. split; [intros X; destruct (B X)|exact D].
    + cbn [firstn CONTROL_ROOM combine app map fst length Nat.eqb massert]. destruct ONE' as (A & B & D). split; [exact A|]. split; [intros X; destruct (B X)|exact D].
    + cbn [firstn CONTROL_ROOM combine app map fst length Nat.eqb massert]. split; [discriminate|]. split; [|discriminate]. intros _. exists m, q, f, f', fs. cbn [length]. split; [reflexivity|]. split; [exact C|lia].
Qed.
Print Assumptions C112_get.
(** ** what goes wrong: a peer can make the receiver fail an assert (two descriptors) or read past its buffer; without a free descriptor what was passed is lost *)
Theorem C112_peer_refuted :
  PassOpenFile_Get [] [mkMsg [NUL] (Some (inl [7; 8]))] true (RFree [3; 4]) = Abort /\
  PassOpenFile_Get [] [mkMsg (repeat "x"%char 1024) (Some (inl [7]))] true (RFree [3]) = UB.
Proof. split; vm_compute; reflexivity. Qed.
Print Assumptions C112_peer_refuted.
Theorem C112_lost_refuted : exists w, steps (start []) [Put [(5, 50)] 5 (Some (lit "x")) true; Get (RFree []); Get (RFree [4])] = Ok w /\
  passed (hist w) = [(50, Some (lit "x"))] /\ arrived (hist w) = [] /\ queue w = [].
Proof. eexists. split; [vm_compute; reflexivity|]. split; [reflexivity|]. split; reflexivity. Qed.
Print Assumptions C112_lost_refuted.
(** a text that does not fit fails an assert in the sender *)
Theorem C112_long : forall t q fd s sends, 1024 <= length s -> PassOpenFile_Put t q fd (Some s) sends = Abort.
Proof. intros t q fd s sends L. unfold PassOpenFile_Put. replace (length (s ++ [NUL]) <=? MAX_MESSAGE_SIZE) with false by (symmetry; apply Nat.leb_gt; rewrite app_length; cbn [length]; unfold MAX_MESSAGE_SIZE; lia). reflexivity. Qed.
Print Assumptions C112_long.

(** three files passed with a text, none and an empty one; two arrive *)
Example C112_nonvacuous :
  let l := [Put [(5, 50)] 5 (Some (lit "text")) true; Put [(5, 50); (6, 60)] 6 None true; Get (RFree [3; 4]); Put [(9, 90)] 9 (Some []) true; Put [] 9 None true; Get (RFree [4])] in
  Forall fits l /\ room (start [(0, 1)]) l /\
  exists w, steps (start [(0, 1)]) l = Ok w /\ arrived (hist w) = [(50, Some (lit "text")); (60, None)] /\ passed (hist w) = [(50, Some (lit "text")); (60, None); (90, Some [])] /\ receiver w = [(4, 60); (3, 50); (0, 1)].
Proof.
  intros l. split; [|split].
  - repeat (apply Forall_cons; [try exact Logic.I; try (cbn; split; [unfold is_cstr, NUL; cbn; intuition discriminate|lia])|]). constructor.
  - vm_compute. repeat split; try (do 2 eexists; split; [reflexivity|]; cbn; intuition discriminate).
  - eexists. split; [vm_compute; reflexivity|]. auto.
Qed.
