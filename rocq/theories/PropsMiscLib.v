(** C132-C133: the environment and xsnprintf (libutils/misc_lib.c). *)
From Verif Require Import Prelude PreludeFacts Str StrFacts Libc LibcFacts MemSpec CompatModel CompatProofs PrintfModel PrintfSpec PropsPrintf MiscLibModel PropsSys.
Set Implicit Arguments.

(** * C132: putenv_wrapper *)
Lemma other_prefix name x u : proper name -> proper x -> x <> name -> prefixb (x ++ lit "=") (name ++ lit "=" ++ u) = false.
Proof.
  intros (_ & _ & P) (_ & _ & PX) N. destruct (prefixb (x ++ lit "=") (name ++ lit "=" ++ u)) eqn:Y; auto. exfalso. apply N.
  apply prefixb_spec in Y as [w Y]. rewrite <- app_assoc in Y. cbn [lit app] in Y. clear -Y P PX.
  revert x Y PX. induction name as [|c n IH]; intros [|d x] Y PX; auto.
  - cbn in Y. injection Y as <- _. exfalso. apply PX. now left.
  - cbn in Y. injection Y as -> _. exfalso. apply P. now left.
  - cbn in Y. injection Y as -> Y. f_equal. apply IH; auto; intros I; [apply P|apply PX]; now right.
Qed.
Lemma own_prefix name value : prefixb (name ++ lit "=") (name ++ lit "=" ++ value) = true.
Proof. apply prefixb_spec. exists value. now rewrite <- app_assoc. Qed.
Lemma own_value name value env : getenv name ((name ++ lit "=" ++ value) :: env) = Some value.
Proof.
  cbn [getenv]. rewrite own_prefix. f_equal. change (lit "=" ++ value) with ("="%char :: value). rewrite skipn_app_ge by lia.
  now replace (S (length name) - length name) with 1 by lia.
Qed.
Lemma other_value x name value env : proper name -> proper x -> x <> name -> getenv x ((name ++ lit "=" ++ value) :: env) = getenv x env.
Proof. intros P PX N. cbn [getenv]. now rewrite other_prefix. Qed.
Lemma replace_entry_some name value env env' : proper name -> replace_entry name value env = Some env' ->
  getenv name env' = Some value /\ forall x, proper x -> x <> name -> getenv x env' = getenv x env.
Proof.
  intros P. revert env'. induction env as [|e env IH]; intros env' H; [discriminate|]. cbn [replace_entry] in H.
  destruct (prefixb (name ++ lit "=") e) eqn:B.
  - assert (E : env' = (name ++ lit "=" ++ value) :: env) by congruence. subst env'. split; [apply own_value|].
    intros x PX N. rewrite other_value by assumption. apply prefixb_spec in B as [v ->]. rewrite <- app_assoc. now rewrite other_value.
  - destruct (replace_entry name value env) as [env1|] eqn:R; [|discriminate]. cbn in H. injection H as <-. destruct (IH _ eq_refl) as [A C]. cbn [getenv]. rewrite B. split; auto.
    intros x PX N. destruct (prefixb (x ++ lit "=") e); auto.
Qed.
Lemma replace_entry_none name value env : replace_entry name value env = None ->
  forall e, In e env -> prefixb (name ++ lit "=") e = false.
Proof.
  induction env as [|e env IH]; intros H x I; [destruct I|]. cbn [replace_entry] in H. destruct (prefixb (name ++ lit "=") e) eqn:B; [discriminate|].
  destruct (replace_entry name value env); [discriminate|]. destruct I as [<-|I]; auto.
Qed.
Lemma getenv_app name env e : (forall x, In x env -> prefixb (name ++ lit "=") x = false) -> getenv name (env ++ e) = getenv name e.
Proof. induction env as [|x env IH]; intros H; [reflexivity|]. cbn [app getenv]. rewrite (H x) by (now left). apply IH. intros; apply H; now right. Qed.
Lemma getenv_snoc x name value env : proper name -> proper x -> x <> name -> getenv x (env ++ [name ++ lit "=" ++ value]) = getenv x env.
Proof.
  intros P PX N. induction env as [|e env IH]; [cbn [app]; now rewrite other_value|].
  cbn [app getenv]. now destruct (prefixb (x ++ lit "=") e).
Qed.
Lemma setenv_spec mem name value env : proper name ->
  let '(r, e, env') := setenv mem name value true env in
  if mem then r = 0%Z /\ e = None /\ getenv name env' = Some value /\ forall x, proper x -> x <> name -> getenv x env' = getenv x env
  else r = (-1)%Z /\ e = Some ENOMEM /\ env' = env.
Proof.
  intros P. pose proof P as (C & NE & NQ). unfold setenv. destruct name as [|c n] eqn:EN; [congruence|]. rewrite <- EN in *. clear EN c n.
  pose proof (@strchr_cases name "=" C ltac:(discriminate)) as SC. destruct (strchr name "=") as [i|].
  { exfalso. destruct SC as (a & b & -> & _). apply NQ. apply in_or_app. right. now left. }
  rewrite andb_false_r. destruct mem; [|auto]. split; auto. split; auto.
  destruct (replace_entry name value env) as [env'|] eqn:R; [exact (replace_entry_some _ _ P R)|].
  pose proof (replace_entry_none _ _ _ R) as H. split.
  - rewrite getenv_app by exact H. apply own_value.
  - intros x PX N. now apply getenv_snoc.
Qed.
Lemma strchr_equal name value : ~ In "="%char name -> strchr (name ++ "="%char :: value) "=" = Some (length name).
Proof.
  induction name as [|c n IH]; intros N; [reflexivity|]. cbn [app strchr]. destruct (beq_spec c "=") as [->|D]; [exfalso; apply N; now left|].
  rewrite IH by (intros I; apply N; now right). reflexivity.
Qed.
Lemma putenv_eq mem m name value env : holds m (name ++ "="%char :: value) -> ~ In "="%char name ->
  putenv_wrapper true mem m env = Ok (setenv mem name value true env).
Proof.
  intros H NQ. pose proof (proj1 H) as C. unfold putenv_wrapper. rewrite (strdup_spec H). cbn [bind].
  assert (HB : holds (block (name ++ "="%char :: value)) (name ++ "="%char :: value)) by (split; [exact C|exists []; apply block_eq]).
  rewrite (proj2 (mstr_holds _ _) HB). cbn [bind]. rewrite strchr_equal by exact NQ.
  assert (CN : is_cstr name) by (intros I; apply C; apply in_or_app; auto). assert (CV : is_cstr value) by (intros I; apply C; apply in_or_app; right; now right).
  assert (B : block (name ++ "="%char :: value) = map Some name ++ Some "="%char :: (map Some value ++ [Some NUL])).
  { rewrite block_eq, map_app. cbn [map]. now rewrite <- app_assoc. }
  rewrite B, aset_Ok by (rewrite app_length, map_length; cbn; lia). cbn [bind]. rewrite upd_map_snoc.
  assert (V : mstr (skipn (length name + 1) (map Some name ++ Some NUL :: map Some value ++ [Some NUL])) = Ok value).
  { rewrite skipn_app_ge by (rewrite map_length; lia). rewrite map_length. replace (length name + 1 - length name) with 1 by lia. cbn [skipn].
    apply mstr_holds. split; [exact CV|]. now exists []. }
  unfold cells in V |- *. rewrite V. cbn [bind].
  assert (N : mstr (map Some name ++ Some NUL :: map Some value ++ [Some NUL]) = Ok name) by (apply mstr_holds; split; [exact CN|eauto]).
  unfold cells in N |- *. rewrite N. reflexivity.
Qed.
Lemma proper_front name value : is_cstr (name ++ value) -> name <> [] -> ~ In "="%char name -> proper name.
Proof. intros C NE NQ. split; [|auto]. intros I. apply C, in_or_app. auto. Qed.
(** name=value (up to the first =) sets the variable and no other; the value is all that comes behind it *)
Theorem C132_putenv m name value env : holds m (name ++ "="%char :: value) -> name <> [] -> ~ In "="%char name ->
  exists env', putenv_wrapper true true m env = Ok (0%Z, None, env') /\ getenv name env' = Some value /\
    forall x, proper x -> x <> name -> getenv x env' = getenv x env.
Proof.
  intros H NE NQ. rewrite (@putenv_eq true m name value env H NQ).
  pose proof (@setenv_spec true name value env (@proper_front _ _ (proj1 H) NE NQ)) as G. destruct (setenv true name value true env) as [[r e] env']. destruct G as (-> & -> & G). eauto.
Qed.
(** anything else is refused, and so is what there is no memory for; the environment stays *)
Theorem C132_putenv_fails mem m s env : holds m s ->
  (~ In "="%char s \/ hd NUL s = "="%char -> putenv_wrapper true mem m env = Ok ((-1)%Z, Some EINVAL, env)) /\
  (In "="%char s -> hd NUL s <> "="%char -> putenv_wrapper true false m env = Ok ((-1)%Z, Some ENOMEM, env)) /\
  putenv_wrapper false mem m env = Abort.
Proof.
  intros H. split; [|split].
  - intros [N|E].
    + unfold putenv_wrapper. rewrite (strdup_spec H). cbn [bind]. assert (HB : holds (block s) s) by (split; [exact (proj1 H)|exists []; apply block_eq]).
      rewrite (proj2 (mstr_holds _ _) HB). cbn [bind]. pose proof (@strchr_cases s "=" (proj1 H) ltac:(discriminate)) as SC.
      destruct (strchr s "=") as [i|]; [|reflexivity]. exfalso. destruct SC as (a & b & -> & _). apply N. apply in_or_app. right. now left.
    + destruct s as [|c s]; [discriminate E|]. cbn in E. subst c. rewrite (@putenv_eq mem m [] s env H) by (intros []). reflexivity.
  - intros I E. pose proof (@strchr_cases s "=" (proj1 H) ltac:(discriminate)) as SC.
    destruct (strchr s "=") as [i|]; [|contradiction]. destruct SC as (a & b & -> & _ & NA).
    rewrite (@putenv_eq false m a b env H NA). assert (NE : a <> []) by (intros ->; apply E; reflexivity).
    pose proof (@setenv_spec false a b env (@proper_front _ _ (proj1 H) NE NA)) as G. destruct (setenv false a b true env) as [[r e] env']. destruct G as (-> & -> & ->). reflexivity.
  - unfold putenv_wrapper, strdup. rewrite (proj2 (mstr_holds _ _) H). reflexivity.
Qed.
Print Assumptions C132_putenv.
Print Assumptions C132_putenv_fails.
Example C132_instance : holds (block (lit "A=B=C")) (lit "A" ++ "="%char :: lit "B=C") /\
  putenv_wrapper true true (block (lit "A=B=C")) [lit "AA=1"; lit "A=2"; lit "A=3"] = Ok (0%Z, None, [lit "AA=1"; lit "A=B=C"; lit "A=3"]) /\
  putenv_wrapper true true (block (lit "C=")) [lit "A=2"] = Ok (0%Z, None, [lit "A=2"; lit "C="]).
Proof. split; [split; [unfold is_cstr, NUL; cbn; intuition discriminate|exists []; reflexivity]|]. split; reflexivity. Qed.

(** * C133: xsnprintf *)
(** the text C99 says, if it fits *)
Theorem C133_fits ndebug is args t st m size : Forall wf_item is -> expands supported 0 is args t st -> size <= length m ->
  length t < size -> (Z.of_nat (length t) < INT_MAX)%Z ->
  xsnprintf ndebug m size (renders is) args = Ok (map Some (t ++ [NUL]) ++ skipn (length t + 1) m, None).
Proof.
  intros WF E SZ L LI. unfold xsnprintf. pose proof (C91_vsnprintf_partial m WF E SZ) as V. unfold cells in V |- *. rewrite V. cbn [bind]. unfold printf_result. rewrite (proj2 (Z.leb_gt _ _) LI).
  rewrite (proj2 (Z.ltb_ge _ _)) by lia. rewrite (proj2 (Z.leb_gt _ _)) by lia. do 2 f_equal. unfold terminated.
  destruct size as [|n]; [lia|]. rewrite firstn_all2 by lia. rewrite Nat.min_r by lia. rewrite map_app. cbn [map]. now rewrite <- app_assoc.
Qed.
(** a text that does not fit ends the process, or (NDEBUG) is cut, with a NUL, and reported *)
Theorem C133_truncated ndebug is args t st m size : Forall wf_item is -> expands supported 0 is args t st -> size <= length m ->
  size <= length t -> (Z.of_nat (length t) < INT_MAX)%Z ->
  xsnprintf ndebug m size (renders is) args =
    if ndebug then Ok (match size with O => m | S n => map Some (firstn n t ++ [NUL]) ++ skipn size m end, Some Truncated) else Abort.
Proof.
  intros WF E SZ L LI. unfold xsnprintf. pose proof (C91_vsnprintf_partial m WF E SZ) as V. unfold cells in V |- *. rewrite V. cbn [bind]. unfold printf_result. rewrite (proj2 (Z.leb_gt _ _) LI).
  rewrite (proj2 (Z.ltb_ge _ _)) by lia. rewrite (proj2 (Z.leb_le _ _)) by lia. destruct ndebug; [|reflexivity]. do 2 f_equal. unfold terminated.
  destruct size as [|n]; [reflexivity|]. rewrite Nat.min_l by lia. rewrite map_app. cbn [map]. rewrite <- app_assoc. now rewrite Nat.add_1_r.
Qed.
(** whatever the format: nothing outside of the size is changed and, unless the process ends, the buffer
    holds a string; it is empty if the text is too long to be counted *)
Theorem C133_any_format ndebug m size format args m' rep : 0 < size -> size <= length m -> xsnprintf ndebug m size format args = Ok (m', rep) ->
  length m' = length m /\ skipn size m' = skipn size m /\ (exists i, i < size /\ nth_error m' i = Some (Some NUL)) /\
  (rep = Some Failed -> nth_error m' 0 = Some (Some NUL)).
Proof.
  intros P SZ H. unfold xsnprintf in H. destruct (@C92_never_outside m size format args SZ) as [_ X]. unfold cells in *.
  destruct (rpl_vsnprintf (Some m) size format args) as [[[m1 r] st]| | |] eqn:E; try discriminate. cbn [bind] in H.
  destruct (X _ _ _ eq_refl) as (L & K & N & _). specialize (N P). destruct (r <? 0)%Z.
  - destruct m1 as [|x m1]; [cbn in L; lia|]. cbn [aset length Nat.ltb Nat.leb upd bind] in H. injection H as <- <-.
    split; [exact L|]. split; [destruct size; [lia|exact K]|]. split; [exists 0; auto|auto].
  - destruct (Z.of_nat size <=? r)%Z; [destruct ndebug; [|discriminate]|]; injection H as <- <-; repeat split; auto; discriminate.
Qed.
(** a text of INT_MAX characters or more gives the empty string and a warning *)
Theorem C133_too_long ndebug is args t st m size : Forall wf_item is -> expands supported 0 is args t st -> 0 < size -> size <= length m ->
  (INT_MAX <= Z.of_nat (length t))%Z -> exists m', xsnprintf ndebug m size (renders is) args = Ok (m', Some Failed).
Proof.
  intros WF E P SZ LI. unfold xsnprintf. pose proof (C91_vsnprintf_partial m WF E SZ) as V. unfold cells in V |- *. rewrite V. cbn [bind]. unfold printf_result. rewrite (proj2 (Z.leb_le _ _) LI).
  change ((-1 <? 0)%Z) with true. cbv iota. unfold terminated. destruct size as [|n]; [lia|]. rewrite aset_Ok by (rewrite app_length; cbn; lia). eexists. reflexivity.
Qed.
(** with size 0 it writes a byte in that case: outside of an empty buffer *)
Theorem C133_size_zero_refuted : exists format, forall ndebug args, xsnprintf ndebug [] 0 format args = UB.
Proof. exists (lit "%2147483648d"). intros ndebug args. unfold xsnprintf. vm_compute. reflexivity. Qed.
Print Assumptions C133_fits.
Print Assumptions C133_truncated.
Print Assumptions C133_any_format.
Print Assumptions C133_too_long.
Print Assumptions C133_size_zero_refuted.
Example C133_instance : xsnprintf false (repeat None 6) 5 (lit "%s=%d") [AStr (Some (block (lit "n"))); AInt 25] = Ok (map Some (lit "n=25" ++ [NUL]) ++ [None], None) /\
  xsnprintf true (repeat None 6) 4 (lit "%s=%d") [AStr (Some (block (lit "n"))); AInt 25] = Ok (map Some (lit "n=2" ++ [NUL]) ++ [None; None], Some Truncated) /\
  xsnprintf false (repeat None 6) 4 (lit "%s=%d") [AStr (Some (block (lit "n"))); AInt 25] = Abort.
Proof. repeat split; vm_compute; reflexivity. Qed.
