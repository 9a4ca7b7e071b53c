(** C119: wide characters (libutils/unicode.c).  C120: unsetenv and mkdtemp.  C121: closefrom. *)
From Verif Require Import Prelude PreludeFacts Str StrFacts MemSpec Libc LibcFacts EnvProofs CompatModel CompatProofs InetModel SysModel.
Set Implicit Arguments.

(** ** C119 *)
(** the character an int16_t is converted to *)
Definition narrow (w : Z) : byte := if ((0 <=? w) && (w <? 256))%Z then ascii_of_N (Z.to_N w) else "_"%char.
Definition fits (w : Z) : bool := ((0 <=? w) && (w <? 256))%Z.

Lemma to_wide_spec s : forall n p d tail fuel, is_cstr s -> length s < fuel ->
  ((exists r, tail = Some NUL :: r) \/ n <= length p + length s) ->
  let w := map scode (firstn (n - length p) s) in length w <= length d ->
  to_wide fuel (length p) (Some n) (map Some (map scode p) ++ d) (map Some p ++ map Some s ++ tail)
  = Ok (length p + length w, map Some (map scode p) ++ map Some w ++ skipn (length w) d).
Proof.
  induction s as [|b s IH]; intros n p d tail fuel C FU E w L.
  - assert (W : w = []) by (subst w; rewrite firstn_nil; reflexivity). rewrite W. cbn [length map app skipn]. rewrite Nat.add_0_r.
    destruct fuel as [|fuel]; [cbn in FU; lia|]. cbn [to_wide below]. destruct (Nat.ltb_spec (length p) n) as [LT|GE]; [|reflexivity].
    destruct E as [[r ->]|E]; [|cbn in E; lia]. cbn [map app].
    assert (G : aget (map Some p ++ Some NUL :: r) (length p) = Ok NUL) by (rewrite <- (map_length Some p); apply aget_at).
    rewrite G. reflexivity.
  - destruct fuel as [|fuel]; [cbn in FU; lia|]. cbn [to_wide below]. destruct (Nat.ltb_spec (length p) n) as [LT|GE].
    2:{ assert (W : w = []) by (subst w; replace (n - length p) with 0 by lia; reflexivity). rewrite W. cbn [length map app skipn]. rewrite Nat.add_0_r. reflexivity. }
    assert (G : aget (map Some p ++ map Some (b :: s) ++ tail) (length p) = Ok b).
    { cbn [map app]. rewrite <- (map_length Some p). apply aget_at. }
    rewrite G. cbn [bind]. assert (NB : b <> NUL) by (intros ->; apply C; left; reflexivity).
    destruct (beq b NUL) eqn:B; [apply beq_true in B; contradiction|].
    assert (W : w = scode b :: map scode (firstn (n - length (p ++ [b])) s)).
    { subst w. rewrite app_length. cbn [length]. replace (n - length p) with (S (n - (length p + 1))) by lia. reflexivity. }
    destruct d as [|x d]; [rewrite W in L; cbn in L; lia|].
    assert (A : aset (map Some (map scode p) ++ x :: d) (length p) (scode b) = Ok (map Some (map scode p) ++ Some (scode b) :: d)).
    { rewrite <- (map_length scode p), <- (map_length Some (map scode p)) at 1. apply aset_at. }
    rewrite A. cbn [bind].
    specialize (IH n (p ++ [b]) d tail fuel). cbv zeta in IH. rewrite !map_app in IH. cbn [map] in IH. rewrite <- !app_assoc in IH. cbn [app] in IH.
    rewrite app_length in IH. cbn [length] in IH. replace (length p + 1) with (S (length p)) in IH by lia.
    cbn [map app]. rewrite IH.
    + rewrite W. rewrite app_length. cbn [length map app skipn]. replace (length p + 1) with (S (length p)) by lia. do 2 f_equal. lia.
    + intros H. apply C. right. exact H.
    + cbn [length] in FU. lia.
    + destruct E as [E|E]; [left; exact E|right; cbn [length] in E; lia].
    + rewrite W in L. cbn [length] in L. rewrite app_length in L. cbn [length] in L. replace (length p + 1) with (S (length p)) in L by lia. lia.
Qed.
(** The text, at most size - 1 characters of it, and a terminator: nothing else is written, and of the source nothing else is read. *)
Theorem C119_to_wide s tail dst size : is_cstr s -> 0 < size ->
  ((exists r, tail = Some NUL :: r) \/ size - 1 <= length s) ->
  let w := map scode (firstn (size - 1) s) in length w < length dst ->
  ConvertFromCharToWChar dst (map Some s ++ tail) size = Ok (map Some w ++ Some 0%Z :: skipn (S (length w)) dst).
Proof.
  intros C P E w L. unfold ConvertFromCharToWChar. destruct size as [|n]; [lia|]. cbn [less_one].
  replace (S n - 1) with n in * by lia. assert (W : w = map scode (firstn n s)) by (subst w; replace (S n - 1) with n by lia; reflexivity). clearbody w.
  pose proof (@to_wide_spec s n [] dst tail (S (length (map Some s ++ tail))) C) as H. cbn [length map app] in H.
  replace (n - 0) with n in H by lia. cbv zeta in H. rewrite H; rewrite <- ?W.
  - cbn [bind Nat.add]. destruct (skipn (length w) dst) as [|x r] eqn:SK.
    { apply (f_equal (@length _)) in SK. rewrite skipn_length in SK. cbn [length] in SK. lia. }
    assert (A : aset (map Some w ++ x :: r) (length w) 0%Z = Ok (map Some w ++ Some 0%Z :: r)) by (rewrite <- (map_length Some w); apply aset_at).
    rewrite A. do 3 f_equal.
    change (S (length w)) with (1 + length w). rewrite <- skipn_skipn, SK. reflexivity.
  - rewrite app_length, map_length. lia.
  - exact E.
  - lia.
Qed.

Lemma from_wide_spec ws : forall n p d tail fuel clean, ~ In 0%Z ws -> length ws < fuel ->
  ((exists r, tail = Some 0%Z :: r) \/ n <= length p + length ws) ->
  let w := firstn (n - length p) ws in length w <= length d ->
  from_wide fuel (length p) (Some n) (map Some (map narrow p) ++ d) (map Some p ++ map Some ws ++ tail) clean
  = Ok (length p + length w, map Some (map narrow p) ++ map Some (map narrow w) ++ skipn (length w) d, clean && forallb fits w).
Proof.
  induction ws as [|b ws IH]; intros n p d tail fuel clean C FU E w L.
  - assert (W : w = []) by (subst w; apply firstn_nil). rewrite W. cbn [length map app skipn forallb]. rewrite Nat.add_0_r, andb_true_r.
    destruct fuel as [|fuel]; [cbn in FU; lia|]. cbn [from_wide below]. destruct (Nat.ltb_spec (length p) n) as [LT|GE]; [|reflexivity].
    destruct E as [[r ->]|E]; [|cbn in E; lia]. cbn [map app].
    assert (G : aget (map Some p ++ Some 0%Z :: r) (length p) = Ok 0%Z) by (rewrite <- (map_length Some p); apply aget_at).
    rewrite G. reflexivity.
  - destruct fuel as [|fuel]; [cbn in FU; lia|]. cbn [from_wide below]. destruct (Nat.ltb_spec (length p) n) as [LT|GE].
    2:{ assert (W : w = []) by (subst w; replace (n - length p) with 0 by lia; reflexivity). rewrite W. cbn [length map app skipn forallb]. rewrite Nat.add_0_r, andb_true_r. reflexivity. }
    assert (G : aget (map Some p ++ map Some (b :: ws) ++ tail) (length p) = Ok b).
    { cbn [map app]. rewrite <- (map_length Some p). apply aget_at. }
    rewrite G. cbn [bind]. assert (NB : b <> 0%Z) by (intros ->; apply C; left; reflexivity).
    destruct (Z.eqb_spec b 0) as [|_]; [contradiction|].
    assert (W : w = b :: firstn (n - length (p ++ [b])) ws).
    { subst w. rewrite app_length. cbn [length]. replace (n - length p) with (S (n - (length p + 1))) by lia. reflexivity. }
    destruct d as [|x d]; [rewrite W in L; cbn in L; lia|].
    assert (A : forall c, aset (map Some (map narrow p) ++ x :: d) (length p) c = Ok (map Some (map narrow p) ++ Some c :: d)).
    { intros c. rewrite <- (map_length narrow p), <- (map_length Some (map narrow p)) at 1. apply aset_at. }
    assert (R : forall cl, from_wide fuel (S (length p)) (Some n) (map Some (map narrow p) ++ Some (narrow b) :: d) (map Some p ++ map Some (b :: ws) ++ tail) cl
      = Ok (length p + length w, map Some (map narrow p) ++ map Some (map narrow w) ++ skipn (length w) (x :: d), cl && forallb fits (tl w))).
    { intros cl. specialize (IH n (p ++ [b]) d tail fuel cl). cbv zeta in IH. rewrite !map_app in IH. cbn [map] in IH. rewrite <- !app_assoc in IH. cbn [app] in IH.
      rewrite app_length in IH. cbn [length] in IH. replace (length p + 1) with (S (length p)) in IH by lia. cbn [map app]. rewrite IH.
      + rewrite W. rewrite app_length. cbn [length map app skipn tl]. replace (length p + 1) with (S (length p)) by lia. do 3 f_equal. lia.
      + intros H. apply C. right. exact H.
      + cbn [length] in FU. lia.
      + destruct E as [E|E]; [left; exact E|right; cbn [length] in E; lia].
      + rewrite W in L. cbn [length] in L. rewrite app_length in L. cbn [length] in L. replace (length p + 1) with (S (length p)) in L by lia. lia. }
    assert (WF : clean && forallb fits w = clean && fits b && forallb fits (tl w)) by (rewrite W; cbn [forallb tl]; apply andb_assoc). rewrite WF.
    assert (FB : fits b = negb ((b <? 0) || (256 <=? b))%Z) by (unfold fits; destruct (Z.leb_spec 0 b), (Z.ltb_spec b 0), (Z.ltb_spec b 256), (Z.leb_spec 256 b); try lia; reflexivity).
    rewrite FB. unfold narrow in R at 2. change ((0 <=? b) && (b <? 256))%Z with (fits b) in R. rewrite FB in R.
    destruct ((b <? 0) || (256 <=? b))%Z; cbn [negb] in *; rewrite A; cbn [bind]; rewrite R; rewrite ?andb_true_r, ?andb_false_r; reflexivity.
Qed.
(** characters from 0 to 255 are kept, the others become an underscore, and true is returned if there are none of these *)
Theorem C119_from_wide ws tail dst size : ~ In 0%Z ws -> 0 < size ->
  ((exists r, tail = Some 0%Z :: r) \/ size - 1 <= length ws) ->
  let w := firstn (size - 1) ws in length w < length dst ->
  ConvertFromWCharToChar dst (map Some ws ++ tail) size = Ok (forallb fits w, map Some (map narrow w) ++ Some NUL :: skipn (S (length w)) dst).
Proof.
  intros C P E w L. unfold ConvertFromWCharToChar. destruct size as [|n]; [lia|]. cbn [less_one].
  replace (S n - 1) with n in * by lia. assert (W : w = firstn n ws) by (subst w; replace (S n - 1) with n by lia; reflexivity). clearbody w.
  pose proof (@from_wide_spec ws n [] dst tail (S (length (map Some ws ++ tail))) true C) as H. cbn [length map app] in H.
  replace (n - 0) with n in H by lia. cbv zeta in H. rewrite H; rewrite <- ?W.
  - cbn [bind Nat.add andb]. destruct (skipn (length w) dst) as [|x r] eqn:SK.
    { apply (f_equal (@length _)) in SK. rewrite skipn_length in SK. cbn [length] in SK. lia. }
    assert (A : aset (map Some (map narrow w) ++ x :: r) (length w) NUL = Ok (map Some (map narrow w) ++ Some NUL :: r)).
    { rewrite <- (map_length narrow w), <- (map_length Some (map narrow w)) at 1. apply aset_at. }
    rewrite A. cbn [bind]. do 4 f_equal.
    change (S (length w)) with (1 + length w). rewrite <- skipn_skipn, SK. reflexivity.
  - rewrite app_length, map_length. lia.
  - exact E.
  - lia.
Qed.
Lemma narrow_ascii b : (code b < 128)%N -> narrow (scode b) = b /\ fits (scode b) = true /\ (scode b = 0%Z -> b = NUL).
Proof. destruct b as [[] [] [] [] [] [] [] []]; intros H; try (exfalso; revert H; vm_compute; discriminate); (split; [reflexivity|split; [reflexivity|]]); intros E; vm_compute in E; first [discriminate E|reflexivity]. Qed.
Theorem C119_round_trip s dw dst size : is_cstr s -> Forall (fun b => (code b < 128)%N) s -> length s < size ->
  length s < length dw -> length s < length dst ->
  exists w, ConvertFromCharToWChar dw (block s) size = Ok w /\ ConvertFromWCharToChar dst w size = Ok (true, put dst s).
Proof.
  intros C A L LW LD. rewrite block_eq. assert (F : firstn (size - 1) s = s) by (apply firstn_all2; lia).
  eexists. split.
  - apply C119_to_wide; [exact C|lia|left; eexists; reflexivity|rewrite map_length, F; exact LW].
  - rewrite F, map_length.
    assert (NZ : ~ In 0%Z (map scode s)).
    { intros I. apply in_map_iff in I as [b [E I]]. rewrite Forall_forall in A. apply (narrow_ascii _ (A b I)) in E. subst b. exact (C I). }
    rewrite C119_from_wide; [|exact NZ|lia|left; eexists; reflexivity|rewrite firstn_all2; rewrite map_length; lia].
    rewrite firstn_all2 by (rewrite map_length; lia). rewrite map_length. unfold put.
    assert (M : map narrow (map scode s) = s /\ forallb fits (map scode s) = true).
    { clear - A. induction A as [|b s H A IH]; [split; reflexivity|]. destruct (narrow_ascii _ H) as [E [F _]], IH as [I1 I2]. cbn. rewrite E, F, I1, I2. split; reflexivity. }
    destruct M as [M1 M2]. rewrite M1, M2. reflexivity.
Qed.
(** a character beyond ASCII does not come back: the signed char becomes a negative number *)
Theorem C119_high_byte_refuted : exists w, ConvertFromCharToWChar (repeat None 2) (block [ascii_of_N 233]) 2 = Ok w /\
  ConvertFromWCharToChar (repeat None 2) w 2 = Ok (false, block (lit "_")).
Proof. eexists. split; reflexivity. Qed.
(** a size of 0 is not refused *)
Theorem C119_size_zero_refuted : ConvertFromCharToWChar [None] (block (lit "ab")) 0 = UB.
Proof. reflexivity. Qed.
Example C119_nonvacuous : exists w, ConvertFromCharToWChar (repeat None 3) (block (lit "abcd")) 3 = Ok w /\
  w = [Some 97%Z; Some 98%Z; Some 0%Z] /\ ConvertFromWCharToChar (repeat None 5) [Some 97%Z; Some 300%Z; Some 0%Z] 5 = Ok (false, map Some (lit "a_" ++ [NUL]) ++ [None; None]).
Proof. eexists. split; [reflexivity|]. split; reflexivity. Qed.
Print Assumptions C119_to_wide.
Print Assumptions C119_from_wide.
Print Assumptions C119_round_trip.
Print Assumptions C119_high_byte_refuted.
Print Assumptions C119_size_zero_refuted.

(** ** C120: unsetenv *)
(** an entry of the environment for [name] *)
Definition for_name (name e : list byte) : Prop := e = name \/ exists v, e = name ++ "="%char :: v.
(** what getenv finds: the value of the first entry name=value *)
Fixpoint getenv (name : list byte) (entries : list (list byte)) : option (list byte) :=
  match entries with
  | [] => None
  | e :: entries => if prefixb (name ++ lit "=") e then Some (skipn (S (length name)) e) else getenv name entries
  end.
Definition proper (name : list byte) : Prop := is_cstr name /\ name <> [] /\ ~ In "="%char name.

Lemma is_variable_spec name e : is_cstr e -> is_variable name e = true <-> for_name name e.
Proof.
  intros C. unfold is_variable, for_name.
  assert (P : strncmp_eq name e (length name) = prefixb name e).
  { unfold strncmp_eq. rewrite firstn_all. destruct (prefixb name e) eqn:P.
    - apply prefixb_spec in P as [t ->]. rewrite firstn_app_le, firstn_all by lia. apply bytes_eqb_refl.
    - destruct (bytes_eqb name (firstn (length name) e)) eqn:B; [|reflexivity]. apply bytes_eqb_eq in B. rewrite <- P. symmetry. apply prefixb_spec.
      exists (skipn (length name) e). rewrite B at 1. symmetry. apply firstn_skipn. }
  rewrite P. split.
  - intros H. apply andb_prop in H as [H1 H2]. apply prefixb_spec in H1 as [t ->].
    rewrite <- app_assoc, nth_error_app2, Nat.sub_diag in H2 by lia. destruct t as [|x t]; [left; apply app_nil_r|].
    cbn in H2. apply orb_prop in H2 as [H2|H2]; apply beq_true in H2; subst x; [right; eauto|].
    exfalso. apply C. apply in_app_iff. right. left. reflexivity.
  - intros [->|[v ->]].
    + replace (prefixb name name) with true by (symmetry; apply prefixb_spec; exists []; symmetry; apply app_nil_r).
      rewrite nth_error_app2, Nat.sub_diag by lia. reflexivity.
    + replace (prefixb name (name ++ "="%char :: v)) with true by (symmetry; apply prefixb_spec; eauto).
      rewrite <- app_assoc, nth_error_app2, Nat.sub_diag by lia. reflexivity.
Qed.
Lemma env_at_mid a x b : env_at (map Some a ++ x :: b) (length a) = Ok x.
Proof. unfold env_at. rewrite nth_error_app2 by (rewrite map_length; lia). rewrite map_length, Nat.sub_diag. reflexivity. Qed.
Lemma find_variable_spec name vars : forall done rest fuel, Forall is_cstr vars -> length vars < fuel ->
  exists a b, vars = a ++ b /\ (forall e, In e a -> ~ for_name name e) /\ match b with [] => True | e :: _ => for_name name e end /\
  find_variable fuel name (map Some done ++ map Some vars ++ None :: rest) (length done) = Ok (length done + length a).
Proof.
  induction vars as [|e vars IH]; intros done rest fuel F FU; (destruct fuel as [|fuel]; [cbn in FU; lia|]); cbn [find_variable].
  - exists [], []. split; [reflexivity|]. split; [intros e []|]. split; [exact Logic.I|]. cbn [map app]. rewrite env_at_mid. cbn. rewrite Nat.add_0_r. reflexivity.
  - cbn [map app]. rewrite env_at_mid. cbn [bind]. inversion F; subst. destruct (is_variable name e) eqn:V.
    + exists [], (e :: vars). split; [reflexivity|]. split; [intros x []|]. split; [apply is_variable_spec; assumption|]. cbn. rewrite Nat.add_0_r. reflexivity.
    + destruct (IH (done ++ [e]) rest fuel) as [a [b [E [N [B FV]]]]]; [assumption|cbn in FU; lia|].
      exists (e :: a), b. split; [cbn; rewrite E at 1; reflexivity|]. split.
      { intros x [<-|I]; [|apply N; exact I]. intros X. apply is_variable_spec in X; [congruence|assumption]. }
      split; [exact B|]. rewrite map_app, <- app_assoc, app_length in FV. cbn [map app length] in FV.
      replace (length done + 1) with (S (length done)) in FV by lia. rewrite FV. f_equal. cbn. lia.
Qed.
Lemma upd_mid A (a : list A) x b y : upd (a ++ x :: b) (length a) y = a ++ y :: b.
Proof. induction a as [|h a IH]; cbn; [reflexivity|]. rewrite IH. reflexivity. Qed.
Lemma upd_midS A (a : list A) x b (y : option A) : upd (map Some a ++ x :: b) (length a) y = map Some a ++ y :: b.
Proof. rewrite <- (map_length Some a). apply upd_mid. Qed.
Lemma shift_spec b : forall a e rest fuel, length b + 1 < fuel ->
  shift_values fuel (map Some a ++ Some e :: map Some b ++ None :: rest) (length a) = Ok (map Some (a ++ b) ++ None :: None :: rest).
Proof.
  induction b as [|x b IH]; intros a e rest fuel FU; (destruct fuel as [|fuel]; [lia|]); cbn [shift_values]; rewrite env_at_mid; cbn [bind].
  - replace (env_at (map Some a ++ Some e :: map Some [] ++ None :: rest) (S (length a))) with (@Ok (option (list byte)) None).
    2:{ symmetry. cbn [map app]. change (Some e :: None :: rest) with (map Some [e] ++ None :: rest). rewrite app_assoc, <- map_app.
        replace (S (length a)) with (length (a ++ [e])) by (rewrite app_length; cbn; lia). apply env_at_mid. }
    cbn [bind map app]. rewrite upd_midS.
    destruct fuel as [|fuel]; [cbn in FU; lia|]. cbn [shift_values].
    unfold env_at. rewrite nth_error_app2 by (rewrite map_length; lia). rewrite map_length. replace (S (length a) - length a) with 1 by lia. cbn. rewrite app_nil_r. reflexivity.
  - replace (env_at (map Some a ++ Some e :: map Some (x :: b) ++ None :: rest) (S (length a))) with (Ok (Some x)).
    2:{ symmetry. cbn [map app]. change (Some e :: Some x :: map Some b ++ None :: rest) with (map Some [e] ++ Some x :: map Some b ++ None :: rest). rewrite app_assoc, <- map_app.
        replace (S (length a)) with (length (a ++ [e])) by (rewrite app_length; cbn; lia). apply env_at_mid. }
    cbn [bind map app]. rewrite upd_midS.
    specialize (IH (a ++ [x]) x rest fuel). rewrite !map_app, <- !app_assoc in IH. cbn [map app] in IH. rewrite app_length in IH. cbn [length] in IH.
    replace (length a + 1) with (S (length a)) in IH by lia. rewrite map_app. cbn [map]. rewrite <- app_assoc. cbn [app]. apply IH. cbn in FU. lia.
Qed.
(** The first entry for the name is taken out, the others keep their order; without one nothing changes. *)
Theorem C120_unsetenv name vars rest : proper name -> Forall is_cstr vars ->
  exists vars', unsetenv (Some name) (map Some vars ++ None :: rest) = Ok (true, map Some vars' ++ None :: (if length vars' <? length vars then [None] else []) ++ rest) /\
  ((vars' = vars /\ forall e, In e vars -> ~ for_name name e) \/
   exists a e b, vars = a ++ e :: b /\ vars' = a ++ b /\ for_name name e /\ forall x, In x a -> ~ for_name name x).
Proof.
  intros [C [NE NI]] F. unfold unsetenv. destruct name as [|n0 name0]; [congruence|]. set (name := n0 :: name0) in *.
  pose proof (@strchr_cases name "="%char C ltac:(discriminate)) as SC. destruct (strchr name "="%char) as [k|].
  { exfalso. destruct SC as [x [y [E _]]]. apply NI. rewrite E. apply in_app_iff. right. left. reflexivity. }
  destruct (@find_variable_spec name vars [] rest (S (length (map Some vars ++ None :: rest))) F) as [a [b [E [N [B FV]]]]].
  { rewrite app_length, map_length. cbn. lia. }
  cbn [map app length Nat.add] in FV. rewrite FV. cbn [bind]. destruct b as [|e b].
  - rewrite app_nil_r in E. subst a. exists vars. split; [|left; auto].
    cbn [shift_values]. rewrite env_at_mid. cbn [bind]. rewrite Nat.ltb_irrefl. reflexivity.
  - exists (a ++ b). split; [|right; exists a, e, b; auto].
    rewrite E. rewrite map_app, <- app_assoc. cbn [map app]. rewrite shift_spec.
    + cbn [bind]. replace (length (a ++ b) <? length (a ++ e :: b)) with true by (symmetry; apply Nat.ltb_lt; rewrite !app_length; cbn; lia). reflexivity.
    + rewrite app_length, map_length. cbn [length]. rewrite app_length, map_length. cbn. lia.
Qed.
(** NULL, the empty name and one with an equals sign are refused *)
Theorem C120_unsetenv_refused name environ : (forall n, name = Some n -> is_cstr n) -> match name with None => True | Some n => n = [] \/ In "="%char n end ->
  unsetenv name environ = Ok (false, environ).
Proof.
  intros C H. unfold unsetenv. destruct name as [[|n0 n]|]; [reflexivity| |reflexivity]. destruct H as [H|H]; [discriminate|].
  pose proof (@strchr_cases (n0 :: n) "="%char (C _ eq_refl) ltac:(discriminate)) as SC. destruct (strchr (n0 :: n) "="%char); [reflexivity|contradiction].
Qed.
Lemma no_equals x y a b : ~ In "="%char x -> ~ In "="%char y -> x ++ "="%char :: a = y ++ "="%char :: b -> x = y.
Proof.
  revert y. induction x as [|c x IH]; intros [|d y] X Y E; cbn in E.
  - reflexivity.
  - injection E as E _. exfalso. apply Y. left. auto.
  - injection E as E _. exfalso. apply X. left. auto.
  - injection E as -> E. f_equal. eapply IH; [| |exact E]; intros H; [apply X|apply Y]; right; exact H.
Qed.
Lemma getenv_other name x e l : proper name -> proper x -> x <> name -> for_name name e -> getenv x (e :: l) = getenv x l.
Proof.
  intros [_ [_ N]] [_ [_ X]] D F. cbn [getenv]. destruct (prefixb (x ++ lit "=") e) eqn:P; [|reflexivity]. exfalso.
  apply prefixb_spec in P as [t E]. rewrite <- app_assoc in E. cbn in E. destruct F as [->|[v ->]].
  - apply N. rewrite E. apply in_app_iff. right. left. reflexivity.
  - apply D. symmetry. eapply no_equals; eauto.
Qed.
Lemma getenv_app x a b : getenv x (a ++ b) = match getenv x a with Some v => Some v | None => getenv x b end.
Proof. induction a as [|e a IH]; cbn; [reflexivity|]. destruct (prefixb _ _); [reflexivity|exact IH]. Qed.
Lemma getenv_none name l : (forall e, In e l -> ~ for_name name e) -> getenv name l = None.
Proof.
  induction l as [|e l IH]; intros H; [reflexivity|]. cbn [getenv]. destruct (prefixb (name ++ lit "=") e) eqn:P.
  - apply prefixb_spec in P as [t E]. exfalso. apply (H e); [left; reflexivity|]. right. exists t. rewrite E, <- app_assoc. reflexivity.
  - apply IH. intros x I. apply H. right. exact I.
Qed.
(** The other variables keep their values; the variable is gone if it was there once. *)
Theorem C120_environment name vars rest ok environ : proper name -> Forall is_cstr vars ->
  unsetenv (Some name) (map Some vars ++ None :: rest) = Ok (ok, environ) ->
  exists vars' r, ok = true /\ environ = map Some vars' ++ None :: r /\ (forall x, proper x -> x <> name -> getenv x vars' = getenv x vars) /\
    ((forall a e b, vars = a ++ e :: b -> for_name name e -> forall x, In x (a ++ b) -> ~ for_name name x) -> getenv name vars' = None).
Proof.
  intros P F U. destruct (C120_unsetenv rest P F) as [vars' [E H]]. rewrite E in U. injection U as <- <-. exists vars'. eexists. split; [reflexivity|]. split; [reflexivity|].
  destruct H as [[-> N]|[a [e [b [-> [-> [FN NA]]]]]]].
  - split; [reflexivity|]. intros _. apply getenv_none, N.
  - split.
    + intros x PX D. rewrite !getenv_app. rewrite (@getenv_other name x e b) by assumption. reflexivity.
    + intros O. apply getenv_none. apply (O a e b eq_refl FN).
Qed.
(** a variable that is there twice stays *)
Theorem C120_duplicates_refuted : unsetenv (Some (lit "A")) (map Some [lit "A=1"; lit "B=2"; lit "A=3"] ++ [None])
  = Ok (true, map Some [lit "B=2"; lit "A=3"] ++ [None; None]).
Proof. reflexivity. Qed.

(** ** C120: mkdtemp *)
Lemma pad6_spec i : (i <= MAXTRY)%N -> length (pad6 i) = 6 /\ forallb isdigit (pad6 i) = true /\ undec (pad6 i) = i.
Proof.
  intros L. unfold pad6, MAXTRY in *. assert (U : length (udec i) <= 6) by (apply udec_length; [|lia]; change (10 ^ N.of_nat 6)%N with 1000000%N; lia).
  split; [rewrite app_length, repeat_length; lia|]. split.
  - rewrite forallb_app, udec_digits. rewrite andb_true_r. generalize (6 - length (udec i)). induction n; [reflexivity|exact IHn].
  - unfold undec. rewrite fold_left_app. replace (fold_left (fun a c => (10 * a + digit_val c)%N) (repeat "0"%char (6 - length (udec i))) 0%N) with 0%N; [apply udec_undec|].
    generalize (6 - length (udec i)). induction n; [reflexivity|exact IHn].
Qed.
Lemma mprint_at p old new r : is_cstr p -> length old = length new -> length new = 6 -> is_cstr new ->
  msnprintf (map Some (p ++ old) ++ Some NUL :: r) (length p) 7 new = Ok (map Some (p ++ new) ++ Some NUL :: r).
Proof.
  intros C L L6 CN. unfold msnprintf. rewrite firstn_all2 by lia. unfold acopy. rewrite length_block.
  rewrite app_length, map_length, app_length. cbn [length].
  replace ((length p + S (length new) <=? length p + length old + S (length r)) && (0 + S (length new) <=? S (length new))) with true.
  2:{ symmetry. apply andb_true_intro. split; apply Nat.leb_le; lia. }
  f_equal. rewrite !map_app, <- !app_assoc. rewrite firstn_app_le by (rewrite map_length; lia).
  rewrite <- (map_length Some p) at 1. rewrite firstn_all. f_equal.
  rewrite skipn_O. rewrite block_eq. rewrite firstn_all2 by (rewrite app_length, map_length; cbn; lia). rewrite <- app_assoc. f_equal. cbn [app]. f_equal.
  rewrite skipn_app_ge by (rewrite map_length; lia). rewrite map_length. replace (length p + S (length new) - length p) with (S (length new)) by lia.
  rewrite skipn_app_ge by (rewrite map_length; lia). rewrite map_length. replace (S (length new) - length old) with 1 by lia. reflexivity.
Qed.
Lemma digits6_cstr i : (i <= MAXTRY)%N -> is_cstr (pad6 i).
Proof. intros L. apply digits_cstr. apply pad6_spec, L. Qed.

Section Mkdtemp.
  Variable mkdir : N -> list byte -> made.
  Variable p : list byte.
  Hypothesis Cp : is_cstr p.
  Lemma mkdtemp_loop_spec r fds fuel : forall i old, (i <= MAXTRY)%N -> N.to_nat (MAXTRY - i) + 1 < fuel -> length old = 6 ->
    (forall j, (j < i)%N -> mkdir j (p ++ pad6 j) = Exists) ->
    exists k ok ex fds', mkdtemp_loop mkdir fuel i (length p) (map Some (p ++ old) ++ Some NUL :: r) fds = Ok (ok, ex, map Some (p ++ pad6 k) ++ Some NUL :: r, fds') /\
      (k <= MAXTRY)%N /\ (forall j, (j < k)%N -> mkdir j (p ++ pad6 j) = Exists) /\
      match mkdir k (p ++ pad6 k) with
      | Created => ok = true /\ fds' = filter (fun x => negb (x =? 0)) fds
      | Failed => ok = false /\ ex = false /\ fds' = fds
      | Exists => k = MAXTRY /\ ok = false /\ ex = true /\ fds' = fds
      end.
  Proof.
    induction fuel as [|fuel IH]; intros i old LI FU L6 EX; [lia|]. cbn [mkdtemp_loop].
    destruct (N.leb_spec i MAXTRY) as [_|]; [|lia]. destruct (pad6_spec LI) as [P6 _].
    rewrite mprint_at; [|exact Cp|congruence|exact P6|apply digits6_cstr, LI]. cbn [bind].
    assert (CS : is_cstr (p ++ pad6 i)). { intros I. apply in_app_iff in I as [I|I]; [exact (Cp I)|exact (digits6_cstr LI I)]. }
    replace (mstr (map Some (p ++ pad6 i) ++ Some NUL :: r)) with (Ok (p ++ pad6 i)) by (symmetry; apply mstr_holds; split; [exact CS|eexists; reflexivity]).
    cbn [bind]. destruct (mkdir i (p ++ pad6 i)) eqn:M.
    - exists i. do 3 eexists. split; [reflexivity|]. rewrite M. auto.
    - destruct (N.eq_dec i MAXTRY) as [->|NE].
      + destruct fuel as [|fuel]; [lia|]. cbn [mkdtemp_loop]. destruct (N.leb_spec (MAXTRY + 1) MAXTRY) as [|_]; [lia|].
        exists MAXTRY. do 3 eexists. split; [reflexivity|]. rewrite M. split; [exact LI|]. split; [exact EX|]. split; [reflexivity|]. auto.
      + destruct (IH (i + 1)%N (pad6 i)) as [k [ok [ex [fds' [E H]]]]]; [lia|lia|exact P6| |].
        * intros j J. destruct (N.eq_dec j i) as [->|]; [exact M|]. apply EX. lia.
        * exists k, ok, ex, fds'. split; [exact E|exact H].
    - exists i. do 3 eexists. split; [reflexivity|]. rewrite M. auto.
  Qed.
  (** The name is the template with the six X replaced by the first number whose name is not taken; nothing else is written. *)
  Theorem C120_mkdtemp m fds : p <> [] -> holds m (p ++ lit "XXXXXX") ->
    exists k ok ex m' fds', mkdtemp mkdir m fds = Ok (ok, ex, m', fds') /\
      (k <= MAXTRY)%N /\ holds m' (p ++ pad6 k) /\ same_from (length p + 6) m m' /\ (forall j, (j < k)%N -> mkdir j (p ++ pad6 j) = Exists) /\
      match mkdir k (p ++ pad6 k) with
      | Created => ok = true
      | Failed => ok = false /\ ex = false /\ fds' = fds
      | Exists => k = MAXTRY /\ ok = false /\ ex = true /\ fds' = fds
      end.
  Proof.
    intros NE H. pose proof H as [C [r ->]]. unfold mkdtemp.
    rewrite (proj2 (mstr_holds _ _) H). cbn [bind].
    destruct (strrstr_spec (lit "XXXXXX") C) as [o [E O]]. rewrite E. cbn [bind].
    assert (OC : occurs_at (lit "XXXXXX") (p ++ lit "XXXXXX") (length p)) by (exists p, []; rewrite app_nil_r; auto).
    assert (LP : 0 < length p) by (destruct p; [congruence|cbn; lia]).
    destruct o as [k|]; [|exfalso; exact (O _ LP OC)]. destruct O as [_ [O1 O2]]. pose proof (O2 _ OC) as LE.
    assert (k = length p). { destruct O1 as [a [b [E1 <-]]]. apply (f_equal (@length _)) in E1. rewrite !app_length in E1. cbn in E1. lia. } subst k.
    rewrite skipn_app_ge, Nat.sub_diag by lia. cbn [skipn]. rewrite bytes_eqb_refl.
    destruct (@mkdtemp_loop_spec r fds (S (S (N.to_nat MAXTRY))) 0%N (lit "XXXXXX")) as [k [ok [ex [fds' [E2 [L2 [A M]]]]]]]; [lia|rewrite N.sub_0_r; lia|reflexivity|lia|].
    exists k, ok, ex. do 2 eexists. split; [exact E2|]. split; [exact L2|]. split; [|split; [|split]].
    - split; [|eexists; reflexivity]. intros I. apply in_app_iff in I as [I|I]; [exact (Cp I)|exact (digits6_cstr L2 I)].
    - destruct (pad6_spec L2) as [P6 _]. split; [rewrite !app_length, !map_length, !app_length, P6; reflexivity|].
      rewrite !skipn_app_ge by (rewrite map_length, app_length, ?P6; cbn; lia). rewrite !map_length, !app_length, P6. reflexivity.
    - exact A.
    - destruct (mkdir k (p ++ pad6 k)); tauto.
  Qed.
End Mkdtemp.
(** any other template is refused and nothing changes *)
Theorem C120_mkdtemp_refused mkdir m t fds : holds m t -> (forall p, t <> p ++ lit "XXXXXX") -> mkdtemp mkdir m fds = Ok (false, false, m, fds).
Proof.
  intros H N. unfold mkdtemp. rewrite (proj2 (mstr_holds _ _) H). cbn [bind]. destruct H as [C _].
  destruct (strrstr_spec (lit "XXXXXX") C) as [o [E _]]. rewrite E. cbn [bind]. destruct o as [k|]; [|reflexivity].
  destruct (bytes_eqb (skipn k t) (lit "XXXXXX")) eqn:B; [|reflexivity]. exfalso. apply bytes_eqb_eq in B. apply (N (firstn k t)). rewrite <- B. symmetry. apply firstn_skipn.
Qed.
(** the names tried are different *)
Theorem C120_names i j : (i <= MAXTRY)%N -> (j <= MAXTRY)%N -> pad6 i = pad6 j -> i = j.
Proof. intros I J E. destruct (pad6_spec I) as [_ [_ <-]], (pad6_spec J) as [_ [_ <-]]. rewrite E. reflexivity. Qed.
(** the template XXXXXX is refused (strrstr overlooks the start), *)
Theorem C120_bare_template_refuted mkdir fds : mkdtemp mkdir (block (lit "XXXXXX")) fds = Ok (false, false, block (lit "XXXXXX"), fds).
Proof. reflexivity. Qed.
(** and a call that succeeds closes standard input, since mkdir returns 0 *)
Theorem C120_stdin_refuted mkdir m fds ex m' fds' : mkdtemp mkdir m fds = Ok (true, ex, m', fds') -> ~ In 0 fds'.
Proof.
  unfold mkdtemp. destruct (mstr m) as [t| | |]; try discriminate. cbn [bind]. destruct (strrstr t (lit "XXXXXX")) as [[k|]| | |]; try discriminate. cbn [bind].
  destruct (bytes_eqb _ _); [|discriminate]. generalize (S (S (N.to_nat MAXTRY))) as fuel. generalize 0%N as i. intros i fuel. revert i m.
  induction fuel as [|fuel IH]; intros i m; cbn [mkdtemp_loop]; [discriminate|]. destruct (i <=? MAXTRY)%N; [|discriminate].
  destruct (msnprintf m k 7 (pad6 i)) as [m1| | |]; try discriminate. cbn [bind]. destruct (mstr m1) as [path| | |]; try discriminate. cbn [bind].
  destruct (mkdir i path); [|apply IH|discriminate]. intros E. injection E as _ _ <-. intros I. apply filter_In in I as [_ I]. discriminate.
Qed.
Example C120_nonvacuous : mkdtemp (fun i _ => if (i <? 3)%N then Exists else Created) (block (lit "/tmp/aXXXXXX")) [0; 1; 2] = Ok (true, false, block (lit "/tmp/a000003"), [1; 2]) /\
  unsetenv (Some (lit "AB")) (map Some [lit "ABC=1"; lit "AB=2"; lit "A=3"] ++ [None]) = Ok (true, map Some [lit "ABC=1"; lit "A=3"] ++ [None; None]).
Proof. split; vm_compute; reflexivity. Qed.
Print Assumptions C120_unsetenv.
Print Assumptions C120_unsetenv_refused.
Print Assumptions C120_environment.
Print Assumptions C120_duplicates_refuted.
Print Assumptions C120_mkdtemp.
Print Assumptions C120_mkdtemp_refused.
Print Assumptions C120_names.
Print Assumptions C120_bare_template_refuted.
Print Assumptions C120_stdin_refuted.

(** ** C121: closefrom *)
Lemma filter_filter A (f g : A -> bool) l : filter f (filter g l) = filter (fun x => g x && f x) l.
Proof. induction l as [|x l IH]; [reflexivity|]. cbn. destruct (g x); cbn; [destruct (f x); rewrite IH; reflexivity|exact IH]. Qed.
(** the text the kernel gives a descriptor *)
Definition fd_name (n : Z) : list byte := udec (Z.to_N n).
Lemma scan_fd other n : (0 <= n)%Z -> scan_int other (fd_name n) = Some n.
Proof.
  intros N. unfold scan_int, fd_name. destruct (udec_spec (Z.to_N n)) as [U [F [NE Z]]]. destruct (udec (Z.to_N n)) as [|c r] eqn:E; [congruence|].
  rewrite F. cbn [andb]. replace (negb (beq c "0"%char) || match r with [] => true | _ => false end) with true.
  - rewrite U. f_equal. lia.
  - symmetry. destruct (beq c "0"%char) eqn:B; [|reflexivity]. apply beq_true in B. subst c. cbn [negb orb].
    destruct r as [|x r]; [reflexivity|]. exfalso. discriminate (Z eq_refl).
Qed.
Lemma fd_name_dots n : bytes_eqb (fd_name n) (lit ".") || bytes_eqb (fd_name n) (lit "..") = false.
Proof.
  unfold fd_name. pose proof (udec_digits (Z.to_N n)) as D. destruct (bytes_eqb (udec (Z.to_N n)) (lit ".")) eqn:A; [apply bytes_eqb_eq in A; rewrite A in D; discriminate|].
  destruct (bytes_eqb (udec (Z.to_N n)) (lit "..")) eqn:B; [apply bytes_eqb_eq in B; rewrite B in D; discriminate|]. reflexivity.
Qed.
(** what /proc lists: descriptors, and the two directories *)
Definition listed (e : list byte) : Prop := e = lit "." \/ e = lit ".." \/ exists n, (0 <= n)%Z /\ e = fd_name n.
Lemma close_entries_spec other fd iter entries : Forall listed entries -> forall fds,
  exists r, close_entries other fd iter entries fds = (true, r) /\ forall x, In x r <-> In x fds /\ x <> iter /\ ((x < fd)%Z \/ ~ exists n, In (fd_name n) entries /\ (0 <= n)%Z /\ n = x).
Proof.
  induction 1 as [|e entries L F IH]; intros fds; cbn [close_entries].
  - eexists. split; [reflexivity|]. intros x. unfold close. rewrite filter_In. split.
    + intros [I N]. apply negb_true_iff in N. apply Z.eqb_neq in N. split; [exact I|]. split; [exact N|]. right. intros [n [[] _]].
    + intros [I [N _]]. split; [exact I|]. apply negb_true_iff, Z.eqb_neq, N.
  - assert (DOT : forall fds r, (e = lit "." \/ e = lit "..") -> (forall x, In x r <-> In x fds /\ x <> iter /\ ((x < fd)%Z \/ ~ exists n, In (fd_name n) entries /\ (0 <= n)%Z /\ n = x)) ->
      forall x, In x r <-> In x fds /\ x <> iter /\ ((x < fd)%Z \/ ~ exists n, In (fd_name n) (e :: entries) /\ (0 <= n)%Z /\ n = x)).
    { intros fds0 r D H x. rewrite H. assert (EQ : (exists n, In (fd_name n) entries /\ (0 <= n)%Z /\ n = x) <-> exists n, In (fd_name n) (e :: entries) /\ (0 <= n)%Z /\ n = x).
      { split; intros [n [I K]]; exists n; (split; [|exact K]); [right; exact I|]. destruct I as [I|I]; [|exact I]. exfalso.
        pose proof (fd_name_dots n) as FD. rewrite <- I in FD. destruct D as [-> | ->]; discriminate. }
      rewrite EQ. reflexivity. }
    destruct L as [->|[->|[n [N ->]]]].
    + cbn [bytes_eqb]. rewrite bytes_eqb_refl. cbn [orb]. destruct (IH fds) as [r [E H]]. exists r. split; [exact E|]. apply DOT; auto.
    + rewrite (bytes_eqb_refl (lit "..")), orb_true_r. destruct (IH fds) as [r [E H]]. exists r. split; [exact E|]. apply DOT; auto.
    + clear DOT. rewrite fd_name_dots, scan_fd by exact N.
      destruct (IH (if negb (n =? iter)%Z && (fd <=? n)%Z then close fds n else fds)) as [r [E H]]. exists r. split; [exact E|].
      intros x. rewrite H. clear H E IH.
      assert (IN : In x (if negb (n =? iter)%Z && (fd <=? n)%Z then close fds n else fds) <-> In x fds /\ ~ (n <> iter /\ (fd <= n)%Z /\ x = n)).
      { destruct (Z.eqb_spec n iter), (Z.leb_spec fd n); cbn [negb andb]; unfold close; rewrite ?filter_In, ?negb_true_iff, ?Z.eqb_neq; intuition lia. }
      rewrite IN. assert (EX : (exists k, In (fd_name k) (fd_name n :: entries) /\ (0 <= k)%Z /\ k = x) <-> x = n \/ exists k, In (fd_name k) entries /\ (0 <= k)%Z /\ k = x).
      { split.
        - intros [k [[I|I] [P K]]]; [left|right; exists k; auto]. unfold fd_name in I. apply udec_inj in I. lia.
        - intros [->|[k [I K]]]; [exists n; split; [left; reflexivity|split; [exact N|reflexivity]]|exists k; split; [right; exact I|exact K]]. }
      rewrite EX. destruct (Z.eq_dec x n) as [->|D]; [|intuition lia]. intuition lia.
Qed.
(** With /proc: what was open below fd stays open, and nothing else, not even the directory that was read; whatever the order of the
    entries, and whether or not the descriptors that are closed meanwhile are still listed. *)
Theorem C121_proc other iter entries max fd fds : Forall listed entries -> (forall n, In n fds -> (0 <= n)%Z) -> ~ In iter fds ->
  (forall n, In n fds -> In (fd_name n) entries) ->
  exists r, closefrom other (Some (iter, entries)) max fd fds = (true, r) /\ forall x, In x r <-> In x fds /\ (x < fd)%Z.
Proof.
  intros L P NI ALL. cbn [closefrom]. destruct (close_entries_spec other fd iter L (iter :: fds)) as [r [E H]]. exists r. split; [exact E|].
  intros x. rewrite H. split.
  - intros [[->|I] [N [LT|NE]]]; try congruence; [auto|]. exfalso. apply NE. exists x. auto.
  - intros [I LT]. split; [right; exact I|]. split; [intros ->; contradiction|]. left. exact LT.
Qed.
(** Whatever /proc lists: the directory is closed again, nothing is opened, and nothing below fd is closed. *)
Theorem C121_any_listing other iter entries max fd fds : ~ In iter fds -> let r := snd (closefrom other (Some (iter, entries)) max fd fds) in
  ~ In iter r /\ (forall x, In x r -> In x fds) /\ (forall x, In x fds -> (x < fd)%Z -> In x r).
Proof.
  intros NI r. assert (G : forall es l, ~ In iter (snd (close_entries other fd iter es l)) /\ (forall x, In x (snd (close_entries other fd iter es l)) -> In x l) /\
    (forall x, In x l -> (x < fd)%Z -> x <> iter -> In x (snd (close_entries other fd iter es l)))).
  { assert (CL : forall l, ~ In iter (close l iter) /\ (forall x, In x (close l iter) -> In x l) /\ (forall x, In x l -> (x < fd)%Z -> x <> iter -> In x (close l iter))).
    { intros l. unfold close. repeat split.
      - rewrite filter_In, Z.eqb_refl. cbn. intuition discriminate.
      - intros x I. apply filter_In in I. tauto.
      - intros x I _ N. apply filter_In. rewrite negb_true_iff, Z.eqb_neq. auto. }
    induction es as [|e es IH]; intros l; cbn [close_entries]; [apply CL|]. destruct (_ || _); [apply IH|]. destruct (scan_int other e) as [c|]; [|apply CL].
    destruct (_ && _) eqn:B; [|apply IH]. apply andb_prop in B as [_ B]. apply Z.leb_le in B. specialize (IH (close l c)). destruct IH as (I1 & I2 & I3). split; [exact I1|]. split.
    - intros x I. apply I2 in I. unfold close in I. apply filter_In in I. tauto.
    - intros x I L N. apply I3; auto. unfold close. apply filter_In. rewrite negb_true_iff, Z.eqb_neq. split; [exact I|lia]. }
  destruct (G entries (iter :: fds)) as (G1 & G2 & G3). subst r. cbn [closefrom]. split; [exact G1|]. split.
  - intros x I. pose proof (G2 x I) as [<-|J]; [contradiction|exact J].
  - intros x I L. apply G3; [right; exact I|exact L|]. intros ->. contradiction.
Qed.
(** an entry that is no number: -1 *)
Theorem C121_bad_entry other iter a e b max fd fds : Forall listed a -> e <> lit "." -> e <> lit ".." -> scan_int other e = None ->
  fst (closefrom other (Some (iter, a ++ e :: b)) max fd fds) = false.
Proof.
  intros L N1 N2 S. cbn [closefrom]. generalize (iter :: fds) as l. induction L as [|x a X L IH]; intros l; cbn [app close_entries].
  - destruct (bytes_eqb e (lit ".")) eqn:A; [apply bytes_eqb_eq in A; contradiction|]. destruct (bytes_eqb e (lit "..")) eqn:B; [apply bytes_eqb_eq in B; contradiction|].
    cbn [orb]. rewrite S. reflexivity.
  - destruct X as [->|[->|[n [N ->]]]]; [apply IH|apply IH|]. rewrite fd_name_dots, scan_fd by exact N. apply IH.
Qed.
Lemma close_range_spec n : forall c fds x, In x (close_range n c fds) <-> In x fds /\ ~ (c <= x < c + Z.of_nat n)%Z.
Proof.
  induction n as [|n IH]; intros c fds x; cbn [close_range]; [intuition lia|]. rewrite IH. unfold close. rewrite filter_In, negb_true_iff, Z.eqb_neq. intuition lia.
Qed.
(** Without /proc: those from fd to the limit are closed. *)
Theorem C121_without_proc other max fd fds x : In x (snd (closefrom other None max fd fds)) <-> In x fds /\ ~ (fd <= x < max)%Z.
Proof. cbn [closefrom snd]. rewrite close_range_spec. intuition lia. Qed.
(** a descriptor above a limit that was lowered stays open *)
Theorem C121_limit_refuted other : closefrom other None 1024 3 [0; 5; 2000]%Z = (true, [0; 2000]%Z).
Proof. vm_compute. reflexivity. Qed.
Example C121_nonvacuous : closefrom (fun _ => None) (Some (4%Z, [lit "."; lit ".."; lit "0"; lit "1"; lit "10"; lit "3"; lit "4"])) 1024 3 [0; 1; 10; 3]%Z = (true, [0; 1]%Z).
Proof. reflexivity. Qed.
Print Assumptions C121_proc.
Print Assumptions C121_any_listing.
Print Assumptions C121_bad_entry.
Print Assumptions C121_without_proc.
Print Assumptions C121_limit_refuted.
