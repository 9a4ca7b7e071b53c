(** C37, C40, C65: paths and versions. *)
From Verif Require Import Prelude PreludeFacts Str StrFacts Libc LibcFacts MemSpec CmpModel EditModel EditProofs NumSpec NumProofs PathModel PropsCmp PropsEdit.
Set Implicit Arguments.

(** ** C37 *)
Lemma strrchr_from_spec c s : forall i f,
  match strrchr_from s c i f with
  | Some k => (exists a b, s = a ++ c :: b /\ i + length a = k /\ ~ In c b) \/ (f = Some k /\ ~ In c s)
  | None => f = None /\ ~ In c s
  end.
Proof.
  induction s as [|x s IH]; intros i f; cbn [strrchr_from].
  - destruct f; [right|]; auto.
  - specialize (IH (S i) (if beq x c then Some i else f)).
    destruct (strrchr_from s c (S i) _) as [k|].
    + destruct IH as [[a [b [-> [L NI]]]]|[E NI]].
      * left. exists (x :: a), b. split; [reflexivity|]. split; [cbn [length]; lia|exact NI].
      * destruct (beq_spec x c) as [->|NE].
        -- injection E as <-. left. exists [], s. cbn. auto.
        -- right. split; [exact E|]. intros [H|H]; auto.
    + destruct IH as [E NI]. destruct (beq_spec x c) as [->|NE]; [discriminate E|]. split; [exact E|]. intros [H|H]; auto.
Qed.

(** Path_Basename is the suffix behind the last separator; NULL if that is empty *)
Theorem C37_basename dir leaf : ~ In "/"%char leaf -> is_cstr leaf ->
  Path_Basename leaf = Ok (match leaf with [] => None | _ => Some 0 end) /\
  Path_Basename (dir ++ "/"%char :: leaf) = Ok (match leaf with [] => None | _ => Some (length dir + 1) end).
Proof.
  intros NI C. split; unfold Path_Basename, strrchr.
  - pose proof (strrchr_from_spec SEP leaf 0 None) as H. destruct (strrchr_from leaf SEP 0 None) as [k|].
    + destruct H as [[a [b [-> _]]]|[E _]]; [exfalso; apply NI; apply in_app_iff; right; left; reflexivity|discriminate E].
    + destruct leaf as [|c r]; [reflexivity|]. cbn [chr bind app nth_error]. unfold chr. cbn [app nth_error bind].
      replace (beq c NUL) with false; [reflexivity|]. symmetry. apply beq_false. intros ->. apply C. left. reflexivity.
  - pose proof (strrchr_from_spec SEP (dir ++ SEP :: leaf) 0 None) as H. change "/"%char with SEP in *.
    destruct (strrchr_from _ SEP 0 None) as [k|].
    + destruct H as [[a [b [E [L NB]]]]|[E _]]; [|discriminate E].
      assert (K : a = dir /\ b = leaf).
      { clear L. revert dir E. induction a as [|x a IH]; intros [|y dir] E; cbn in E.
        - injection E as <-. auto.
        - injection E as -> E. exfalso. apply NB. rewrite <- E. apply in_app_iff. right. left. reflexivity.
        - injection E as <- E. exfalso. apply NI. rewrite E. apply in_app_iff. right. left. reflexivity.
        - injection E as <- E. destruct (IH dir E) as [-> ->]. auto. }
      destruct K as [-> ->]. subst k. cbn [Nat.add].
      replace (dir ++ SEP :: leaf) with ((dir ++ [SEP]) ++ leaf) by (rewrite <- app_assoc; reflexivity).
      replace (length dir + 1) with (length (dir ++ [SEP])) by (rewrite app_length; reflexivity).
      destruct leaf as [|c r].
      * rewrite chr_app_end. reflexivity.
      * rewrite chr_app_mid. cbn [bind]. replace (beq c NUL) with false; [reflexivity|]. symmetry. apply beq_false. intros ->. apply C. left. reflexivity.
    + exfalso. destruct H as [_ H]. apply H. apply in_app_iff. right. left. reflexivity.
Qed.

(** Path_JoinAlloc: one separator is put between the parts unless [dir] ends with one *)
Theorem C37_join dir leaf : is_cstr dir -> is_cstr leaf ->
  (forall d, dir = d ++ ["/"%char] -> Path_JoinAlloc dir leaf = Ok (Some (block (d ++ "/"%char :: leaf)))) /\
  ((forall d, dir <> d ++ ["/"%char]) -> Path_JoinAlloc dir leaf = Ok (Some (block (dir ++ "/"%char :: leaf)))).
Proof.
  intros Cd Cl. change "/"%char with SEP. unfold Path_JoinAlloc. destruct (C58_StringEndsWith dir [SEP]) as [b [E H]]. rewrite E. cbn [bind]. split.
  - intros d Ed. replace b with true by (symmetry; apply H; exists d; exact Ed).
    rewrite C59_StringConcatenate; [|cbn; lia|cbn [firstn]; auto]. cbn [firstn map concat]. rewrite app_nil_r, Ed, <- app_assoc. reflexivity.
  - intros N. destruct b. { exfalso. destruct (proj1 H eq_refl) as [d K]. apply (N d K). }
    rewrite C59_StringConcatenate; [|cbn; lia|cbn [firstn]; repeat constructor; auto].
    + cbn [firstn map concat]. rewrite app_nil_r. reflexivity.
    + intros [K|[]]. discriminate K.
Qed.

(** the base name of a joined path is the leaf *)
Theorem C37_basename_of_join dir leaf : is_cstr dir -> is_cstr leaf -> leaf <> [] -> ~ In "/"%char leaf ->
  exists p, Path_JoinAlloc dir leaf = Ok (Some (block p)) /\
    exists i, Path_Basename p = Ok (Some i) /\ skipn i p = leaf /\ exists d, p = d ++ "/"%char :: leaf.
Proof.
  intros Cd Cl NE NI.
  assert (X : exists d, Path_JoinAlloc dir leaf = Ok (Some (block (d ++ "/"%char :: leaf)))).
  { destruct (C37_join Cd Cl) as [J1 J2]. destruct (C58_StringEndsWith dir ["/"%char]) as [[] [_ H]].
    - destruct (proj1 H eq_refl) as [d E]. exists d. apply J1. exact E.
    - exists dir. apply J2. intros d E. assert (false = true) by (apply H; exists d; exact E). discriminate. }
  destruct X as [d J]. eexists. split; [exact J|]. exists (length d + 1). split.
  - rewrite (proj2 (C37_basename d NI Cl)). destruct leaf; [congruence|reflexivity].
  - split; [|exists d; reflexivity]. replace (d ++ "/"%char :: leaf) with ((d ++ ["/"%char]) ++ leaf) by (rewrite <- app_assoc; reflexivity).
    rewrite skipn_app_ge by (rewrite app_length; cbn; lia). rewrite app_length. cbn [length]. rewrite Nat.sub_diag. reflexivity.
Qed.
Example C37_ex : Path_JoinAlloc (lit "/var/") (lit "log") = Ok (Some (block (lit "/var/log"))) /\
  Path_JoinAlloc (lit "/var") (lit "log") = Ok (Some (block (lit "/var/log"))) /\ Path_Basename (lit "/var/log") = Ok (Some 5).
Proof. vm_compute. auto. Qed.

(** there is more than one separator between the parts if the leaf starts with one, and
    joining to the empty directory makes a relative name absolute *)
Theorem C37_one_separator_refuted :
  Path_JoinAlloc (lit "a/") (lit "/b") = Ok (Some (block (lit "a//b"))) /\
  Path_JoinAlloc (lit "a") (lit "/b") = Ok (Some (block (lit "a//b"))) /\
  Path_JoinAlloc [] (lit "b") = Ok (Some (block (lit "/b"))).
Proof. vm_compute. auto. Qed.

(** Path_GetQuoted *)
Definition plain (c : byte) : Prop :=
  (97 <= code c <= 122)%N \/ (65 <= code c <= 90)%N \/ (48 <= code c <= 57)%N \/ In c (lit "_-/").
Definition is_quoted (p : list byte) : Prop := p = [ascii_of_N 34] \/ exists q, p = ascii_of_N 34 :: q ++ [ascii_of_N 34].

Lemma safe_char_spec c : safe_char c = true <-> plain c.
Proof.
  unfold safe_char, plain. rewrite !orb_true_iff, !andb_true_iff, !N.leb_le.
  change (code "a") with 97%N. change (code "z") with 122%N. change (code "A") with 65%N. change (code "Z") with 90%N.
  change (code "0") with 48%N. change (code "9") with 57%N. cbn [lit In]. rewrite !beq_true. unfold SEP. cbn. intuition (subst; auto 10).
Qed.
Lemma needs_quoting_spec s : needs_quoting s = false <-> Forall plain s.
Proof.
  induction s as [|c s IH]; cbn [needs_quoting]; [split; auto|].
  destruct (safe_char c) eqn:E.
  - apply safe_char_spec in E. rewrite IH. split; [auto|]. intros H. inversion H. auto.
  - split; [discriminate|]. intros H. inversion H as [|? ? P _]; subst. apply safe_char_spec in P. congruence.
Qed.

Theorem C37_quoted path : is_cstr path ->
  (is_quoted path \/ Forall plain path -> Path_GetQuoted path = Ok (Some (block path))) /\
  (~ is_quoted path -> ~ Forall plain path ->
     Path_GetQuoted path = Ok (Some (block (ascii_of_N 34 :: path ++ [ascii_of_N 34])))).
Proof.
  intros C. unfold Path_GetQuoted.
  assert (Q : exists c, chr path 0 = Ok c /\ exists b : bool,
    (if beq c DQUOTE then let* d := chr path (length path - 1) in Ok (beq d DQUOTE) else Ok false) = Ok b /\ (b = true <-> is_quoted path)).
  { destruct path as [|c r].
    - exists NUL. split; [reflexivity|]. exists false. split; [reflexivity|]. split; [discriminate|].
      intros [K|[q K]]; discriminate K.
    - exists c. split; [reflexivity|]. destruct (beq_spec c DQUOTE) as [->|NE].
      + destruct (@exists_last _ (DQUOTE :: r)) as [u [y E]]; [discriminate|]. rewrite E.
        rewrite chr_lt by (rewrite app_length; cbn [length]; lia). cbn [bind].
        replace (length (u ++ [y]) - 1) with (length u) by (rewrite app_length; cbn [length]; lia).
        rewrite app_nth2, Nat.sub_diag by lia. cbn [nth]. exists (beq y DQUOTE). split; [reflexivity|]. rewrite beq_true.
        change (ascii_of_N 34) with DQUOTE in *. split.
        * intros ->. destruct u as [|x u]; cbn in E; [left; reflexivity|]. injection E as <- E. right. exists u. reflexivity.
        * intros [K|[q K]].
          -- change [ascii_of_N 34] with ([] ++ [DQUOTE]) in K. apply app_inj_tail in K as [_ K]. exact K.
          -- change (ascii_of_N 34 :: q ++ [ascii_of_N 34]) with ((DQUOTE :: q) ++ [DQUOTE]) in K. apply app_inj_tail in K as [_ K]. exact K.
      + exists false. split; [reflexivity|]. split; [discriminate|]. intros [K|[q K]]; injection K as K _; contradiction. }
  destruct Q as [c [E1 [b [E2 H]]]]. rewrite E1. cbn [bind]. rewrite E2. cbn [bind]. split.
  - intros O. destruct b; [reflexivity|]. destruct O as [O|O]; [apply H in O; discriminate|]. apply needs_quoting_spec in O. rewrite O. reflexivity.
  - intros NQ NP. destruct b; [exfalso; apply NQ, H; reflexivity|]. destruct (needs_quoting path) eqn:E.
    + rewrite C59_StringConcatenate; [|cbn; lia|cbn [firstn]; repeat constructor; auto].
      * cbn [firstn map concat]. rewrite app_nil_r. reflexivity.
      * intros [K|[]]. discriminate K.
      * intros [K|[]]. discriminate K.
    + exfalso. apply NP, needs_quoting_spec, E.
Qed.

(** quoting what is quoted changes nothing *)
Theorem C37_quoted_idempotent path q : is_cstr path -> Path_GetQuoted path = Ok (Some (block q)) ->
  Path_GetQuoted q = Ok (Some (block q)).
Proof.
  intros C E. destruct (C37_quoted C) as [H1 H2].
  assert (D : is_quoted path \/ ~ is_quoted path).
  { destruct path as [|c r]; [right; intros [K|[q' K]]; discriminate K|].
    destruct (beq_spec c DQUOTE) as [->|NE]; [|right; intros [K|[q' K]]; injection K as K _; contradiction].
    destruct (@exists_last _ (DQUOTE :: r)) as [u [y Eu]]; [discriminate|].
    destruct (beq_spec y DQUOTE) as [->|NE].
    - left. destruct u as [|x u]; cbn in Eu; [injection Eu as ->; left; reflexivity|injection Eu as <- ->; right; exists u; reflexivity].
    - right. rewrite Eu. intros [K|[q' K]].
      + change [ascii_of_N 34] with ([] ++ [DQUOTE]) in K. apply app_inj_tail in K as [_ K]. contradiction.
      + change (ascii_of_N 34 :: q' ++ [ascii_of_N 34]) with ((DQUOTE :: q') ++ [DQUOTE]) in K. apply app_inj_tail in K as [_ K]. contradiction. }
  assert (D2 : Forall plain path \/ ~ Forall plain path).
  { destruct (needs_quoting path) eqn:K; [right|left; apply needs_quoting_spec, K]. intros F. apply needs_quoting_spec in F. congruence. }
  assert (INJ : forall x y, Ok (Some (block x)) = Ok (Some (block y)) -> x = y).
  { intros x y K. injection K as K. rewrite !block_eq in K. apply app_inj_tail in K as [K _]. revert y K. induction x as [|a x IH]; intros [|b y] K; try discriminate K; [reflexivity|]. injection K as -> K. f_equal. apply IH, K. }
  destruct D as [D|D]; [rewrite (H1 (or_introl D)) in E; apply INJ in E; subst q; auto|].
  destruct D2 as [D2|D2]; [rewrite (H1 (or_intror D2)) in E; apply INJ in E; subst q; auto|].
  rewrite (H2 D D2) in E. apply INJ in E. subst q.
  apply C37_quoted; [|left; right; exists path; reflexivity].
  intros [K|K]; [discriminate K|]. apply in_app_iff in K as [K|[K|[]]]; [exact (C K)|discriminate K].
Qed.

(** a lone quote counts as quoted, and quotes inside the path are not escaped: the text
    between the outer quotes then ends at the inner one *)
Theorem C37_quote_refuted :
  Path_GetQuoted [ascii_of_N 34] = Ok (Some (block [ascii_of_N 34])) /\
  Path_GetQuoted (lit "a" ++ ascii_of_N 34 :: lit "b") = Ok (Some (block (ascii_of_N 34 :: lit "a" ++ ascii_of_N 34 :: lit "b" ++ [ascii_of_N 34]))).
Proof. vm_compute. auto. Qed.

(** ** C65 *)
(** a file name is absolute iff it starts, after any quotes, with the separator *)
Theorem C65_IsAbsoluteFileName f : is_cstr f ->
  exists b, IsAbsoluteFileName f = Ok b /\
    (b = true <-> exists n r, f = repeat (ascii_of_N 34) n ++ "/"%char :: r).
Proof.
  intros C. unfold IsAbsoluteFileName.
  assert (L : forall g u s, f = repeat DQUOTE u ++ s -> length s < g ->
    exists b, absolute_loop g u f = Ok b /\ (b = true <-> exists n r, s = repeat DQUOTE n ++ SEP :: r)).
  { induction g as [|g IH]; intros u s E Lg; [lia|]. cbn [absolute_loop].
    assert (Lu : u = length (repeat DQUOTE u)) by (rewrite repeat_length; reflexivity).
    destruct s as [|c s].
    - pose proof (chr_end (repeat DQUOTE u)) as K. rewrite <- Lu in K. rewrite E, app_nil_r, K. clear K. cbn [bind]. change (beq NUL DQUOTE) with false. cbn iota.
      exists false. split; [reflexivity|]. split; [discriminate|]. intros [[|n] [r K]]; discriminate K.
    - pose proof (chr_app_mid (repeat DQUOTE u) c s) as K. rewrite <- Lu, <- E in K. rewrite K. cbn [bind]. clear K. destruct (beq_spec c DQUOTE) as [->|NE].
      + destruct (IH (S u) s) as [b [Eb Hb]]; [|cbn [length] in Lg; lia|].
        * rewrite E. cbn [repeat]. rewrite (repeat_cons u DQUOTE). rewrite <- app_assoc. reflexivity.
        * exists b. split; [exact Eb|]. rewrite Hb. split; intros [n [r K]].
          -- exists (S n), r. rewrite K. reflexivity.
          -- destruct n as [|n]; [discriminate K|]. injection K as K. exists n, r. exact K.
      + exists (beq c SEP). split; [reflexivity|]. rewrite beq_true. split.
        * intros ->. exists 0, s. reflexivity.
        * intros [[|n] [r K]]; injection K as K _; [exact K|contradiction]. }
  apply (L (S (length f)) 0 f eq_refl). lia.
Qed.
Example C65_abs_ex : IsAbsoluteFileName (ascii_of_N 34 :: lit "/etc") = Ok true /\ IsAbsoluteFileName (lit "etc/x") = Ok false.
Proof. vm_compute. auto. Qed.

(** MapNameForward replaces every backslash and nothing else; it then returns NULL, not
    its argument *)
Theorem C65_MapNameForward m s : holds m s ->
  MapNameForward m = Ok (put m (map (fun c => if beq c "\"%char then "/"%char else c) s), None).
Proof.
  intros [C [r ->]]. unfold MapNameForward.
  set (fwd := fun c => if beq c "\"%char then "/"%char else c).
  assert (L : forall g u t, is_cstr t -> length (filter (beq "\"%char) t) < g ->
    map_forward g (map Some (u ++ t) ++ Some NUL :: r) (length u) = Ok (map Some (u ++ map fwd t) ++ Some NUL :: r, None)).
  { assert (FW : forall a, ~ In "\"%char a -> map fwd a = a).
    { induction a as [|x a IHa]; intros NI; [reflexivity|]. cbn [map]. rewrite IHa by (intros K; apply NI; right; exact K). f_equal.
      unfold fwd. replace (beq x "\"%char) with false; [reflexivity|]. symmetry. apply beq_false. intros ->. apply NI. left. reflexivity. }
    induction g as [|g IH]; intros u t Ct Lg; [lia|]. cbn [map_forward].
    rewrite map_app, <- app_assoc. rewrite skipn_app_ge by (rewrite map_length; lia). rewrite map_length, Nat.sub_diag. cbn [skipn].
    rewrite (proj2 (mstr_holds _ t)) by (split; [exact Ct|exists r; reflexivity]). cbn [bind].
    pose proof (@strchr_cases t "\"%char Ct ltac:(discriminate)) as K. destruct (strchr t "\"%char) as [i|].
    - destruct K as [a [b [-> [Li NI]]]]. subst i.
      assert (E : aset (map Some u ++ map Some (a ++ "\"%char :: b) ++ Some NUL :: r) (length u + length a) SEP =
        Ok (map Some ((u ++ a) ++ SEP :: b) ++ Some NUL :: r)).
      { replace (map Some u ++ map Some (a ++ "\"%char :: b) ++ Some NUL :: r) with (map Some (u ++ a) ++ Some "\"%char :: map Some b ++ Some NUL :: r)
          by (rewrite !map_app, <- !app_assoc; reflexivity).
        replace (length u + length a) with (length (u ++ a)) by (rewrite app_length; reflexivity). rewrite aset_rep_end.
        f_equal. rewrite !map_app, <- !app_assoc. reflexivity. }
      rewrite E. cbn [bind].
      replace (length u + length a) with (length (u ++ a)) by (rewrite app_length; reflexivity).
      apply is_cstr_app in Ct as [Ca Cb].
      rewrite IH.
      + f_equal. f_equal. f_equal. rewrite <- app_assoc. rewrite (map_app fwd), (FW a NI). reflexivity.
      + intros [K|K]; [discriminate K|]. apply Cb. right. exact K.
      + rewrite filter_app, app_length in Lg. cbn [filter] in *. change (beq "\" "\") with true in Lg. change (beq "\" SEP) with false. cbn [length] in Lg. lia.
    - rewrite (FW t K). f_equal. f_equal. rewrite map_app, <- app_assoc. reflexivity. }
  pose proof (L (S (length (map Some s ++ Some NUL :: r))) [] s C) as X. cbn [app length] in X. rewrite X.
  - f_equal. f_equal. unfold put. f_equal. f_equal. rewrite map_length, skipn_app_ge by (rewrite map_length; lia).
    rewrite map_length. replace (S (length s) - length s) with 1 by lia. reflexivity.
  - rewrite app_length, map_length. cbn [length]. assert (length (filter (beq "\"%char) s) <= length s) by (clear; induction s as [|x s IH]; cbn [filter]; [auto|]; destruct (beq _ x); cbn [length]; lia). lia.
Qed.
Example C65_fwd_ex : MapNameForward (block (lit "a\b\c")) = Ok (block (lit "a/b/c"), None).
Proof. reflexivity. Qed.

(** the documented counterpart MapName returns its argument; this one never does *)
Theorem C65_MapNameForward_result_refuted :
  exists m s, holds m s /\ exists m', MapNameForward m = Ok (m', None).
Proof.
  exists (block (lit "x")), (lit "x"). split; [|exists (block (lit "x")); reflexivity].
  split; [intros [K|[]]; discriminate K|]. exists []. reflexivity.
Qed.

(** ** C40 *)
Definition in_int (v : Z) : Prop := (- 2 ^ 31 <= v < 2 ^ 31)%Z.
(** the text starts with at most [n] dot separated numerals denoting the list *)
Inductive version : nat -> list byte -> list Z -> Prop :=
| V_none n s : (forall v rest, ~ reads s v rest) -> version (S n) s []
| V_end n s v rest : reads s v rest -> in_int v -> (forall r, rest <> "."%char :: r) -> version (S n) s [v]
| V_full s v rest : reads s v rest -> in_int v -> version 1 s [v]
| V_dot n s v rest l : reads s v ("."%char :: rest) -> in_int v -> version (S n) rest l -> version (S (S n)) s (v :: l).
(** comparison of the components both versions have *)
Fixpoint compare_common (a b : list Z) : VersionComparison :=
  match a, b with
  | x :: a, y :: b => if (x <? y)%Z then VERSION_SMALLER else if (y <? x)%Z then VERSION_GREATER else compare_common a b
  | _, _ => VERSION_EQUAL
  end.

Lemma scan_d_reads s v rest : reads s v rest -> in_int v -> scan_d s = Some (v, rest).
Proof.
  intros R I. unfold scan_d. rewrite (strtol_reads R). unfold in_int in I.
  assert (LONG_MAX = 2 ^ 63 - 1)%Z by reflexivity. assert (LONG_MIN = - 2 ^ 63)%Z by reflexivity.
  replace (v >? LONG_MAX)%Z with false by (symmetry; rewrite Z.gtb_ltb; apply Z.ltb_ge; lia).
  replace (v <? LONG_MIN)%Z with false by (symmetry; apply Z.ltb_ge; lia).
  destruct R as [b [sg [ds [E [_ [ND _]]]]]].
  assert (L : consumed s rest = length (b ++ sg ++ ds)) by (unfold consumed; rewrite E, !app_length; lia).
  assert (LP : 0 < length ds) by (destruct ds; [congruence|cbn; lia]).
  destruct (consumed s rest) as [|k] eqn:EK; [rewrite !app_length in L; lia|]. rewrite L. f_equal. f_equal.
  - unfold to_int. rewrite Z.mod_small; lia.
  - rewrite E. replace (b ++ sg ++ ds ++ rest) with ((b ++ sg ++ ds) ++ rest) by (rewrite <- !app_assoc; reflexivity).
    rewrite skipn_app_ge, Nat.sub_diag by lia. reflexivity.
Qed.
Lemma scan_d_none s : (forall v rest, ~ reads s v rest) -> scan_d s = None.
Proof. intros H. unfold scan_d. rewrite (strtol_none H). reflexivity. Qed.
Lemma scan_dot_none s : (forall r, s <> "."%char :: r) -> scan_dot s = None.
Proof. intros H. destruct s as [|c s]; [reflexivity|]. cbn. destruct (beq_spec c "."%char) as [->|_]; [exfalso; exact (H s eq_refl)|reflexivity]. Qed.

Lemma sscanf_version_spec s l : version 3 s l -> sscanf_version s = l /\ length l <= 3.
Proof.
  assert (V1 : forall s l, version 1 s l -> length l <= 1 /\ match scan_d s with None => [] | Some (c, _) => [c] end = l).
  { intros s0 l0 V. inversion V; subst.
    - rewrite scan_d_none by auto. auto.
    - erewrite scan_d_reads by eauto. auto.
    - erewrite scan_d_reads by eauto. auto. }
  assert (V2 : forall s l, version 2 s l -> length l <= 2 /\ match scan_d s with
      | None => []
      | Some (b, r) => b :: match scan_dot r with None => [] | Some r => match scan_d r with None => [] | Some (c, _) => [c] end end
      end = l).
  { intros s0 l0 V. inversion V as [|? ? ? ? R I E| |? ? ? ? ? R I V']; subst.
    - rewrite scan_d_none by auto. auto.
    - rewrite (scan_d_reads R I). rewrite (scan_dot_none E). auto.
    - rewrite (scan_d_reads R I). cbn [scan_dot]. change (beq "." ".") with true. cbn iota. destruct (V1 _ _ V') as [L ->]. split; [cbn; lia|reflexivity]. }
  intros V. inversion V as [|? ? ? ? R I E| |? ? ? ? ? R I V']; subst; unfold sscanf_version.
  - rewrite scan_d_none by auto. auto.
  - rewrite (scan_d_reads R I). rewrite (scan_dot_none E). split; [reflexivity|cbn; lia].
  - rewrite (scan_d_reads R I). cbn [scan_dot]. change (beq "." ".") with true. cbn iota. destruct (V2 _ _ V') as [L ->]. split; [reflexivity|cbn; lia].
Qed.

(** the result is the lexicographic comparison of the numbers both versions give, or an
    error if one of them does not start with a number *)
Theorem C40_compare a b va vb : version 3 a va -> version 3 b vb ->
  CompareVersion a b = Ok (match va, vb with _ :: _, _ :: _ => compare_common va vb | _, _ => VERSION_ERROR end).
Proof.
  intros Va Vb. apply sscanf_version_spec in Va as [Ea La]. apply sscanf_version_spec in Vb as [Eb Lb].
  unfold CompareVersion. rewrite Ea, Eb.
  destruct va as [|a1 [|a2 [|a3 [|]]]]; cbn [length] in La; try lia; try reflexivity;
  destruct vb as [|b1 [|b2 [|b3 [|]]]]; cbn [length] in Lb; try lia; try reflexivity;
    cbn [length nth compare_common]; cbn [Nat.ltb Nat.leb Nat.eqb orb andb massert];
    destruct (Z.ltb_spec a1 b1), (Z.ltb_spec b1 a1); try lia; try reflexivity;
    destruct (Z.ltb_spec a2 b2), (Z.ltb_spec b2 a2); try lia; try reflexivity;
    destruct (Z.ltb_spec a3 b3), (Z.ltb_spec b3 a3); try lia; reflexivity.
Qed.

Definition opposite (c : VersionComparison) :=
  match c with VERSION_SMALLER => VERSION_GREATER | VERSION_GREATER => VERSION_SMALLER | c => c end.
(** for any two texts whatsoever the comparison returns and is antisymmetric *)
Theorem C40_antisymmetric a b : exists c, CompareVersion a b = Ok c /\ CompareVersion b a = Ok (opposite c).
Proof.
  unfold CompareVersion.
  assert (L : forall s, length (sscanf_version s) <= 3).
  { intros s. unfold sscanf_version. destruct (scan_d s) as [[x1 r1]|]; [|cbn; lia]. destruct (scan_dot r1) as [r2|]; [|cbn; lia]. destruct (scan_d r2) as [[x2 r3]|]; [|cbn; lia].
    destruct (scan_dot r3) as [r4|]; [|cbn; lia]. destruct (scan_d r4) as [[x3 r5]|]; cbn; lia. }
  pose proof (L a) as La. pose proof (L b) as Lb. clear L. revert La Lb. generalize (sscanf_version a) (sscanf_version b). intros va vb La Lb.
  destruct va as [|a1 [|a2 [|a3 [|]]]]; cbn [length] in La; try lia;
  destruct vb as [|b1 [|b2 [|b3 [|]]]]; cbn [length] in Lb; try lia; try (eexists; split; reflexivity);
    cbn [length nth]; cbn [Nat.ltb Nat.leb Nat.eqb orb andb massert];
    destruct (Z.ltb_spec a1 b1), (Z.ltb_spec b1 a1); try lia; try (eexists; split; reflexivity);
    destruct (Z.ltb_spec a2 b2), (Z.ltb_spec b2 a2); try lia; try (eexists; split; reflexivity);
    destruct (Z.ltb_spec a3 b3), (Z.ltb_spec b3 a3); try lia; eexists; split; reflexivity.
Qed.

(** a total order on versions with all three numbers *)
Theorem C40_transitive a b c a1 a2 a3 b1 b2 b3 c1 c2 c3 :
  version 3 a [a1; a2; a3] -> version 3 b [b1; b2; b3] -> version 3 c [c1; c2; c3] ->
  (CompareVersion a b = Ok VERSION_SMALLER -> CompareVersion b c = Ok VERSION_SMALLER -> CompareVersion a c = Ok VERSION_SMALLER) /\
  (CompareVersion a b = Ok VERSION_EQUAL <-> (a1, a2, a3) = (b1, b2, b3)) /\
  (CompareVersion a b = Ok VERSION_SMALLER \/ CompareVersion a b = Ok VERSION_EQUAL \/ CompareVersion a b = Ok VERSION_GREATER).
Proof.
  intros Va Vb Vc. rewrite (C40_compare Va Vb), (C40_compare Vb Vc), (C40_compare Va Vc). cbn [compare_common].
  split; [|split].
  - repeat match goal with |- context [(?x <? ?y)%Z] => destruct (Z.ltb_spec x y) end; intros E1 E2; try discriminate E1; try discriminate E2; try reflexivity; lia.
  - repeat match goal with |- context [(?x <? ?y)%Z] => destruct (Z.ltb_spec x y) end; split; intros E; try discriminate E; try (injection E as -> -> ->; lia);
      f_equal; [f_equal|]; lia.
  - repeat match goal with |- context [(?x <? ?y)%Z] => destruct (Z.ltb_spec x y) end; auto.
Qed.
Example C40_ex : CompareVersion (lit "3.12.4") (lit "3.7.20") = Ok VERSION_GREATER /\ CompareVersion (lit "x") (lit "1") = Ok VERSION_ERROR /\
  version 3 (lit "3.12.4a") [3; 12; 4]%Z.
Proof.
  split; [reflexivity|]. split; [reflexivity|].
  apply V_dot with (rest := lit "12.4a").
  - exists [], [], (lit "3"). split; [reflexivity|]. split; [intros c []|]. split; [discriminate|]. split; [intros c [<-|[]]; reflexivity|]. split; [reflexivity|]. left. split; [auto|reflexivity].
  - split; vm_compute; congruence.
  - apply V_dot with (rest := lit "4a").
    + exists [], [], (lit "12"). split; [reflexivity|]. split; [intros c []|]. split; [discriminate|]. split; [intros c [<-|[<-|[]]]; reflexivity|]. split; [reflexivity|]. left. split; [auto|reflexivity].
    + split; vm_compute; congruence.
    + apply V_full with (rest := lit "a").
      * exists [], [], (lit "4"). split; [reflexivity|]. split; [intros c []|]. split; [discriminate|]. split; [intros c [<-|[]]; reflexivity|]. split; [reflexivity|]. left. split; [auto|reflexivity].
      * split; vm_compute; congruence.
Qed.

(** with fewer components it is no order: "1.2" equals "1", "1" equals "1.3", but "1.2" is
    smaller than "1.3" *)
Theorem C40_transitive_refuted :
  CompareVersion (lit "1.2") (lit "1") = Ok VERSION_EQUAL /\
  CompareVersion (lit "1") (lit "1.3") = Ok VERSION_EQUAL /\
  CompareVersion (lit "1.2") (lit "1.3") = Ok VERSION_SMALLER.
Proof. vm_compute. auto. Qed.
