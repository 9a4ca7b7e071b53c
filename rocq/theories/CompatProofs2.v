(** Proofs about CompatModel.v: the strsep loop and getline. *)
From Verif Require Import Prelude PreludeFacts Str StrFacts Libc LibcFacts MemSpec CompatModel CompatProofs.
Set Implicit Arguments.

(** * strsep until NULL *)
(** [toks] are the pieces of [s] between delimiters *)
Inductive separated (delim : list byte) : list byte -> list (list byte) -> Prop :=
| sep_last t : nodelim delim t -> separated delim t [t]
| sep_more t c u ts : nodelim delim t -> In c delim -> separated delim u ts ->
    separated delim (t ++ c :: u) (t :: ts).

Lemma nodelim_dec delim s : nodelim delim s \/ exists t c u, s = t ++ c :: u /\ nodelim delim t /\ In c delim.
Proof.
  induction s as [|x s IH]; [left; intros c []|].
  destruct (existsb (beq x) delim) eqn:E.
  - right. exists [], x, s. split; [reflexivity|]. split; [intros c []|]. apply existsb_beq. exact E.
  - apply existsb_beq_false in E. destruct IH as [IH|[t [c [u [-> [A B]]]]]].
    + left. intros c [<-|H]; [exact E|apply IH; exact H].
    + right. exists (x :: t), c, u. split; [reflexivity|]. split; [|exact B]. intros y [<-|H]; [exact E|apply A; exact H].
Qed.

Lemma separated_exists delim s : exists ts, separated delim s ts.
Proof.
  assert (G : forall k s, length s < k -> exists ts, separated delim s ts).
  { induction k as [|k IH]; intros x L; [lia|]. destruct (nodelim_dec delim x) as [H|[t [c [u [-> [A B]]]]]].
    - exists [x]. constructor. exact H.
    - destruct (IH u) as [ts H]; [rewrite app_length in L; cbn in L; lia|]. exists (t :: ts). constructor; assumption. }
  apply (G (S (length s))). lia.
Qed.

Lemma split_unique delim (t t' : list byte) c c' u u' : nodelim delim t -> nodelim delim t' -> In c delim -> In c' delim ->
  t ++ c :: u = t' ++ c' :: u' -> t = t' /\ u = u'.
Proof.
  revert t'. induction t as [|x t IH]; intros [|y t'] N N' I I' E; cbn in E.
  - injection E as _ ->. auto.
  - injection E as -> _. exfalso. apply (N' y); [left; reflexivity|exact I].
  - injection E as -> _. exfalso. apply (N c'); [left; reflexivity|exact I'].
  - injection E as -> E. destruct (IH t') as [-> ->]; auto; intros z Z; [apply N|apply N']; right; exact Z.
Qed.

Lemma separated_unique delim s ts ts' : separated delim s ts -> separated delim s ts' -> ts = ts'.
Proof.
  intros H. revert ts'. induction H as [t N|t c u ts N I H IH]; intros ts' H'.
  - inversion H' as [t' N'|t' c u ts2 N' I' H2]; subst; [reflexivity|]. exfalso. apply (N c); [apply in_or_app; right; left; reflexivity|exact I'].
  - inversion H' as [t' N' E|t' c' u' ts2 N' I' H2 E]; subst.
    + exfalso. apply (N' c); [apply in_or_app; right; left; reflexivity|exact I].
    + destruct (@split_unique delim t' t c' c u' u) as [-> ->]; auto. f_equal. apply IH. exact H2.
Qed.

Lemma Forall2_mono A B (P Q : A -> B -> Prop) l l' : (forall a b, P a b -> Q a b) -> Forall2 P l l' -> Forall2 Q l l'.
Proof. intros H F. induction F; constructor; auto. Qed.

Lemma strsep_all_end fuel m delim : 0 < fuel -> strsep_all fuel m None delim = Ok (m, []).
Proof. destruct fuel; [lia|]. reflexivity. Qed.

Lemma strsep_all_spec delim s toks : is_cstr delim -> separated delim s toks -> is_cstr s ->
  forall p r fuel, length toks < fuel ->
  exists offs, strsep_all fuel (p ++ map Some s ++ Some NUL :: r) (Some (length p)) delim =
      Ok (p ++ concat (map block toks) ++ r, offs) /\
    Forall2 (fun o t => o <= length p + length (concat (map block toks)) /\ length p <= o /\ exists r', skipn (o - length p) (concat (map block toks)) = block t ++ r') offs toks.
Proof.
  intros Cd H. induction H as [t N|t c u ts N I H IH]; intros C p r fuel F; (destruct fuel as [|f]; [lia|]); cbn [strsep_all strsep].
  - rewrite (@strsep_loop_end delim r Cd t p); [|exact C|exact N|rewrite !app_length, map_length; lia]. cbn [bind].
    rewrite strsep_all_end by (cbn in F; lia). cbn [bind map concat]. rewrite app_nil_r, block_eq, <- app_assoc. cbn [app].
    exists [length p]. split; [reflexivity|]. constructor; [|constructor]. rewrite Nat.sub_diag. cbn [skipn].
    split; [lia|]. split; [lia|]. exists []. rewrite app_nil_r, block_eq. reflexivity.
  - pose proof C as C0. apply is_cstr_app in C. destruct C as [Ct C]. apply is_cstr_cons in C. destruct C as [_ Cu].
    rewrite (@strsep_loop_hit delim c u (Some NUL :: r) Cd I t p); [|exact Ct|exact N|rewrite !app_length, map_length, app_length; lia]. cbn [bind].
    destruct (IH Cu (p ++ map Some t ++ [Some NUL]) r f) as [offs [E O]]; [cbn in F; lia|].
    rewrite !app_length, map_length in E. cbn [length] in E. rewrite <- !app_assoc in E. cbn [app] in E.
    rewrite Nat.add_assoc in E. rewrite E. cbn [bind].
    exists (length p :: offs). split.
    + cbn [map concat]. rewrite block_eq, <- !app_assoc. reflexivity.
    + constructor.
      * rewrite Nat.sub_diag. split; [lia|]. split; [lia|]. cbn [map concat skipn]. eexists; reflexivity.
      * eapply Forall2_mono; [|exact O]. cbn beta. intros o t' [B [A [r' R]]]. cbn [map concat]. rewrite !app_length, length_block in *.
        rewrite map_length in *. cbn [length] in *. split; [lia|]. split; [lia|]. exists r'.
        rewrite skipn_app_ge by (rewrite length_block; lia). rewrite length_block. rewrite <- R. f_equal. lia.
Qed.

(** * getline *)
Section Getline.
  Variable mem : nat -> bool.
  Variable smax : N.

  Lemma getdelim_loop_spec d : forall fuel a r n s, length (rest s) < fuel ->
    S (length a) < n -> n <= length a + length r ->
    exists out, getdelim_loop mem smax fuel (map Some a ++ r) n (length a) (length a) d s = Ok out /\
    match out with
    | inl (buf, n', s') => n' <= length buf /\ ((exists k, mem k = false) \/ (smax <= N.of_nat (length a + length (rest s)))%N)
    | inr (buf, n', bytes, pos, s') =>
        exists l r', rest s = l ++ rest s' /\ buf = map Some (a ++ l) ++ r' /\ bytes = length (a ++ l) /\ pos = length (a ++ l) /\
          S (length (a ++ l)) < n' /\ n' <= length buf /\ bad s' = bad s /\
          ((exists l0, l = l0 ++ [d] /\ ~ In d l0 /\ eof s' = eof s /\ err s' = err s) \/
           (~ In d l /\ rest s' = [] /\ eof s' = (if bad s then eof s else true) /\ err s' = (if bad s then true else err s)))
    end.
  Proof.
    induction fuel as [|f IH]; intros a r n s F N1 N2; [lia|]. cbn [getdelim_loop].
    unfold getc. destruct s as [[|c t] b e er]; cbn [rest bad eof err] in *.
    - destruct b.
      + eexists. split; [reflexivity|]. cbn beta iota. exists [], r. rewrite (app_nil_r a). cbn [rest bad eof err].
        rewrite app_length, map_length. repeat split; try lia. right. repeat split; auto.
      + eexists. split; [reflexivity|]. cbn beta iota. exists [], r. rewrite (app_nil_r a). cbn [rest bad eof err].
        rewrite app_length, map_length. repeat split; try lia. right. repeat split; auto.
    - destruct (N.leb_spec smax (N.of_nat (length a + 1))) as [Q|Q].
      + eexists. split; [reflexivity|]. cbn beta iota. rewrite app_length, map_length. split; [lia|]. right. cbn [length]. lia.
      + assert (STEP : forall r n, S (S (length a)) < n -> n <= length a + length r ->
          exists out, (let* buf := aset (map Some a ++ r) (length a) c in
              if beq c d then Ok (inr (buf, n, length a + 1, S (length a), Stream t b e er))
              else getdelim_loop mem smax f buf n (length a + 1) (S (length a)) d (Stream t b e er)) = Ok out /\
            match out with
            | inl (buf, n', s') => n' <= length buf /\ ((exists k, mem k = false) \/ (smax <= N.of_nat (length a + length (c :: t)))%N)
            | inr (buf, n', bytes, pos, s') =>
                exists l r', c :: t = l ++ rest s' /\ buf = map Some (a ++ l) ++ r' /\ bytes = length (a ++ l) /\ pos = length (a ++ l) /\
                  S (length (a ++ l)) < n' /\ n' <= length buf /\ bad s' = b /\
                  ((exists l0, l = l0 ++ [d] /\ ~ In d l0 /\ eof s' = e /\ err s' = er) \/
                   (~ In d l /\ rest s' = [] /\ eof s' = (if b then e else true) /\ err s' = (if b then true else er)))
            end).
        { clear r n N1 N2. intros r n N1 N2. destruct r as [|x r]; [cbn in N2; lia|].
          rewrite aset_Ok by (rewrite app_length, map_length; cbn; lia). cbn [bind]. rewrite upd_map_snoc.
          replace (map Some a ++ Some c :: r) with (map Some (a ++ [c]) ++ r) by (rewrite map_app, <- app_assoc; reflexivity).
          destruct (beq_spec c d) as [D|D].
          - eexists. split; [reflexivity|]. cbn beta iota. exists [c], r. rewrite !app_length, map_length, app_length. cbn [length] in *.
            cbn [rest bad eof err]. repeat split; try lia. left. exists []. subst d. repeat split; auto.
          - destruct (IH (a ++ [c]) r n (Stream t b e er)) as [out [E O]]; cbn [rest bad eof err] in *.
            + cbn in F. lia.
            + rewrite app_length. cbn. lia.
            + rewrite app_length. cbn in *. lia.
            + rewrite app_length in E. cbn [length] in E. replace (S (length a)) with (length a + 1) by lia.
              exists out. split; [exact E|]. rewrite app_length in O. destruct out as [[[buf n'] s']|[[[[buf n'] bytes] pos] s']].
              * destruct O as [O1 O2]. split; [exact O1|]. destruct O2 as [O2|O2]; [left; exact O2|right]. cbn [length] in *. lia.
              * destruct O as [l [r' [O1 [O2 [O3 [O4 [O5 [O6 [O7 O8]]]]]]]]]. exists (c :: l), r'.
                rewrite <- !app_assoc in *. cbn [app] in *. split; [f_equal; exact O1|]. repeat split; try assumption.
                destruct O8 as [[l0 [X1 [X2 [X3 X4]]]]|[X1 X2]].
                -- left. exists (c :: l0). subst l. repeat split; try assumption. intros [Z|Z]; [congruence|contradiction].
                -- right. split; [intros [Z|Z]; [congruence|contradiction]|exact X2]. }
        destruct (Nat.leb_spec (n - 1) (length a + 1)) as [G|G].
        * destruct (mem (n + 4096)) eqn:M; cbn [bind].
          -- replace (length a + 1 - 1) with (length a) by lia.
             assert (RE : exists r2, arealloc (map Some a ++ r) (n + 4096) = map Some a ++ r2 /\ length a + length r2 = n + 4096).
             { unfold arealloc. rewrite firstn_app_ge by (rewrite map_length; lia). rewrite map_length, <- app_assoc. eexists. split; [reflexivity|].
               rewrite app_length, repeat_length, firstn_length, !app_length, map_length. lia. }
             destruct RE as [r2 [RE RL]]. rewrite RE. apply STEP; lia.
          -- eexists. split; [reflexivity|]. cbn beta iota. rewrite app_length, map_length. split; [lia|]. left. eauto.
        * cbn [bind]. apply STEP; lia.
  Qed.

  (** what one call of getdelim does, whatever the allocator and the stream do *)
  Lemma getdelim_spec lineptr n d s : (forall b, lineptr = Some b -> n <= length b) ->
    exists lp n' s' ret, getdelim mem smax lineptr n d s = Ok (lp, n', s', ret) /\
      (forall b, lp = Some b -> n' <= length b) /\
      ((ret = -1)%Z /\ ((exists k, mem k = false) \/ (smax <= N.of_nat (length (rest s)))%N \/ (err s' = true /\ (err s = true \/ bad s = true)) \/ (rest s = [] /\ rest s' = [] /\ eof s' = true)) \/
       exists l b, rest s = l ++ rest s' /\ l <> [] /\ bad s' = bad s /\ err s = false /\ err s' = false /\ ret = Z.of_nat (length l) /\ lp = Some b /\
         firstn (S (length l)) b = map Some l ++ [Some NUL] /\
         ((exists l0, l = l0 ++ [d] /\ ~ In d l0 /\ eof s' = eof s) \/ (~ In d l /\ rest s' = [] /\ bad s = false /\ eof s' = true))).
  Proof.
    intros V.
    assert (MAIN : forall buf n, 4 <= n -> n <= length buf ->
      exists lp n' s' ret, (let* r := getdelim_loop mem smax (S (length (rest s))) buf n 0 0 d s in
      match r with
      | inl (buf, n, s) => Ok (Some buf, n, s, (-1)%Z)
      | inr (buf, n, bytes, pos, s) =>
          if err s || (eof s && (bytes =? 0)) then Ok (Some buf, n, s, (-1)%Z)
          else let* buf := aset buf pos NUL in Ok (Some buf, n, s, Z.of_nat bytes)
      end) = Ok (lp, n', s', ret) /\
      (forall b, lp = Some b -> n' <= length b) /\
      ((ret = -1)%Z /\ ((exists k, mem k = false) \/ (smax <= N.of_nat (length (rest s)))%N \/ (err s' = true /\ (err s = true \/ bad s = true)) \/ (rest s = [] /\ rest s' = [] /\ eof s' = true)) \/
       exists l b, rest s = l ++ rest s' /\ l <> [] /\ bad s' = bad s /\ err s = false /\ err s' = false /\ ret = Z.of_nat (length l) /\ lp = Some b /\
         firstn (S (length l)) b = map Some l ++ [Some NUL] /\
         ((exists l0, l = l0 ++ [d] /\ ~ In d l0 /\ eof s' = eof s) \/ (~ In d l /\ rest s' = [] /\ bad s = false /\ eof s' = true)))).
    { clear V lineptr n. intros buf n N1 N2.
      destruct (@getdelim_loop_spec d (S (length (rest s))) [] buf n s) as [out [E O]]; try (cbn [length]; lia).
      cbn [map app length] in E. rewrite E. cbn [bind]. destruct out as [[[buf' n'] s']|[[[[buf' n'] bytes] pos] s']].
      - destruct O as [O1 O2]. do 4 eexists. split; [reflexivity|]. split; [intros b B; injection B as <-; exact O1|].
        left. split; [reflexivity|]. destruct O2 as [O2|O2]; [left; exact O2|right; left; exact O2].
      - destruct O as [l [r' [O1 [O2 [O3 [O4 [O5 [O6 [O7 O8]]]]]]]]]. cbn [app] in *. subst bytes pos.
        destruct (err s') eqn:ER; cbn [orb].
        + do 4 eexists. split; [reflexivity|]. split; [intros b B; injection B as <-; exact O6|]. left. split; [reflexivity|]. right. right. left. split; [exact ER|].
          destruct O8 as [[l0 [X1 [X2 [X3 X4]]]]|[X1 [X2 [X3 X4]]]]; [left; congruence|]. destruct (bad s); [right; reflexivity|left; congruence].
        + destruct l as [|x l].
          * cbn [length Nat.eqb]. rewrite andb_true_r. destruct O8 as [[l0 [X1 _]]|[X1 [X2 [X3 X4]]]]; [destruct l0; discriminate|].
            destruct (bad s); [congruence|]. rewrite X3.
            do 4 eexists. split; [reflexivity|]. split; [intros b B; injection B as <-; exact O6|]. left. split; [reflexivity|].
            right. right. right. cbn [app] in O1. rewrite O1. repeat split; assumption.
          * cbn [length Nat.eqb]. rewrite andb_false_r. change (S (length l)) with (length (x :: l)). set (L := x :: l) in *.
            rewrite aset_Ok by lia. cbn [bind].
            assert (R : exists y r2, r' = y :: r2).
            { destruct r' as [|y r2]; [|eauto]. rewrite O2, app_nil_r, map_length in O6. lia. }
            destruct R as [y [r2 ->]].
            do 4 eexists. split; [reflexivity|]. split; [intros b B; injection B as <-; rewrite length_upd; exact O6|]. right.
            exists L, (upd buf' (length L) (Some NUL)). split; [exact O1|]. split; [discriminate|]. split; [exact O7|].
            assert (ES : err s = false).
            { destruct O8 as [[l0 [X1 [X2 [X3 X4]]]]|[X1 [X2 [X3 X4]]]]; [congruence|]. destruct (bad s); congruence. }
            split; [exact ES|]. split; [exact ER|]. split; [reflexivity|]. split; [reflexivity|]. split.
            -- rewrite O2, upd_map_snoc. rewrite firstn_app_ge by (rewrite map_length; lia). rewrite map_length.
               replace (S (length L) - length L) with 1 by lia. reflexivity.
            -- destruct O8 as [[l0 [X1 [X2 [X3 X4]]]]|[X1 [X2 [X3 X4]]]]; [left; eauto|]. right.
               destruct (bad s); [congruence|]. repeat split; auto. }
    unfold getdelim. destruct lineptr as [b|].
    - destruct (Nat.ltb_spec n 4) as [A|A].
      + destruct (mem 4096) eqn:M; cbn [bind].
        * apply MAIN; [lia|]. rewrite length_arealloc. lia.
        * do 4 eexists. split; [reflexivity|]. split; [exact V|]. left. split; [reflexivity|]. left. eauto.
      + cbn [bind]. apply MAIN; [lia|]. apply V. reflexivity.
    - destruct (mem 4096) eqn:M; cbn [bind].
      + apply MAIN; [lia|]. rewrite length_arealloc. lia.
      + do 4 eexists. split; [reflexivity|]. split; [intros b B; discriminate|]. left. split; [reflexivity|]. left. eauto.
  Qed.
End Getline.
