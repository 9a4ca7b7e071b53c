(** Proofs about EnvModel.v: whole files. *)
From Verif Require Import Prelude PreludeFacts Str StrFacts Libc LibcFacts MemSpec EditSpec EditModel JsonModel JsonSpec JsonRead JsonMapProofs.
From Verif Require Import CsvModel CompatModel CompatProofs CompatProofs2 PropsCompat PropsCsv EnvModel EnvSpec EnvProofs EnvProofs2 EnvProofs3.
Set Implicit Arguments.

(** number of bytes in the lines *)
Fixpoint total (ls : list (list byte)) : nat := match ls with [] => 0 | l :: r => length l + total r end.
(** the lines read under a size limit: all of them, or those in front of the line that
    exceeds it *)
Definition taken (max : nat) (ls pre : list (list byte)) : Prop :=
  exists post, ls = pre ++ post /\ total pre <= max /\ (forall l r, post = l :: r -> max < total (pre ++ [l])).

Lemma total_app a b : total (a ++ b) = total a + total b.
Proof. induction a as [|l a IH]; cbn [total app]; lia. Qed.
Lemma taken_exists max ls : exists pre, taken max ls pre.
Proof.
  induction ls as [|l ls IH] using rev_ind; [exists [], []; cbn; repeat split; [lia|discriminate]|].
  destruct IH as [pre [post [E [L H]]]]. destruct post as [|x post].
  - rewrite app_nil_r in E. subst ls. destruct (le_lt_dec (total (pre ++ [l])) max) as [G|G].
    + exists (pre ++ [l]), []. rewrite app_nil_r. repeat split; [exact G|discriminate].
    + exists pre, [l]. repeat split; [exact L|]. intros l' r X. injection X as <- <-. exact G.
  - exists pre, (x :: post ++ [l]). rewrite E, <- app_assoc. repeat split; [exact L|]. intros l' r X. injection X as <- <-. eapply H. reflexivity.
Qed.
Lemma taken_unique max ls pre pre' : taken max ls pre -> taken max ls pre' -> pre = pre'.
Proof.
  intros [post [E [L H]]] [post' [E' [L' H']]]. rewrite E in E'. clear E ls. revert pre' post' L' H' E'.
  assert (G : forall pre pre' post post' : list (list byte), pre ++ post = pre' ++ post' -> length pre <= length pre' -> total pre' <= max ->
      (forall l r, post = l :: r -> max < total (pre ++ [l])) -> pre = pre').
  { clear. intros p p' q q' E L T H.
    assert (X : exists m, p' = p ++ m) by (exists (skipn (length p) p'); rewrite <- (firstn_skipn (length p) p') at 1; f_equal;
      apply (f_equal (firstn (length p))) in E; rewrite !firstn_app_le in E by lia; rewrite firstn_all in E; auto).
    destruct X as [m ->]. destruct m as [|x m]; [rewrite app_nil_r; reflexivity|]. exfalso.
    rewrite <- app_assoc in E. apply app_inv_head in E. specialize (H x (m ++ q') E). rewrite !total_app in *. cbn [total] in *. lia. }
  intros pre' post' L' H' E'. destruct (le_lt_dec (length pre) (length pre')) as [K|K].
  - eapply G; eauto.
  - symmetry. eapply G; eauto. lia.
Qed.

Lemma mstr_upto b l : firstn (S (length l)) b = map Some l ++ [Some NUL] -> mstr b = Ok (upto_nul l).
Proof. intros H. apply mstr_holds. apply holds_upto. exact H. Qed.

Section Loops.
  Variable mem : nat -> bool.
  Variable smax : N.
  Hypothesis MEM : forall k, mem k = true.

  Lemma readlines_spec b : forall s ls, stream_lines b s ls -> forall fuel buff size lines n, length s + 1 < fuel ->
    (N.of_nat (length s) < smax)%N -> buffer_ok buff size ->
    readlines_loop mem smax fuel buff size (Stream s b false false) lines n =
      Ok (lines ++ map upto_nul ls, if b then (-1)%Z else Z.of_nat (n + length ls)).
  Proof.
    assert (END : forall s fuel buff size lines n, 1 < fuel -> (N.of_nat (length s) < smax)%N -> buffer_ok buff size -> ~ In LF s -> s = [] \/ b = true ->
      readlines_loop mem smax fuel buff size (Stream s b false false) lines n = Ok (lines, if b then (-1)%Z else Z.of_nat n)).
    { intros s fuel buff size lines n F L V NI H. destruct fuel as [|fuel]; [lia|]. cbn [readlines_loop eof].
      destruct (@CfReadLine_spec mem smax buff size (Stream s b false false) MEM L eq_refl V) as [[l [t [H1 [H2 _]]]]|[[H1 [H2 [H3 _]]]|[H1 [H2 [lp [n' [E H3]]]]]]].
      - exfalso. apply NI. cbn [rest] in H1. rewrite H1. apply in_or_app. right. left. reflexivity.
      - cbn [rest bad] in *. destruct H; congruence.
      - rewrite E. cbn [bind bad eof Z.eqb]. destruct b; [reflexivity|]. destruct fuel as [|fuel]; [lia|]. cbn. reflexivity. }
    intros s ls SL. induction SL as [|l B NE N|l B N|l t ls N SL IH]; intros fuel buff size lines n F L V.
    - cbn [map]. rewrite app_nil_r. rewrite END by (auto; lia). f_equal. f_equal. destruct b; [reflexivity|]. f_equal. cbn. lia.
    - subst b. destruct fuel as [|fuel]; [lia|]. cbn [readlines_loop eof].
      destruct (@CfReadLine_spec mem smax buff size (Stream l false false false) MEM L eq_refl V) as [[l' [t [H1 [H2 _]]]]|[[H1 [H2 [H3 [bf [n' [E [H4 H5]]]]]]]|[H1 [[H2|H2] [lp [n' [E H3]]]]]]].
      + exfalso. apply N. cbn [rest] in H1. rewrite H1. apply in_or_app. right. left. reflexivity.
      + rewrite E. cbn [bind rest] in *. replace (Z.of_nat (length l) =? -1)%Z with false by (symmetry; apply Z.eqb_neq; lia).
        rewrite (@mstr_upto _ l H5). cbn [bind]. destruct fuel as [|fuel]; [destruct l; cbn in F; [congruence|lia]|]. cbn [readlines_loop eof map length]. repeat f_equal. lia.
      + cbn [rest] in H2. congruence.
      + cbn [bad] in H2. congruence.
    - cbn [map]. rewrite app_nil_r. rewrite END by (auto; lia). rewrite B. reflexivity.
    - rewrite app_length in F, L. cbn [length] in F, L. destruct fuel as [|fuel]; [lia|]. cbn [readlines_loop eof].
      assert (L2 : (N.of_nat (length (rest (Stream (l ++ LF :: t) b false false))) < smax)%N) by (cbn [rest]; rewrite app_length; cbn [length]; lia).
      destruct (@CfReadLine_spec mem smax buff size (Stream (l ++ LF :: t) b false false) MEM L2 eq_refl V) as [[l' [t' [H1 [H2 [bf [n' [E [H4 H5]]]]]]]]|[[H1 _]|[H1 _]]].
      + cbn [rest] in H1. destruct (@LF_split l' l t' t H2 N (eq_sym H1)) as [-> ->]. rewrite E. cbn [bind bad eof].
        replace (Z.of_nat (length l) =? -1)%Z with false by (symmetry; apply Z.eqb_neq; lia).
        rewrite (@mstr_upto _ l H5). cbn [bind].
        rewrite IH; [|lia|lia|intros x X; injection X as <-; exact H4]. cbn [map length]. rewrite <- app_assoc. cbn [app]. repeat f_equal. destruct b; [reflexivity|]. f_equal. lia.
      + exfalso. apply H1. cbn [rest]. apply in_or_app. right. left. reflexivity.
      + exfalso. apply H1. cbn [rest]. apply in_or_app. right. left. reflexivity.
  Qed.

  (** the pairs defined by lines *)
  Definition pairs (os : list (option (list byte * list byte))) : list (list byte * json) :=
    flat_map (fun o => match o with Some (k, v) => [(k, JPrim PString v)] | None => [] end) os.

  (** ParseEnvLine and the append that follows it *)
  Lemma env_step m line o json : holds m line -> env_line line o ->
    exists m', length m' = length m /\
      forall T (cont : cells byte -> list (list byte * JsonModel.json) -> res T),
      (let* ' (m, kv) := ParseEnvLine m in
       let* json := match kv with
                    | None => Ok json
                    | Some (key, value) =>
                        let* k := mstr (skipn key m) in
                        let* v := mstr (skipn value m) in
                        Ok (JsonObjectAppendElement json k (JsonStringCreate v))
                    end in cont m json) = cont m' (append_all (pairs [o]) json).
  Proof.
    intros H E. destruct (@ParseEnvLine_spec m line o H E) as [m' [kv [P [L K]]]]. exists m'. split; [exact L|]. intros T cont.
    rewrite P. cbn [bind]. destruct o as [[k v]|], kv as [[ko vo]|]; try destruct K; cbn [pairs flat_map app append_all fold_left bind]; [|reflexivity].
    rewrite (proj2 (mstr_holds _ _) H0), (proj2 (mstr_holds _ _) H1); cbn [bind]. reflexivity.
  Qed.

  Lemma append_all_app a c acc : append_all (a ++ c) acc = append_all c (append_all a acc).
  Proof. unfold append_all. apply fold_left_app. Qed.

  Lemma env_loop_spec b max : forall s ls, stream_lines b s ls -> forall pre post os fuel buff size cnt json, ls = pre ++ post ->
    cnt + total (map upto_nul pre) <= max -> (forall l r, post = l :: r -> max < cnt + total (map upto_nul (pre ++ [l]))) ->
    Forall2 env_line (map upto_nul pre) os -> length s < fuel ->
    (N.of_nat (length s) < smax)%N -> buffer_ok buff size ->
    exists cnt' fin, env_loop mem smax fuel buff size (Stream s b false false) max cnt json = Ok (append_all (pairs os) json, cnt', fin) /\
      (post = [] -> cnt' <= max /\ eof fin = negb b) /\ (post <> [] -> max < cnt').
  Proof.
    assert (END : forall s fuel buff size cnt json, 0 < fuel -> (N.of_nat (length s) < smax)%N -> buffer_ok buff size -> ~ In LF s -> s = [] \/ b = true ->
      exists fin, env_loop mem smax fuel buff size (Stream s b false false) max cnt json = Ok (json, cnt, fin) /\ eof fin = negb b).
    { intros s fuel buff size cnt json F L V NI H. destruct fuel as [|fuel]; [lia|]. cbn [env_loop].
      destruct (@CfReadLine_spec mem smax buff size (Stream s b false false) MEM L eq_refl V) as [[l [t [H1 [H2 _]]]]|[[H1 [H2 [H3 _]]]|[H1 [H2 [lp [n' [E H3]]]]]]].
      - exfalso. apply NI. cbn [rest] in H1. rewrite H1. apply in_or_app. right. left. reflexivity.
      - cbn [rest bad] in *. destruct H; congruence.
      - rewrite E. cbn [bind bad eof Z.eqb]. eexists. split; [reflexivity|]. cbn [eof]. destruct b; reflexivity. }
    assert (NIL : forall s pre post os fuel buff size cnt json, ([] : list (list byte)) = pre ++ post -> Forall2 env_line (map upto_nul pre) os ->
      cnt + total (map upto_nul pre) <= max ->
      0 < fuel -> (N.of_nat (length s) < smax)%N -> buffer_ok buff size -> ~ In LF s -> s = [] \/ b = true ->
      exists cnt' fin, env_loop mem smax fuel buff size (Stream s b false false) max cnt json = Ok (append_all (pairs os) json, cnt', fin) /\
        (post = [] -> cnt' <= max /\ eof fin = negb b) /\ (post <> [] -> max < cnt')).
    { intros s pre post os fuel buff size cnt json E F2 T F L V NI H. symmetry in E. apply app_eq_nil in E as [-> ->]. inversion F2. subst.
      destruct (@END s fuel buff size cnt json F L V NI H) as [fin [E1 E2]]. exists cnt, fin. split; [exact E1|]. split; [|congruence].
      intros _. split; [cbn in T; lia|exact E2]. }
    (* one line, whatever follows *)
    assert (STEP : forall l t bl (e : bool) pre post os buff size cnt json (k : cells byte -> nat -> nat -> list (list byte * JsonModel.json) -> res (list (list byte * JsonModel.json) * nat * stream)) bf n',
      l :: t = pre ++ post -> cnt + total (map upto_nul pre) <= max -> (forall l r, post = l :: r -> max < cnt + total (map upto_nul (pre ++ [l]))) ->
      Forall2 env_line (map upto_nul pre) os -> n' <= length bf -> firstn (S (length l)) bf = map Some l ++ [Some NUL] ->
      buff = Some bf -> size = n' -> bl = e ->
      (forall m pre' os' c j, length m = length bf -> t = pre' ++ post -> c + total (map upto_nul pre') <= max ->
         (forall l r, post = l :: r -> max < c + total (map upto_nul (pre' ++ [l]))) -> Forall2 env_line (map upto_nul pre') os' ->
         exists cnt' fin, k m n' c j = Ok (append_all (pairs os') j, cnt', fin) /\
           (post = [] -> cnt' <= max /\ eof fin = negb b) /\ (post <> [] -> max < cnt')) -> forall fin0,
      exists cnt' fin, (let* s := mstr bf in
              let byte_count := cnt + length s in
              if max <? byte_count then Ok (json, byte_count, fin0)
              else
                let* ' (m, kv) := ParseEnvLine bf in
                let* json :=
                  match kv with
                  | None => Ok json
                  | Some (key, value) =>
                      let* k := mstr (skipn key m) in
                      let* v := mstr (skipn value m) in
                      Ok (JsonObjectAppendElement json k (JsonStringCreate v))
                  end in
                k m n' byte_count json) = Ok (append_all (pairs os) json, cnt', fin) /\
        (post = [] -> cnt' <= max /\ eof fin = negb b) /\ (post <> [] -> max < cnt')).
    { intros l t bl e pre post os buff size cnt json k bf n' E T1 T2 F2 L1 L2 _ _ _ K fin0.
      rewrite (@mstr_upto _ l L2). cbn [bind]. cbv zeta. destruct pre as [|l' pre].
      - cbn [app] in E. subst post. inversion F2. subst os. specialize (T2 l t eq_refl). cbn [app map total] in T2.
        replace (max <? cnt + length (upto_nul l)) with true by (symmetry; apply Nat.ltb_lt; lia).
        eexists _, _. split; [reflexivity|]. split; [discriminate|]. intros _. lia.
      - cbn [app] in E. injection E as <- E. cbn [map total] in T1, F2. inversion F2 as [|? o ? os' HO F2' E1 E2]. subst os.
        replace (max <? cnt + length (upto_nul l)) with false by (symmetry; apply Nat.ltb_ge; lia).
        destruct (@env_step bf (upto_nul l) o json (@holds_upto _ l L2) HO) as [m' [ML S]].
        rewrite (S _ (fun m json => k m n' (cnt + length (upto_nul l)) json)).
        destruct (K m' pre os' (cnt + length (upto_nul l)) (append_all (pairs [o]) json)) as [cnt' [fin [Q1 Q2]]]; try assumption; try lia.
        + intros x1 r1 X1. specialize (T2 x1 r1 X1). cbn [map total app] in T2. lia.
        + exists cnt', fin. split; [|exact Q2]. rewrite Q1. do 3 f_equal. change (o :: os') with ([o] ++ os'). unfold pairs. rewrite flat_map_app, append_all_app. reflexivity. }
    intros s ls SL. induction SL as [|l B NE N|l B N|l t ls N SL IH]; intros pre post os fuel buff size cnt json E T1 T2 F2 F L V.
    - apply (@NIL [] pre post os fuel buff size cnt json); auto; lia.
    - subst b. destruct fuel as [|fuel]; [lia|]. cbn [env_loop].
      destruct (@CfReadLine_spec mem smax buff size (Stream l false false false) MEM L eq_refl V) as [[l' [t [H1 [H2 _]]]]|[[H1 [H2 [H3 [bf [n' [EE [H4 H5]]]]]]]|[H1 [[H2|H2] [lp [n' [EE H3]]]]]]].
      + exfalso. apply N. cbn [rest] in H1. rewrite H1. apply in_or_app. right. left. reflexivity.
      + rewrite EE. cbn [bind rest] in *. replace (Z.of_nat (length l) =? -1)%Z with false by (symmetry; apply Z.eqb_neq; lia).
        eapply (@STEP l [] true true pre post os (Some bf) n' cnt json (fun m n c j => env_loop mem smax fuel (Some m) n (Stream [] false true false) max c j) bf n'); try eassumption; auto.
        intros m pre' os' c j LM E' T1' T2' F2'. symmetry in E'. apply app_eq_nil in E' as [-> ->]. inversion F2'. subst os'.
        destruct fuel as [|fuel]; [destruct l; cbn in F; [congruence|lia]|]. cbn [env_loop].
        assert (V' : buffer_ok (Some m) n') by (intros x X; injection X as <-; lia).
        assert (SM0 : (N.of_nat (length (rest (Stream [] false true false))) < smax)%N) by (cbn; lia).
        destruct (@CfReadLine_spec mem smax (Some m) n' (Stream [] false true false) MEM SM0 eq_refl V') as [[l' [t [G1 _]]]|[[_ [G2 _]]|[_ [_ [lp [n2 [G _]]]]]]]; [destruct l'; discriminate|cbn in G2; congruence|].
        match goal with |- context [CfReadLine ?a ?b ?c ?d ?e] => replace (CfReadLine a b c d e) with (Ok (lp, n2, Stream [] false true false, (-1)%Z)) by (symmetry; exact G) end. cbn [bind Z.eqb bad eof]. eexists _, _. split; [reflexivity|]. split; [|congruence]. intros _. cbn in T1'. split; [lia|reflexivity].
      + cbn [rest] in H2. congruence.
      + cbn [bad] in H2. congruence.
    - apply (@NIL l pre post os fuel buff size cnt json); auto; lia.
    - rewrite app_length in F, L. cbn [length] in F, L. destruct fuel as [|fuel]; [lia|]. cbn [env_loop].
      assert (L2 : (N.of_nat (length (rest (Stream (l ++ LF :: t) b false false))) < smax)%N) by (cbn [rest]; rewrite app_length; cbn [length]; lia).
      destruct (@CfReadLine_spec mem smax buff size (Stream (l ++ LF :: t) b false false) MEM L2 eq_refl V) as [[l' [t' [H1 [H2 [bf [n' [EE [H4 H5]]]]]]]]|[[H1 _]|[H1 _]]].
      + cbn [rest] in H1. destruct (@LF_split l' l t' t H2 N (eq_sym H1)) as [-> ->]. rewrite EE. cbn [bind bad eof].
        replace (Z.of_nat (length l) =? -1)%Z with false by (symmetry; apply Z.eqb_neq; lia).
        eapply (@STEP l ls true true pre post os (Some bf) n' cnt json (fun m n c j => env_loop mem smax fuel (Some m) n (Stream t b false false) max c j) bf n'); try eassumption; auto.
        intros m pre' os' c j LM E' T1' T2' F2'. apply IH with pre'; auto; try lia. intros x X. injection X as <-. lia.
      + exfalso. apply H1. cbn [rest]. apply in_or_app. right. left. reflexivity.
      + exfalso. apply H1. cbn [rest]. apply in_or_app. right. left. reflexivity.
  Qed.
End Loops.

Lemma csv_file_spec max : forall fp ls, reads fp ls -> forall pre post os fuel cnt json, ls = pre ++ post ->
  cnt + total pre <= max -> (forall l r, post = l :: r -> max < cnt + total (pre ++ [l])) ->
  Forall2 (fun l o => SeqParseCsvString l = Ok o) pre os -> length fp < fuel ->
  exists cnt', csv_file_loop fuel fp max cnt json =
    Ok (json ++ flat_map (fun o => match o with Some l => [JArr (map JsonStringCreate l)] | None => [] end) os, cnt', match post with [] => true | _ => false end) /\
    (post <> [] -> max < cnt').
Proof.
  assert (LL : forall fp b prev q, let '(b', fp') := line_loop b prev q fp in length b' + length fp' = length b + length fp).
  { induction fp as [|c fp IH]; intros b prev q; cbn [line_loop]; [reflexivity|].
    assert (A : length (b ++ [c]) = S (length b)) by (rewrite app_length; cbn; lia).
    destruct (beq c QUOTE); [specialize (IH (b ++ [c]) c (negb q)); destruct (line_loop _ _ _ _); cbn [length]; lia|].
    destruct (negb q && beq c _ && beq prev _); [cbn [length]; lia|]. specialize (IH (b ++ [c]) c q). destruct (line_loop _ _ _ _); cbn [length]; lia. }
  intros fp ls R. induction R as [fp fp' G|fp l fp' ls G R IH]; intros pre post os fuel cnt json E T1 T2 F F2; (destruct fuel as [|fuel]; [lia|]); cbn [csv_file_loop]; rewrite G.
  - symmetry in E. apply app_eq_nil in E as [-> ->]. inversion F. cbn. rewrite app_nil_r. eexists. split; [reflexivity|congruence].
  - assert (LT : length fp' < length fp).
    { unfold GetCsvLineNext in G. specialize (LL fp [] NUL false). destruct (line_loop [] NUL false fp) as [b x]. destruct (Nat.eqb_spec (length b) 0); [discriminate|].
      injection G as _ <-. cbn [length] in LL. lia. }
    cbv zeta. destruct pre as [|l' pre].
    + cbn [app] in E. subst post. inversion F. specialize (T2 _ _ eq_refl). cbn [app total] in T2.
      replace (max <? cnt + length l) with true by (symmetry; apply Nat.ltb_lt; lia). cbn [flat_map]. rewrite app_nil_r. eexists. split; [reflexivity|]. intros _. lia.
    + cbn [app] in E. injection E as <- E. cbn [total] in T1. inversion F as [|? o ? os' HO F' E1 E2]. subst os.
      replace (max <? cnt + length l) with false by (symmetry; apply Nat.ltb_ge; lia). rewrite HO. cbn [bind].
      destruct (IH pre post os' fuel (cnt + length l) (match o with Some l => JsonArrayAppendElement json (JArr (map JsonStringCreate l)) | None => json end)) as [cnt' [Q1 Q2]];
        auto; try lia.
      * intros x1 r1 X1. specialize (T2 x1 r1 X1). cbn [total app] in T2. lia.
      * exists cnt'. split; [|exact Q2]. destruct o as [o|]; rewrite Q1; cbn [flat_map]; [|reflexivity]. unfold JsonArrayAppendElement. rewrite <- app_assoc. reflexivity.
Qed.
