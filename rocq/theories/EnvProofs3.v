(** Proofs about EnvModel.v: reading lines and whole env files. *)
From Verif Require Import Prelude PreludeFacts Str StrFacts Libc LibcFacts MemSpec EditSpec EditModel JsonModel JsonMapProofs.
From Verif Require Import CompatModel CompatProofs CompatProofs2 PropsCompat EnvModel EnvSpec EnvProofs EnvProofs2.
Set Implicit Arguments.

(** the lines a program gets from a stream: complete lines, and the rest of the file
    behind the last newline; if reading fails there ([b]), that rest is lost *)
Inductive stream_lines (b : bool) : list byte -> list (list byte) -> Prop :=
| sl_end : stream_lines b [] []
| sl_last l : b = false -> l <> [] -> ~ In LF l -> stream_lines b l [l]
| sl_cut l : b = true -> ~ In LF l -> stream_lines b l []
| sl_line l t ls : ~ In LF l -> stream_lines b t ls -> stream_lines b (l ++ LF :: t) (l :: ls).

Lemma stream_lines_exists b s : exists ls, stream_lines b s ls.
Proof.
  assert (G : forall k s, length s < k -> exists ls, stream_lines b s ls).
  { induction k as [|k IH]; intros x L; [lia|]. destruct (nodelim_dec [LF] x) as [H|[t [c [u [-> [A B]]]]]].
    - assert (N : ~ In LF x) by (intros I; apply (H LF I); left; reflexivity). destruct x as [|c x]; [exists []; constructor|].
      destruct b; [exists []; apply sl_cut; auto|exists [c :: x]; apply sl_last; auto; discriminate].
    - destruct B as [<-|[]]. destruct (IH u) as [ls H]; [rewrite app_length in L; cbn in L; lia|]. exists (t :: ls). apply sl_line; [|exact H].
      intros I. apply (A LF I). left. reflexivity. }
  apply (G (S (length s))). lia.
Qed.

Lemma LF_split (l l' t t' : list byte) : ~ In LF l -> ~ In LF l' -> l ++ LF :: t = l' ++ LF :: t' -> l = l' /\ t = t'.
Proof.
  intros N N' E. apply (@split_unique [LF] l l' LF LF t t'); try (left; reflexivity); try exact E; intros c H [<-|[]]; contradiction.
Qed.

Lemma stream_lines_unique b s ls ls' : stream_lines b s ls -> stream_lines b s ls' -> ls = ls'.
Proof.
  intros F. revert ls'. induction F as [|l B NE N|l B N|l t ls N F IH]; intros ls' F'.
  - inversion F' as [E|l' B' NE' N' E|l' B' N' E|l' t' ls2 N' F2 E]; subst; try congruence; try reflexivity. destruct l'; discriminate.
  - inversion F' as [E|l' B' NE' N' E|l' B' N' E|l' t' ls2 N' F2 E]; subst; try congruence; try reflexivity.
    exfalso. apply N. apply in_or_app. right. left. reflexivity.
  - inversion F' as [E|l' B' NE' N' E|l' B' N' E|l' t' ls2 N' F2 E]; subst; try congruence; try reflexivity.
    exfalso. apply N. apply in_or_app. right. left. reflexivity.
  - inversion F' as [E|l' B' NE' N' E|l' B' N' E|l' t' ls2 N' F2 E]; subst.
    + destruct l; discriminate.
    + exfalso. apply N'. apply in_or_app. right. left. reflexivity.
    + exfalso. apply N'. apply in_or_app. right. left. reflexivity.
    + destruct (@LF_split l' l t' t N' N E) as [-> ->]. f_equal. apply IH. exact F2.
Qed.

(** a buffer starting with [l] and a terminator, seen as a string *)
Lemma holds_upto b l : firstn (S (length l)) b = map Some l ++ [Some NUL] -> holds b (upto_nul l).
Proof.
  intros E. split; [apply upto_nul_is_cstr|]. rewrite <- (firstn_skipn (S (length l)) b), E. clear E.
  rewrite <- app_assoc. cbn [app]. generalize (skipn (S (length l)) b) as r. induction l as [|c l IH]; intros r; cbn [upto_nul map app]; [eauto|].
  destruct (beq_spec c NUL) as [-> | N]; [cbn; eauto|]. destruct (IH r) as [r' E]. exists r'. cbn [map app]. rewrite E. reflexivity.
Qed.

Section Read.
  Variable mem : nat -> bool.
  Variable smax : N.

  (** one call of getline that does not fail for lack of memory *)
  Lemma getline_exact buff size s : (forall k, mem k = true) -> (N.of_nat (length (rest s)) < smax)%N -> err s = false -> buffer_ok buff size ->
    (exists l t, rest s = l ++ LF :: t /\ ~ In LF l /\
       exists b n', getline mem smax buff size s = Ok (Some b, n', Stream t (bad s) (eof s) false, Z.of_nat (S (length l))) /\
         n' <= length b /\ firstn (S (S (length l))) b = map Some (l ++ [LF]) ++ [Some NUL]) \/
    (~ In LF (rest s) /\ rest s <> [] /\ bad s = false /\
       exists b n', getline mem smax buff size s = Ok (Some b, n', Stream [] false true false, Z.of_nat (length (rest s))) /\
         n' <= length b /\ firstn (S (length (rest s))) b = map Some (rest s) ++ [Some NUL]) \/
    (~ In LF (rest s) /\ (rest s = [] \/ bad s = true) /\
       exists lp n', getline mem smax buff size s = Ok (lp, n', Stream [] (bad s) (if bad s then eof s else true) (bad s), (-1)%Z) /\ buffer_ok lp n').
  Proof.
    intros M SM ER V.
    destruct (@C75_getline mem smax buff size s V) as [lp [n' [s' [ret [E [V' H]]]]]].
    assert (ST : ret = (-1)%Z -> s' = Stream [] (bad s) (if bad s then eof s else true) (bad s) /\ ~ In LF (rest s)).
    { intros R. clear H V'. revert E. unfold getline, getdelim.
      assert (MAIN : forall buf n, 4 <= n -> n <= length buf ->
        (let* r := getdelim_loop mem smax (S (length (rest s))) buf n 0 0 (ascii_of_nat 10) s in
         match r with
         | inl (buf, n, s) => Ok (Some buf, n, s, (-1)%Z)
         | inr (buf, n, bytes, pos, s) =>
             if err s || (eof s && (bytes =? 0)) then Ok (Some buf, n, s, (-1)%Z)
             else let* buf := aset buf pos NUL in Ok (Some buf, n, s, Z.of_nat bytes)
         end) = Ok (lp, n', s', ret) -> s' = Stream [] (bad s) (if bad s then eof s else true) (bad s) /\ ~ In LF (rest s)).
      { intros buf n N1 N2.
        destruct (@getdelim_loop_spec mem smax (ascii_of_nat 10) (S (length (rest s))) [] buf n s) as [out [E O]]; try (cbn [length]; lia).
        cbn [map app length] in E. rewrite E. cbn [bind]. destruct out as [[[buf' n1] s1]|[[[[buf' n1] bytes] pos] s1]].
        - destruct O as [_ [[k K]|O]]; [congruence|cbn [length] in O; lia].
        - destruct O as [l [r' [O1 [O2 [O3 [O4 [O5 [O6 [O7 O8]]]]]]]]]. cbn [app] in *. subst bytes pos.
          assert (Q : err s1 || (eof s1 && (length l =? 0)) = true -> s1 = Stream [] (bad s) (if bad s then eof s else true) (bad s) /\ ~ In LF (rest s)).
          { intros Q. destruct O8 as [[l0 [X1 [X2 [X3 X4]]]]|[X1 [X2 [X3 X4]]]].
            - rewrite X4, ER, X1, app_length in Q. cbn [length orb] in Q. replace (length l0 + 1 =? 0) with false in Q by (symmetry; apply Nat.eqb_neq; lia).
              rewrite andb_false_r in Q. discriminate.
            - rewrite O1, X2, app_nil_r. split; [|exact X1]. destruct s1 as [r1 b1 e1 er1]. cbn [rest bad eof err] in *. subst. rewrite ER. destruct (bad s); reflexivity. }
          destruct (err s1 || (eof s1 && (length l =? 0))).
          + intros X. injection X as <- <- <- <-. apply Q. reflexivity.
          + rewrite aset_Ok by lia. cbn [bind]. intros X. injection X as _ _ _ X. lia. }
      destruct buff as [b|].
      - specialize (V b eq_refl). destruct (Nat.ltb_spec size 4).
        + rewrite M. cbn [bind]. apply MAIN; [apply Nat.leb_le; vm_compute; reflexivity|]. rewrite length_arealloc. lia.
        + cbn [bind]. apply MAIN; lia.
      - rewrite M. cbn [bind]. apply MAIN; [apply Nat.leb_le; vm_compute; reflexivity|]. rewrite length_arealloc. lia. }
    destruct H as [[-> H]|[l [b [H1 [H2 [H3 [H4 [H5 [-> [-> [H6 H7]]]]]]]]]]].
    - right. right. destruct (ST eq_refl) as [-> N]. split; [exact N|]. split; [|exists lp, n'; split; [exact E|exact V']].
      destruct H as [[k K]|[H|[[_ [H|H]]|[H _]]]]; [congruence|lia|congruence|auto|auto].
    - specialize (V' b eq_refl). destruct H7 as [[l0 [-> [N2 N3]]]|[N1 [N2 [N3 N4]]]].
      + left. exists l0, (rest s'). rewrite <- app_assoc in H1. split; [exact H1|]. split; [exact N2|]. exists b, n'.
        rewrite app_length in *. cbn [length] in *. replace (length l0 + 1) with (S (length l0)) in * by lia.
        split; [|split; [exact V'|exact H6]]. rewrite E. destruct s' as [r1 b1 e1 er1]. cbn [rest bad eof err] in *. subst. reflexivity.
      + right. left. rewrite N2, app_nil_r in H1. rewrite H1. split; [exact N1|]. split; [exact H2|]. split; [exact N3|].
        exists b, n'. split; [|split; [exact V'|exact H6]]. rewrite E. destruct s' as [r1 b1 e1 er1]. cbn [rest bad eof err] in *. subst. rewrite N3. reflexivity.
  Qed.

  (** one call of CfReadLine that does not fail for lack of memory *)
  Lemma CfReadLine_spec buff size s : (forall k, mem k = true) -> (N.of_nat (length (rest s)) < smax)%N -> err s = false -> buffer_ok buff size ->
    (exists l t, rest s = l ++ LF :: t /\ ~ In LF l /\
       exists b n', CfReadLine mem smax buff size s = Ok (Some b, n', Stream t (bad s) (eof s) false, Z.of_nat (length l)) /\
         n' <= length b /\ firstn (S (length l)) b = map Some l ++ [Some NUL]) \/
    (~ In LF (rest s) /\ rest s <> [] /\ bad s = false /\
       exists b n', CfReadLine mem smax buff size s = Ok (Some b, n', Stream [] false true false, Z.of_nat (length (rest s))) /\
         n' <= length b /\ firstn (S (length (rest s))) b = map Some (rest s) ++ [Some NUL]) \/
    (~ In LF (rest s) /\ (rest s = [] \/ bad s = true) /\
       exists lp n', CfReadLine mem smax buff size s = Ok (lp, n', Stream [] (bad s) (if bad s then eof s else true) (bad s), (-1)%Z) /\ buffer_ok lp n').
  Proof.
    intros M SM ER V. unfold CfReadLine.
    destruct (@getline_exact buff size s M SM ER V) as [[l [t [H1 [H2 [b [n' [E [H3 H4]]]]]]]]|[[H1 [H2 [H3 [b [n' [E [H4 H5]]]]]]]|[H1 [H2 [lp [n' [E H3]]]]]]]; rewrite E; cbn [bind].
    - left. exists l, t. split; [exact H1|]. split; [exact H2|].
      replace (Z.of_nat (S (length l)) =? 0)%Z with false by (symmetry; apply Z.eqb_neq; lia). cbn [negb massert].
      replace (0 <? Z.of_nat (S (length l)))%Z with true by (symmetry; apply Z.ltb_lt; lia).
      replace (Z.to_nat (Z.of_nat (S (length l)) - 1)) with (length l) by lia.
      assert (B : exists r, b = map Some l ++ Some LF :: Some NUL :: r).
      { exists (skipn (S (S (length l))) b). rewrite <- (firstn_skipn (S (S (length l))) b) at 1. rewrite H4, map_app, <- !app_assoc. reflexivity. }
      destruct B as [r ->]. 
      assert (AG : aget (map Some l ++ Some LF :: Some NUL :: r) (length l) = Ok LF) by (rewrite <- (map_length (@Some byte) l); apply aget_at).
      rewrite AG. cbn [bind]. change (ascii_of_nat 10) with LF. rewrite (proj2 (beq_true LF LF) eq_refl).
      rewrite aset_Ok by (rewrite app_length, map_length; cbn; lia). cbn [bind]. rewrite upd_map_snoc.
      eexists _, n'. split; [f_equal; f_equal; lia|]. split; [rewrite app_length in *; cbn [length] in *; lia|].
      rewrite firstn_app_ge by (rewrite map_length; lia). rewrite map_length. replace (S (length l) - length l) with 1 by lia. reflexivity.
    - right. left. split; [exact H1|]. split; [exact H2|]. split; [exact H3|].
      assert (L : 0 < length (rest s)) by (destruct (rest s); [congruence|cbn; lia]).
      replace (Z.of_nat (length (rest s)) =? 0)%Z with false by (symmetry; apply Z.eqb_neq; lia). cbn [negb massert].
      replace (0 <? Z.of_nat (length (rest s)))%Z with true by (symmetry; apply Z.ltb_lt; lia).
      replace (Z.to_nat (Z.of_nat (length (rest s)) - 1)) with (length (rest s) - 1) by lia.
      destruct (exists_last H2) as [u [c EQ]].
      assert (B : exists r, b = map Some u ++ Some c :: Some NUL :: r).
      { exists (skipn (S (length (rest s))) b). rewrite <- (firstn_skipn (S (length (rest s))) b) at 1. rewrite H5, EQ, map_app, <- !app_assoc. reflexivity. }
      destruct B as [r B].
      assert (AG : aget b (length (rest s) - 1) = Ok c).
      { rewrite B, EQ, app_length. cbn [length]. replace (length u + 1 - 1) with (length (map (@Some byte) u)) by (rewrite map_length; lia). apply aget_at. }
      rewrite AG. cbn [bind]. destruct (beq_spec c (ascii_of_nat 10)) as [C|C].
      + exfalso. apply H1. rewrite EQ. apply in_or_app. right. left. exact C.
      + exists b, n'. split; [reflexivity|]. split; [exact H4|exact H5].
    - right. right. split; [exact H1|]. split; [exact H2|]. exists lp, n'. cbn. split; [reflexivity|exact H3].
  Qed.
End Read.
