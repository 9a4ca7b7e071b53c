(** inet_ntop6: the text. *)
From Verif Require Import Prelude PreludeFacts Str StrFacts Libc LibcFacts MemSpec IpModel IpSpec InetModel InetSpec InetProofs InetProofs2 InetProofs5 InetProofs6 EditProofs PropsIp6.
Set Implicit Arguments.
Local Open Scope N_scope.

Definition inside (best : run) (i : nat) : bool := match best with Some (b, l) => (b <=? i)%nat && (i <? b + l)%nat | None => false end.
Definition begins (best : run) (i : nat) : bool := match best with Some (b, _) => (i =? b)%nat | None => false end.
Definition embedded (best : run) (w5 : N) (i : nat) : bool :=
  (i =? 6)%nat && match best with Some (b, l) => (b =? 0)%nat && ((l =? 6)%nat || (l =? 5)%nat && (w5 =? 65535)) | None => false end.
(** the dotted quad of the last two words *)
Definition last_dots (ws : list N) : list byte := let x := nth 6 ws 0 in let y := nth 7 ws 0 in dots (x / 256) (x mod 256) (y / 256) (y mod 256).
(** the text of the words from the [i]-th on *)
Fixpoint ftext (k i : nat) (ws : list N) (best : run) : list byte :=
  match k with
  | O => []
  | S k =>
      if inside best i then (if begins best i then lit ":" else []) ++ ftext k (S i) ws best
      else (if negb (i =? 0)%nat then lit ":" else []) ++
           (if embedded best (nth 5 ws 0) i then last_dots ws else uhex (nth i ws 0) ++ ftext k (S i) ws best)
  end.
(** how long the text up to the [i]-th word can be *)
Definition bound (best : run) (i : nat) : nat :=
  match best with Some (b, l) => (5 * (i - (Nat.min i (b + l) - Nat.min i b)) + (if b <? i then 1 else 0))%nat | None => (5 * i)%nat end.

Lemma nget_nth (l : list N) i : (i < length l)%nat -> nget l i = Ok (nth i l 0).
Proof. intros L. unfold nget. rewrite (nth_error_nth' l 0 L). reflexivity. Qed.

Section Format.
  Variables (ws : list N) (more : list N) (best : run).
  Hypothesis L8 : length ws = 8%nat.
  Hypothesis WS : Forall (fun v => v <= 65535) ws.
  Hypothesis BR : match best with Some (b, l) => (b + l <= 8 /\ 2 <= l)%nat | None => True end.

  Lemma word_small i : nth i ws 0 <= 65535.
  Proof. destruct (nth_in_or_default i ws 0) as [H| ->]; [|lia]. rewrite Forall_forall in WS. now apply WS. Qed.
  Lemma last_bytes : exists m, skipn 12 (bytes_of ws ++ more) = nth 6 ws 0 / 256 :: nth 6 ws 0 mod 256 :: nth 7 ws 0 / 256 :: nth 7 ws 0 mod 256 :: m.
  Proof. destruct ws as [|a [|b [|c [|d [|e [|f [|g [|h [|]]]]]]]]]; try discriminate L8. eexists. reflexivity. Qed.

  Lemma format_spec k : forall i done (r : cells byte), (k + i = 8)%nat -> (length done + length r = 46)%nat -> (length done <= bound best i)%nat ->
    exists r', format_loop k i (bytes_of ws ++ more) ws best (map Some done ++ r) (length done) =
      Ok (Some (map Some (done ++ ftext k i ws best) ++ r', length (done ++ ftext k i ws best))) /\
      (length (done ++ ftext k i ws best) + length r' = 46)%nat /\ (length (done ++ ftext k i ws best) <= 44)%nat.
  Proof.
    induction k as [|k IH]; intros i done r K LR LB.
    - cbn [format_loop ftext]. rewrite app_nil_r. exists r. split; [reflexivity|]. split; [exact LR|].
      assert (i = 8)%nat as -> by lia. clear - LB BR. unfold bound in LB. destruct best as [[b l]|]; [|lia]. destruct (Nat.ltb_spec b 8); lia.
    - cbn [format_loop ftext]. fold (inside best i).
      assert (B1 : (bound best i <= 37)%nat). { clear - K BR. unfold bound. destruct best as [[b l]|]; [|lia]. destruct (Nat.ltb_spec b i); lia. }
      destruct (inside best i) eqn:IN.
      + fold (begins best i). destruct (begins best i) eqn:BG.
        * rewrite write_at by lia. cbn [bind]. replace (S (length done)) with (length (done ++ lit ":")) by (rewrite app_length; cbn; lia).
          change (done ++ [":"%char]) with (done ++ lit ":").
          destruct (IH (S i) (done ++ lit ":") (skipn 1 r)) as (r' & E & L1 & L2); [lia|rewrite app_length, skipn_length; cbn [length lit String.list_ascii_of_string]; lia| |].
          { rewrite app_length. change (length (lit ":")) with 1%nat. clear - IN BG LB BR. unfold inside, begins, bound in *. destruct best as [[b l]|]; [|discriminate]. apply Nat.eqb_eq in BG. subst i.
            rewrite Nat.ltb_irrefl in LB. destruct (Nat.ltb_spec b (S b)); lia. }
          exists r'. rewrite <- app_assoc in *. auto.
        * cbn [bind app]. destruct (IH (S i) done r) as (r' & E & L1 & L2); [lia|exact LR| |exists r'; auto].
          clear - IN BG LB BR. unfold inside, begins, bound in *. destruct best as [[b l]|]; [|discriminate]. apply Nat.eqb_neq in BG. apply andb_true_iff in IN as [I1 I2]. apply Nat.leb_le in I1. apply Nat.ltb_lt in I2.
          destruct (Nat.ltb_spec b i); destruct (Nat.ltb_spec b (S i)); lia.
      + (* a word *)
        assert (COL : exists done1 r1, (if negb (i =? 0)%nat then let* tmp := aset (map Some done ++ r) (length done) ":"%char in Ok (tmp, S (length done)) else Ok (map Some done ++ r, length done)) = Ok (map Some done1 ++ r1, length done1) /\
                  done1 = done ++ (if negb (i =? 0)%nat then lit ":" else []) /\ (length done1 + length r1 = 46)%nat /\ (length done1 <= bound best i + (if i =? 0 then 0 else 1))%nat).
        { destruct (Nat.eqb_spec i 0) as [->|NI]; cbn [negb].
          - exists done, r. rewrite app_nil_r. rewrite Nat.add_0_r. auto.
          - rewrite write_at by lia. cbn [bind]. exists (done ++ lit ":"), (skipn 1 r). rewrite app_length. change (length (lit ":")) with 1%nat. rewrite Nat.add_1_r. split; [reflexivity|]. split; [reflexivity|]. rewrite skipn_length. split; lia. }
        destruct COL as (done1 & r1 & EC & D1 & LR1 & LB1).
        match type of EC with _ = ?R => match goal with |- context[bind ?A _] => replace A with R by (symmetry; exact EC) end end. cbn [bind]. rewrite nget_nth by lia. cbn [bind]. fold (embedded best (nth 5 ws 0) i).
        assert (LD1 : (length done1 <= 38)%nat) by (destruct (i =? 0)%nat; lia).
        rewrite app_assoc, <- D1. destruct (embedded best (nth 5 ws 0) i) eqn:EM.
        * destruct last_bytes as [m LBY]. rewrite LBY. pose proof (word_small 6) as W6. pose proof (word_small 7) as W7.
          assert (Q1 : nth 6 ws 0 / 256 <= 255) by (apply N.lt_succ_r; apply N.div_lt_upper_bound; lia). assert (Q2 : nth 6 ws 0 mod 256 <= 255) by (apply N.lt_succ_r, N.mod_lt; lia).
          assert (Q3 : nth 7 ws 0 / 256 <= 255) by (apply N.lt_succ_r; apply N.div_lt_upper_bound; lia). assert (Q4 : nth 7 ws 0 mod 256 <= 255) by (apply N.lt_succ_r, N.mod_lt; lia).
          assert (SM : (length done1 <= 8)%nat).
          { clear - LB1 EM. unfold embedded in EM. apply andb_true_iff in EM as [I6 EM]. apply Nat.eqb_eq in I6. subst i. unfold bound in LB1. destruct best as [[b l]|]; [|discriminate]. apply andb_true_iff in EM as [B0 EM].
            apply Nat.eqb_eq in B0. subst b. assert (l = 6 \/ l = 5)%nat as [->| ->]; [|cbn in LB1; lia|cbn in LB1; lia].
            apply orb_true_iff in EM as [EM|EM]; [left; now apply Nat.eqb_eq|]. apply andb_true_iff in EM as [EM _]. right. now apply Nat.eqb_eq. }
          destruct (dots_quad Q1 Q2 Q3 Q4) as (_ & DL & DC).
          rewrite (@ntop4_spec _ _ _ _ m done1 r1 (length done1) (46 - length done1) Q1 Q2 Q3 Q4 eq_refl) by lia. cbn [bind]. fold (last_dots ws). change (dots (nth 6 ws 0 / 256) (nth 6 ws 0 mod 256) (nth 7 ws 0 / 256) (nth 7 ws 0 mod 256)) with (last_dots ws) in *.
          destruct (Nat.leb_spec (46 - length done1) (length (last_dots ws))) as [C|_]; [lia|].
          replace (skipn (length done1) (map Some (done1 ++ last_dots ws) ++ Some NUL :: skipn (S (length (last_dots ws))) r1)) with (map Some (last_dots ws) ++ Some NUL :: skipn (S (length (last_dots ws))) r1).
          2:{ rewrite map_app, <- app_assoc, skipn_app_ge by (rewrite map_length; lia). rewrite map_length, Nat.sub_diag. reflexivity. }
          replace (mstr (map Some (last_dots ws) ++ Some NUL :: skipn (S (length (last_dots ws))) r1)) with (Ok (last_dots ws)) by (symmetry; apply mstr_holds; split; [exact DC|eexists; reflexivity]).
          cbn [bind]. exists (Some NUL :: skipn (S (length (last_dots ws))) r1). rewrite app_length. split; [reflexivity|]. cbn [length]. rewrite skipn_length. split; lia.
        * rewrite nget_nth by lia. cbn [bind]. destruct (uhex_short (word_small i)) as (_ & HL & _).
          destruct (@snprintf_at done1 (uhex (nth i ws 0)) r1 (length done1) 5 eq_refl) as (r2 & E2 & L2 & _); [lia|lia|]. rewrite E2. cbn [bind]. unfold massert.
          destruct (Nat.ltb_spec (length (uhex (nth i ws 0))) 5); [|lia]. rewrite <- app_length.
          destruct (IH (S i) (done1 ++ uhex (nth i ws 0)) (Some NUL :: r2)) as (r3 & E3 & L3 & L4); [lia|rewrite app_length; cbn [length]; lia| |].
          { rewrite app_length. clear - IN LB1 HL BR. unfold inside, bound in *. destruct best as [[b l]|]; [|destruct (i =? 0)%nat eqn:Z; [apply Nat.eqb_eq in Z; subst; lia|lia]].
            apply andb_false_iff in IN. rewrite Nat.leb_gt, Nat.ltb_ge in IN. destruct (Nat.ltb_spec b i); destruct (Nat.ltb_spec b (S i)); destruct (Nat.eqb_spec i 0); lia. }
          exists r3. rewrite <- app_assoc in *. auto.
  Qed.
  (** the whole text *)
  Definition ftext6 : list byte := ftext 8 0 ws best ++ (if match best with Some (b, l) => (b + l =? 8)%nat | None => false end then lit ":" else []).
  Lemma ntop6_spec (m : cells byte) size : best = best_run ws -> (size <= length m)%nat ->
    inet_ntop6 (bytes_of ws ++ more) m size = Ok (if (size <=? length ftext6)%nat then None else Some (map Some ftext6 ++ Some NUL :: skipn (S (length ftext6)) m)).
  Proof.
    intros BE LM. unfold inet_ntop6. rewrite words_loop_spec by auto. cbn [bind]. rewrite <- BE. destruct (@format_spec 8 0 [] (repeat None 46)) as (r & E & L1 & L2); [reflexivity|reflexivity|cbn; lia|].
    cbn [map app] in E. change (length (@nil byte)) with 0%nat in E. rewrite E. cbn [bind]. cbn [app] in L1, L2. unfold ftext6. set (t := ftext 8 0 ws best) in *.
    assert (COL : exists t1 r1, (if match best with Some (b, l) => (b + l =? 8)%nat | None => false end then let* tmp := aset (map Some t ++ r) (length t) ":"%char in Ok (tmp, S (length t)) else Ok (map Some t ++ r, length t)) = Ok (map Some t1 ++ r1, length t1) /\
                  t1 = t ++ (if match best with Some (b, l) => (b + l =? 8)%nat | None => false end then lit ":" else []) /\ (length t1 + length r1 = 46)%nat /\ (length t1 <= 45)%nat).
    { destruct (match best with Some (b, l) => (b + l =? 8)%nat | None => false end).
      - rewrite write_at by lia. cbn [bind]. exists (t ++ lit ":"), (skipn 1 r). rewrite app_length. change (length (lit ":")) with 1%nat. rewrite Nat.add_1_r. split; [reflexivity|]. split; [reflexivity|]. rewrite skipn_length. split; lia.
      - exists t, r. rewrite app_nil_r. split; [reflexivity|]. split; [reflexivity|]. split; lia. }
    destruct COL as (t1 & r1 & EC & <- & LR1 & LT1).
    match type of EC with _ = ?R => match goal with |- context[bind ?A _] => replace A with R by (symmetry; exact EC) end end. cbn [bind]. rewrite write_end by lia. cbn [bind].
    destruct (Nat.leb_spec size (length t1)) as [C|C]; destruct (Nat.ltb_spec size (S (length t1))) as [C'|C']; try lia; [reflexivity|].
    rewrite acopy_Ok; [|lia|rewrite app_length, map_length; cbn [length]; rewrite skipn_length; lia]. cbn [bind]. change (firstn 0 m) with (@nil (option byte)). cbn [app Nat.add]. change (skipn 0 (map Some t1 ++ Some NUL :: skipn 1 r1)) with (map Some t1 ++ Some NUL :: skipn 1 r1).
    replace (map Some t1 ++ Some NUL :: skipn 1 r1) with (block t1 ++ skipn 1 r1) by (unfold block; rewrite map_app, <- app_assoc; reflexivity).
    rewrite firstn_app_le by (rewrite length_block; lia). rewrite firstn_all2 by (rewrite length_block; lia). unfold block. rewrite map_app, <- app_assoc. reflexivity.
  Qed.
End Format.

(** ** the text is canonical *)
Lemma short_groups vs : Forall (fun v => v <= 65535) vs -> Forall2 short_group (map uhex vs) vs.
Proof. induction 1; constructor; auto. now apply uhex_short. Qed.
Lemma forall_firstn A (P : A -> Prop) n l : Forall P l -> Forall P (firstn n l).
Proof. revert l. induction n as [|n IH]; intros l F; [constructor|]. destruct F; cbn; constructor; auto. Qed.
Lemma forall_skipn A (P : A -> Prop) n l : Forall P l -> Forall P (skipn n l).
Proof. revert l. induction n as [|n IH]; intros l F; [exact F|]. destruct F; cbn; auto. Qed.
Lemma half_bytes x : x <= 65535 -> x / 256 <= 255 /\ x mod 256 <= 255.
Proof. intros L. split; apply N.lt_succ_r; [apply N.div_lt_upper_bound; lia|apply N.mod_lt; lia]. Qed.

Lemma ftext_canonical vs : length vs = 8%nat -> Forall (fun v => v <= 65535) vs -> canonical6 vs (ftext6 vs (best_run vs)).
Proof.
  intros L F. pose proof (best_run_spec vs L) as B. destruct (best_run vs) as [[b l]|].
  - pose proof B as (L2 & [LZ _] & _). rewrite L in LZ.
    assert (W6 : nth 6 vs 0 <= 65535) by (apply word_small; assumption). assert (W7 : nth 7 vs 0 <= 65535) by (apply word_small; assumption).
    destruct (half_bytes W6) as [A1 A2]. destruct (half_bytes W7) as [A3 A4]. destruct (dots_quad A1 A2 A3 A4) as (DQ & _).
    destruct (Nat.eq_dec b 0) as [B0|B0].
    + subst b. destruct (Nat.eq_dec l 6) as [L6|L6].
      * subst l. replace (ftext6 vs (Some (0, 6)%nat)) with (lit "::" ++ last_dots vs); [|unfold ftext6; cbn [ftext inside begins embedded Nat.leb Nat.ltb Nat.eqb Nat.add andb orb negb]; now rewrite app_nil_r].
        apply (@canonical_compatible vs _ (nth 6 vs 0) (nth 7 vs 0) B); [|exact DQ]. destruct vs as [|v0 [|v1 [|v2 [|v3 [|v4 [|v5 [|v6 [|v7 [|]]]]]]]]]; try discriminate L. reflexivity.
      * destruct (Nat.eq_dec l 5) as [L5|L5].
        -- subst l. destruct (N.eqb_spec (nth 5 vs 0) 65535) as [E5|E5].
           ++ replace (ftext6 vs (Some (0, 5)%nat)) with (lit "::ffff:" ++ last_dots vs).
              2:{ unfold ftext6. cbn [ftext inside begins embedded Nat.leb Nat.ltb Nat.eqb Nat.add andb orb negb]. rewrite E5. cbn [N.eqb Pos.eqb andb orb]. rewrite app_nil_r. reflexivity. }
              apply (@canonical_mapped vs _ (nth 6 vs 0) (nth 7 vs 0) B); [|exact DQ]. destruct vs as [|v0 [|v1 [|v2 [|v3 [|v4 [|v5 [|v6 [|v7 [|]]]]]]]]]; try discriminate L. cbn in E5 |- *. now rewrite E5.
           ++ apply N.eqb_neq in E5. replace (ftext6 vs (Some (0, 5)%nat)) with (compressed (map uhex (firstn 0 vs)) (map uhex (skipn (0 + 5) vs))).
              ** apply (canonical_run B); [lia| |apply short_groups, forall_firstn; exact F|apply short_groups, forall_skipn; exact F]. intros (_ & _ & K). apply N.eqb_neq in E5. contradiction.
              ** destruct vs as [|v0 [|v1 [|v2 [|v3 [|v4 [|v5 [|v6 [|v7 [|]]]]]]]]]; try discriminate L. cbn [nth] in E5. unfold ftext6.
                 cbn [ftext inside begins embedded Nat.leb Nat.ltb Nat.eqb Nat.add andb orb negb nth]. rewrite E5. cbn [orb andb]. unfold compressed, colons. cbn [firstn skipn map join app]. rewrite <- ?app_assoc, ?app_nil_r. reflexivity.
        -- replace (ftext6 vs (Some (0, l)%nat)) with (compressed (map uhex (firstn 0 vs)) (map uhex (skipn (0 + l) vs))).
           ++ apply (canonical_run B); [lia|lia|apply short_groups, forall_firstn; exact F|apply short_groups, forall_skipn; exact F].
           ++ clear - L L2 LZ L5 L6. destruct vs as [|v0 [|v1 [|v2 [|v3 [|v4 [|v5 [|v6 [|v7 [|]]]]]]]]]; try discriminate L.
              destruct l as [|[|[|[|[|[|[|[|[|l]]]]]]]]]; try lia; unfold ftext6, compressed, colons; cbn [ftext inside begins embedded Nat.leb Nat.ltb Nat.eqb Nat.add andb orb negb nth firstn skipn map join app]; unfold lit; cbn [String.list_ascii_of_string app]; repeat (rewrite <- app_assoc; cbn [app]); rewrite ?app_nil_r; reflexivity.
    + replace (ftext6 vs (Some (b, l)%nat)) with (compressed (map uhex (firstn b vs)) (map uhex (skipn (b + l) vs))).
      * apply (canonical_run B); [lia|lia|apply short_groups, forall_firstn; exact F|apply short_groups, forall_skipn; exact F].
      * clear - L L2 LZ B0. destruct vs as [|v0 [|v1 [|v2 [|v3 [|v4 [|v5 [|v6 [|v7 [|]]]]]]]]]; try discriminate L.
        destruct b as [|[|[|[|[|[|[|[|[|b]]]]]]]]]; try lia; destruct l as [|[|[|[|[|[|[|[|[|l]]]]]]]]]; try lia;
        unfold ftext6, compressed, colons; cbn [ftext inside begins embedded Nat.leb Nat.ltb Nat.eqb Nat.add andb orb negb nth firstn skipn map join app]; unfold lit; cbn [String.list_ascii_of_string app]; repeat (rewrite <- app_assoc; cbn [app]); rewrite ?app_nil_r; reflexivity.
  - replace (ftext6 vs None) with (colons (map uhex vs)); [apply canonical_all; [exact B|apply short_groups; exact F]|].
    destruct vs as [|v0 [|v1 [|v2 [|v3 [|v4 [|v5 [|v6 [|v7 [|]]]]]]]]]; try discriminate L. unfold ftext6, colons. cbn [ftext inside embedded Nat.eqb andb negb nth map join app]. rewrite ?andb_false_r. rewrite ?app_nil_r. reflexivity.
Qed.
