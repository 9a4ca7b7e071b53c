(** Proofs about PcreModel.v: the searching loop and the copying loops. *)
From Verif Require Import Prelude PreludeFacts Str StrFacts Libc LibcFacts MemSpec CompatProofs EnvProofs PcreModel PcreSpec PcreProofs PcreProofs2 PcreProofs3.
Set Implicit Arguments.

Lemma put_spec (done x : list byte) (r src : cells byte) from n : n = length x -> n <= length r -> from + n <= length src ->
  firstn n (skipn from src) = map Some x ->
  put (map Some done ++ r) (length done) src (Z.of_nat from) (Z.of_nat n) = Ok (map Some (done ++ x) ++ skipn n r, length (done ++ x)).
Proof.
  intros L1 L2 L3 E. unfold put. replace ((0 <=? Z.of_nat from)%Z && (0 <=? Z.of_nat n)%Z) with true by lia. rewrite !Nat2Z.id.
  rewrite acopy_Ok by (rewrite ?app_length, ?map_length; lia). cbn [bind]. rewrite E.
  rewrite firstn_app_le by (rewrite map_length; lia). rewrite firstn_all2 by (rewrite map_length; lia).
  rewrite skipn_app_ge by (rewrite map_length; lia). rewrite map_length.
  replace (length done + n - length done) with n by lia. rewrite map_app, <- app_assoc, app_length, L1. reflexivity.
Qed.

Section Exec.
  Variable subject : list byte.
  Hypothesis SMI : (Z.of_nat (length subject) <= INT_MAX)%Z.
  Let SML : (Z.of_nat (length subject) < SIZE_MOD)%Z.
  Proof. unfold INT_MAX, SIZE_MOD in *. lia. Qed.
  Notation len := (length subject).
  Variables (s : substitute) (bs : blocks) (cur : list byte).
  Hypothesis RDY : ready s bs cur.
  Notation items := (items_of bs cur).

  Lemma slice_cells a b : a <= b -> b <= len -> firstn (b - a) (skipn a (map Some subject)) = map Some (slice subject a b).
  Proof. intros. unfold slice. rewrite <- firstn_map, <- skipn_map. reflexivity. Qed.

  Lemma segments_spec m : Forall (pair_ok len) m -> forall f i (done : list byte) r, i <= length bs -> S (length bs) - i < f ->
    length (flat_map (fun b => fst b ++ group subject (groups_of m) (snd b)) (skipn i bs) ++ cur) <= length r ->
    segments_loop f s (map Some subject) m i (map Some done ++ r) (length done) =
      Ok (map Some (done ++ flat_map (fun b => fst b ++ group subject (groups_of m) (snd b)) (skipn i bs) ++ cur)
            ++ skipn (length (flat_map (fun b => fst b ++ group subject (groups_of m) (snd b)) (skipn i bs) ++ cur)) r,
          length (done ++ flat_map (fun b => fst b ++ group subject (groups_of m) (snd b)) (skipn i bs) ++ cur)).
  Proof.
    intros PM f. induction f as [|f IH]; intros i done r LI F LR; [lia|]. cbn [segments_loop].
    assert (BR : backrefs s = length bs) by apply RDY. rewrite BR. replace (i <=? length bs) with true by lia.
    assert (CASE : i = length bs \/ i < length bs) by lia. destruct CASE as [-> | LT].
    - destruct (ready_last RDY) as [E1 [E2 [E3 E4]]]. rewrite E1. cbn [bind]. rewrite E2. cbn [bind].
      rewrite skipn_all2 in LR |- * by lia. cbn [flat_map app] in LR |- *.
      rewrite (@put_spec done cur) by (auto; lia). cbn [bind]. rewrite Nat.eqb_refl.
      destruct f as [|f]; [lia|]. cbn [segments_loop]. rewrite BR. replace (S (length bs) <=? length bs) with false by lia. reflexivity.
    - destruct (nth_error bs i) as [[t n]|] eqn:E; [|apply nth_error_None in E; lia].
      destruct (@ready_block s bs cur i t n RDY E) as [E1 [E2 [E3 [NB [E4 E5]]]]]. rewrite E1. cbn [bind]. rewrite E2. cbn [bind].
      assert (SK : skipn i bs = (t, n) :: skipn (S i) bs).
      { rewrite (@skipn_cons_nth _ bs i (t, n)) by lia. f_equal. apply nth_error_nth, E. }
      rewrite SK in LR |- *. cbn [flat_map fst snd] in LR |- *. rewrite <- !app_assoc in LR. rewrite !app_length in LR.
      rewrite (@put_spec done t) by (auto; lia). cbn [bind]. replace (i =? length bs) with false by lia. rewrite E3. cbn [bind].
      assert (REST : forall r1 (x : list byte), x = group subject (groups_of m) n ->
        length (flat_map (fun b => fst b ++ group subject (groups_of m) (snd b)) (skipn (S i) bs) ++ cur) <= length r1 -> r1 = skipn (length t + length x) r ->
        segments_loop f s (map Some subject) m (S i) (map Some (done ++ t ++ x) ++ r1) (length (done ++ t ++ x)) =
        Ok (map Some (done ++ ((t ++ group subject (groups_of m) n) ++ flat_map (fun b => fst b ++ group subject (groups_of m) (snd b)) (skipn (S i) bs)) ++ cur)
            ++ skipn (length (((t ++ group subject (groups_of m) n) ++ flat_map (fun b => fst b ++ group subject (groups_of m) (snd b)) (skipn (S i) bs)) ++ cur)) r,
          length (done ++ ((t ++ group subject (groups_of m) n) ++ flat_map (fun b => fst b ++ group subject (groups_of m) (snd b)) (skipn (S i) bs)) ++ cur))).
      { intros r1 x -> L1 ->. rewrite IH by (auto; lia). rewrite skipn_skipn. rewrite <- !app_assoc. f_equal. f_equal. f_equal. f_equal. rewrite !app_length. lia. }
      assert (NIL : group subject (groups_of m) n = [] ->
        segments_loop f s (map Some subject) m (S i) (map Some (done ++ t) ++ skipn (length t) r) (length (done ++ t)) =
        Ok (map Some (done ++ ((t ++ group subject (groups_of m) n) ++ flat_map (fun b => fst b ++ group subject (groups_of m) (snd b)) (skipn (S i) bs)) ++ cur)
            ++ skipn (length (((t ++ group subject (groups_of m) n) ++ flat_map (fun b => fst b ++ group subject (groups_of m) (snd b)) (skipn (S i) bs)) ++ cur)) r,
          length (done ++ ((t ++ group subject (groups_of m) n) ++ flat_map (fun b => fst b ++ group subject (groups_of m) (snd b)) (skipn (S i) bs)) ++ cur))).
      { intros G. assert (R := REST (skipn (length t) r) [] (eq_sym G)). rewrite app_nil_r, Nat.add_0_r in R. rewrite R; [reflexivity| |reflexivity].
        rewrite G in LR. rewrite app_length, skipn_length. cbn [length] in LR. lia. }
      assert (GT : group subject (groups_of m) n = match nth_error m (N.to_nat n) with Some p => pair_text subject p | None => [] end) by apply group_text.
      replace (Z.of_N n <? Z.of_nat (MAX_SUBMATCHES + 2))%Z with true by (unfold MAX_SUBMATCHES; lia). cbn [andb].
      destruct (Z.ltb_spec (Z.of_N n) (Z.of_nat (length m))) as [LM|LM].
      + replace (Z.to_nat (Z.of_N n)) with (N.to_nat n) by lia.
        destruct (nth_error m (N.to_nat n)) as [p|] eqn:EP; [|apply nth_error_None in EP; lia].
        assert (PO : pair_ok len p) by (rewrite Forall_forall in PM; apply PM; apply nth_error_In in EP; exact EP).
        rewrite (@pair_length subject SML p PO). destruct (Z.ltb_spec 0 (Z.of_nat (length (pair_text subject p)))) as [LP|LP].
        * destruct PO as [-> | [B1 B2]]; [cbn in LP; lia|].
          assert (PT : pair_text subject p = slice subject (Z.to_nat (fst p)) (Z.to_nat (snd p))).
          { unfold pair_text, pair_of. replace (fst p <? 0)%Z with false by lia. reflexivity. }
          assert (PL : length (pair_text subject p) = Z.to_nat (snd p) - Z.to_nat (fst p)) by (rewrite PT; apply slice_length; lia).
          unfold m_offset. replace (fst p) with (Z.of_nat (Z.to_nat (fst p))) by lia.
          rewrite (@put_spec (done ++ t) (pair_text subject p)).
          -- cbn [bind]. rewrite skipn_skipn, <- app_assoc. apply REST; [symmetry; exact GT| |f_equal; lia].
             rewrite app_length, skipn_length. rewrite GT in LR. lia.
          -- reflexivity.
          -- rewrite skipn_length. rewrite GT in LR. lia.
          -- rewrite map_length. lia.
          -- rewrite PL, PT. apply slice_cells; lia.
        * apply NIL. rewrite GT. destruct (pair_text subject p); [reflexivity|cbn [length] in LP; lia].
      + apply NIL. rewrite GT. destruct (nth_error m (N.to_nat n)) as [p|] eqn:EP; [|reflexivity].
        assert (N.to_nat n < length m) by (apply nth_error_Some; congruence). lia.
  Qed.

  (** matches one behind the other, the first not in front of [pos] *)
  Fixpoint chain (pos : nat) (ms : list match_) : Prop :=
    match ms with
    | [] => pos <= len
    | m :: r => exists a b m', m = (Z.of_nat a, Z.of_nat b) :: m' /\ pos <= a <= b /\ b <= len /\ length m <= 33 /\ Forall (pair_ok len) m /\ chain b r
    end.
  Lemma chain_mono p q ms : p <= q -> chain q ms -> chain p ms.
  Proof. intros L. destruct ms as [|m ms]; cbn; [lia|]. intros [a [b [m' [E [B H]]]]]. exists a, b, m'. split; [exact E|]. split; [lia|exact H]. Qed.
  Lemma whole_of a b m' : whole (groups_of ((Z.of_nat a, Z.of_nat b) :: m')) = (a, b).
  Proof. unfold whole, groups_of, pair_of. cbn [map fst snd]. replace (Z.of_nat a <? 0)%Z with false by lia. rewrite !Nat2Z.id. reflexivity. Qed.

  Lemma matches_spec : forall ms pos (done : list byte) r, chain pos ms ->
    length (replaced subject items pos (map groups_of ms)) <= length r ->
    exists x pos', matches_loop s (map Some subject) ms (Z.of_nat pos) (map Some done ++ r) (length done) =
        Ok (map Some (done ++ x) ++ skipn (length x) r, length (done ++ x), Z.of_nat pos') /\
      replaced subject items pos (map groups_of ms) = x ++ skipn pos' subject /\ pos' <= len.
  Proof.
    induction ms as [|m ms IH]; intros pos done r C L.
    - exists [], pos. cbn in C |- *. rewrite app_nil_r. auto.
    - cbn [chain] in C. destruct C as [a [b [m' [-> [B1 [B2 [_ [PM C]]]]]]]]. cbn [map replaced] in L |- *. rewrite whole_of in L |- *. cbn [fst snd] in L |- *.
      set (m := (Z.of_nat a, Z.of_nat b) :: m') in *. rewrite !app_length in L.
      change (matches_loop s (map Some subject) (m :: ms)) with (matches_loop s (map Some subject) (((Z.of_nat a, Z.of_nat b) :: m') :: ms)). cbn [matches_loop m_offset fst].
      assert (SL : length (slice subject pos a) = a - pos) by (apply slice_length; lia).
      replace (Z.of_nat a - Z.of_nat pos)%Z with (Z.of_nat (a - pos)) by lia.
      rewrite (@put_spec done (slice subject pos a)); [|lia|lia|rewrite map_length; lia|apply slice_cells; lia]. cbn [bind].
      fold m. pose proof (expand_items subject bs cur (groups_of m)) as EX.
      assert (BR : backrefs s = length bs) by apply RDY. rewrite BR.
      assert (LS : length (expand subject items (groups_of m)) <= length (skipn (a - pos) r)) by (rewrite skipn_length; lia).
      rewrite EX in LS.
      rewrite (@segments_spec m PM (S (S (length bs))) 0 (done ++ slice subject pos a)) by (cbn [skipn]; try lia; exact LS). cbn [skipn]. rewrite <- EX. cbn [bind].
      assert (ML : m_length (Z.of_nat a, Z.of_nat b) = Z.of_nat (b - a)).
      { unfold m_length. cbn [fst snd]. rewrite usz_small by (split; lia). lia. }
      rewrite ML. replace (Z.of_nat a + Z.of_nat (b - a))%Z with (Z.of_nat b) by lia.
      destruct (IH b ((done ++ slice subject pos a) ++ expand subject items (groups_of m)) (skipn (length (expand subject items (groups_of m))) (skipn (a - pos) r)) C) as [x [pos' [E [RP LP]]]].
      { rewrite !skipn_length. lia. }
      rewrite E, RP. exists (slice subject pos a ++ expand subject items (groups_of m) ++ x), pos'. rewrite !skipn_skipn, <- !app_assoc. split; [|auto].
      f_equal. f_equal. f_equal. f_equal. f_equal. rewrite !app_length, SL. lia.
  Qed.

  (** by how much the replacements change the length *)
  Fixpoint delta (ms : list groups) : Z :=
    match ms with [] => 0%Z | m :: r => (Z.of_nat (length (expand subject items m)) - Z.of_nat (snd (whole m) - fst (whole m)) + delta r)%Z end.
  Lemma replaced_length : forall ms pos, chain pos ms ->
    Z.of_nat (length (replaced subject items pos (map groups_of ms))) = (Z.of_nat (len - pos) + delta (map groups_of ms))%Z.
  Proof.
    induction ms as [|m ms IH]; intros pos C; cbn [map replaced delta].
    - rewrite skipn_length. lia.
    - destruct C as [a [b [m' [-> [B1 [B2 [_ [PM C]]]]]]]]. rewrite whole_of. cbn [fst snd]. rewrite !app_length, slice_length by lia.
      pose proof (IH _ C). lia.
  Qed.

  Variable p : pcre.
  Variable fl : N.
  Hypothesis OK : oracle_ok p subject.
  Hypothesis EMPTY : N.testbit fl 0 = true -> empty_at_start p subject.
  Notation j := (mkJob p fl s).
  Notation global := (N.testbit fl 0).

  Lemma one_match_size g a b r z : g = (Z.of_nat a, Z.of_nat b) :: r -> length g <= 33 -> Forall (pair_ok len) g -> a <= b -> b <= len ->
    exists z1, submatch_sizes g 0 (backref_count s) (usz z) = Ok (usz z1) /\
      usz (usz (usz (usz z1 + (Z.of_nat (length (flat bs ++ cur)) - m_length (Z.of_nat a, Z.of_nat b))) + Z.of_nat a * 0) + (Z.of_nat len - Z.of_nat b) * 0) =
      usz (z + (Z.of_nat (length (expand subject items (groups_of g))) - Z.of_nat (b - a))).
  Proof.
    intros -> L F B1 B2. destruct (@sizes_spec subject SML s bs cur RDY _ 0 z F) as [z1 [E1 E2]]; [lia|]. exists z1. split; [exact E1|].
    rewrite !Z.mul_0_r, !Z.add_0_r. unfold m_length. cbn [fst snd]. rewrite (@usz_small (Z.of_nat b - Z.of_nat a)) by (split; lia).
    rewrite !usz_add_l. unfold usz. rewrite !Z.mod_mod by (unfold SIZE_MOD; lia). f_equal. rewrite expand_length, E2, (by_group_refs subject). lia.
  Qed.

  Lemma search_spec : forall f o acc z, o <= len -> S (len - o) < f ->
    (exists ms, search_loop f j subject o acc (usz z) = Ok (inr (acc ++ ms, usz (z + delta (map groups_of ms)))) /\
       matches (search_of p subject) global len o (map groups_of ms) /\ chain o ms) \/
    (exists code, search_loop f j subject o acc (usz z) = Ok (inl code) /\ search_fails (search_of p subject) global len o).
  Proof.
    induction f as [|f IH]; intros o acc z LO F; [lia|]. cbn [search_loop pattern PcreModel.subst flags].
    pose proof (OK LO) as OO. assert (SO : search_of p subject o = search_of p subject o) by reflexivity. unfold search_of at 2 in SO.
    destruct (pcre_exec p subject o) as [g| |c] eqn:EX.
    - destruct OO as [LG [PG [a [b [r [-> [B1 B2]]]]]]].
      replace (MAX_SUBMATCHES <? length ((Z.of_nat a, Z.of_nat b) :: r)) with false by (unfold MAX_SUBMATCHES; lia).
      destruct (@one_match_size _ a b r z eq_refl LG PG) as [z1 [E1 E2]]; [lia|lia|]. rewrite E1. cbn [bind].
      rewrite (ready_text RDY). cbn [bind]. rewrite !(ready_count RDY) by (unfold MAX_SUBMATCHES; lia). cbn [bind].
      rewrite !(ready_none RDY) by (unfold MAX_SUBMATCHES; lia). change (Z.of_nat 0) with 0%Z. rewrite E2.
      set (g := (Z.of_nat a, Z.of_nat b) :: r) in *.
      assert (WH : whole (groups_of g) = (a, b)) by apply whole_of.
      assert (CH : forall ms, chain b ms -> chain o (g :: ms)) by (intros ms C; exists a, b, r; unfold g in *; auto 10).
      assert (STEP : forall o' ms, b <= o' -> chain o' ms -> chain o (g :: ms)) by (intros o' ms B C; apply CH; apply (@chain_mono b o' ms B C)).
      assert (DL : forall ms, delta (map groups_of (g :: ms)) = (Z.of_nat (length (expand subject items (groups_of g))) - Z.of_nat (b - a) + delta (map groups_of ms))%Z).
      { intros ms. cbn [map delta]. rewrite WH. reflexivity. }
      destruct global eqn:GL; cbn [negb].
      + destruct (Z.eqb_spec (Z.of_nat b) (Z.of_nat o)) as [EO|NO].
        * assert (a = o /\ b = o) as [-> ->] by lia. destruct (Nat.ltb_spec o len) as [LT|GE].
          -- destruct (IH (S o) (acc ++ [g]) (z + (Z.of_nat (length (expand subject items (groups_of g))) - Z.of_nat (o - o)))%Z) as [[ms [E [M C]]]|[code [E M]]]; [lia|lia| |].
             ++ left. exists (g :: ms). split; [rewrite E, <- app_assoc, DL, Z.add_assoc; reflexivity|]. split; [|apply (STEP (S o)); auto].
                cbn [map]. apply ms_empty; rewrite ?WH; auto.
             ++ right. exists code. split; [exact E|]. eapply sf_empty; rewrite ?WH; eauto; rewrite ?WH; auto.
          -- left. exists [g]. split; [rewrite DL; cbn [map delta]; rewrite Z.add_0_r; reflexivity|]. split; [|apply (STEP o); auto; cbn; lia].
             cbn [map]. apply ms_empty_end; rewrite ?WH; auto; cbn; lia.
        * assert (NE : a < b).
          { destruct (Nat.eq_dec a b) as [->|]; [|lia]. exfalso. apply NO. apply (EMPTY eq_refl LO EX). }
          rewrite Nat2Z.id.
          destruct (IH b (acc ++ [g]) (z + (Z.of_nat (length (expand subject items (groups_of g))) - Z.of_nat (b - a)))%Z) as [[ms [E [M C]]]|[code [E M]]]; [lia|lia| |].
          -- left. exists (g :: ms). split; [rewrite E, <- app_assoc, DL, Z.add_assoc; reflexivity|]. split; [|apply (STEP b); auto].
             cbn [map]. apply ms_text; rewrite ?WH; auto.
          -- right. exists code. split; [exact E|]. eapply sf_text; rewrite ?WH; eauto; rewrite ?WH; auto.
      + left. exists [g]. split; [rewrite DL; cbn [map delta]; rewrite Z.add_0_r; reflexivity|]. split; [|apply (STEP b); auto; cbn; lia].
        cbn [map]. apply ms_one; auto.
    - destruct OO.
    - unfold PCRE_ERROR_NOMATCH in *. destruct (Z.eqb_spec c (-1)) as [->|NC].
      + left. exists []. cbn [map delta Z.ltb]. replace (-1 <? -1)%Z with false by lia. rewrite app_nil_r, Z.add_0_r. split; [reflexivity|]. split; [constructor; exact SO|exact LO].
      + right. exists c. replace (c <? -1)%Z with true by lia. split; [reflexivity|]. constructor. exact SO.
  Qed.

  (** the result of executing a job *)
  Lemma execute_spec :
    (exists ms, matches (search_of p subject) global len 0 (map groups_of ms) /\
       ((Z.of_nat (length (replaced subject items 0 (map groups_of ms))) < SIZE_MOD)%Z ->
        pcre_wrap_execute j subject = Ok (inr (map Some (replaced subject items 0 (map groups_of ms)) ++ [Some NUL],
          length (replaced subject items 0 (map groups_of ms)), length ms)))) \/
    (exists code, pcre_wrap_execute j subject = Ok (inl code) /\ search_fails (search_of p subject) global len 0).
  Proof.
    unfold pcre_wrap_execute. replace (INT_MAX <? Z.of_nat len)%Z with false by lia. replace (Z.of_nat len) with (usz (Z.of_nat len)) by (apply usz_small; lia).
    destruct (@search_spec (S (S len)) 0 [] (Z.of_nat len)) as [[ms [E [M C]]]|[code [E M]]]; [lia|lia| |].
    - left. exists ms. split; [exact M|]. intros B. rewrite E. cbn [bind app].
      pose proof (@replaced_length ms 0 C) as RL. rewrite Nat.sub_0_r in RL. rewrite <- RL. set (x := replaced subject items 0 (map groups_of ms)) in *.
      rewrite (@usz_small (Z.of_nat (length x))) by lia. rewrite Nat2Z.id.
      assert (A : aset (repeat None (length x + 1)) (length x) NUL = Ok (map Some (@nil byte) ++ repeat None (length x) ++ [Some NUL])).
      { rewrite repeat_app. cbn [repeat map app]. rewrite <- (repeat_length (@None byte) (length x)) at 2. apply aset_at. }
      rewrite A. cbn [bind PcreModel.subst].
      destruct (@matches_spec ms 0 [] (repeat None (length x) ++ [Some NUL]) C) as [y [pos' [E2 [RP LP]]]].
      { fold x. rewrite app_length, repeat_length. lia. }
      change (length []) with 0 in E2. change (Z.of_nat 0) with 0%Z in E2. rewrite E2. cbn [bind app].
      rewrite usz_small by lia. replace (Z.of_nat len - Z.of_nat pos')%Z with (Z.of_nat (len - pos')) by lia.
      fold x in RP. pose proof (f_equal (@length _) RP) as LX. rewrite app_length, skipn_length in LX.
      rewrite (@put_spec y (skipn pos' subject)).
      + cbn [bind]. rewrite <- RP, skipn_skipn. do 3 f_equal. f_equal. f_equal. rewrite skipn_app_ge by (rewrite repeat_length; lia).
        rewrite repeat_length. replace (len - pos' + length y - length x) with 0 by lia. reflexivity.
      + rewrite skipn_length. reflexivity.
      + rewrite skipn_length, app_length, repeat_length. lia.
      + rewrite map_length. lia.
      + rewrite skipn_map, firstn_all2; [reflexivity|]. rewrite map_length, skipn_length. lia.
    - right. exists code. rewrite E. cbn [bind]. auto.
  Qed.
End Exec.
