(** Proofs about EnvModel.v: ParseKeyValue. *)
From Verif Require Import Prelude PreludeFacts Str StrFacts Libc LibcFacts MemSpec EditModel JsonModel.
From Verif Require Import CompatModel CompatProofs CompatProofs2 PropsCompat EnvModel EnvProofs3.
Set Implicit Arguments.

(** the lines of a stream with their newlines; if reading fails at the end ([b]), what is
    behind the last newline is lost *)
Inductive raw_lines (b : bool) : list byte -> list (list byte) -> Prop :=
| rl_end : raw_lines b [] []
| rl_last l : b = false -> l <> [] -> ~ In LF l -> raw_lines b l [l]
| rl_cut l : b = true -> ~ In LF l -> raw_lines b l []
| rl_line l t ls : ~ In LF l -> raw_lines b t ls -> raw_lines b (l ++ LF :: t) ((l ++ [LF]) :: ls).
(** no line is longer than [k], not counting its newline *)
Definition lines_upto (k : nat) (s : list byte) : Prop := forall a l c, s = a ++ l ++ c -> ~ In LF l -> length l <= k.

Lemma raw_lines_exists b s : exists ls, raw_lines b s ls.
Proof.
  assert (G : forall k s, length s < k -> exists ls, raw_lines b s ls).
  { induction k as [|k IH]; intros x L; [lia|]. destruct (nodelim_dec [LF] x) as [H|[t [c [u [-> [A B]]]]]].
    - assert (N : ~ In LF x) by (intros I; apply (H LF I); left; reflexivity). destruct x as [|c x]; [exists []; constructor|].
      destruct b; [exists []; apply rl_cut; auto|exists [c :: x]; apply rl_last; auto; discriminate].
    - destruct B as [<-|[]]. destruct (IH u) as [ls H]; [rewrite app_length in L; cbn in L; lia|]. exists ((t ++ [LF]) :: ls). apply rl_line; [|exact H].
      intros I. apply (A LF I). left. reflexivity. }
  apply (G (S (length s))). lia.
Qed.

Lemma fgets_line : forall l k t b e er, ~ In LF l -> length l < k -> fgets_loop k (Stream (l ++ LF :: t) b e er) = (l ++ [LF], Stream t b e er, false).
Proof.
  induction l as [|c l IH]; intros k t b e er N L; (destruct k as [|k]; [cbn in L; lia|]); cbn [fgets_loop app getc rest bad eof err].
  - reflexivity.
  - destruct (beq_spec c (ascii_of_nat 10)) as [C|C]; [exfalso; apply N; left; exact C|]. rewrite IH; [reflexivity|intros I; apply N; right; exact I|cbn in L; lia].
Qed.
Lemma fgets_last : forall l k b e er, ~ In LF l -> length l < k ->
  fgets_loop k (Stream l b e er) = (l, Stream [] b (if b then e else true) (if b then true else er), true).
Proof.
  induction l as [|c l IH]; intros k b e er N L; (destruct k as [|k]; [cbn in L; lia|]); cbn [fgets_loop app getc rest bad eof err].
  - destruct b; reflexivity.
  - destruct (beq_spec c (ascii_of_nat 10)) as [C|C]; [exfalso; apply N; left; exact C|]. rewrite IH; [reflexivity|intros I; apply N; right; exact I|cbn in L; lia].
Qed.

Section KV.
  Variable St : Type.
  Variable callback : St -> list byte -> list byte -> St * bool.
  (** what calling the callback once per line means: the state at the end, and whether
      everything went well ([ok] at the end of the lines) *)
  Inductive kv_run (ok : bool) : St -> list (list byte) -> St -> bool -> Prop :=
  | kv_done st : kv_run ok st [] st ok
  | kv_malformed st l ls : ~ In ":"%char (upto_nul l) -> kv_run ok st (l :: ls) st false
  | kv_stop st l ls k v st' : upto_nul l = k ++ ":"%char :: v -> ~ In ":"%char k -> callback st k v = (st', false) -> kv_run ok st (l :: ls) st' false
  | kv_next st l ls k v st' st'' r : upto_nul l = k ++ ":"%char :: v -> ~ In ":"%char k -> callback st k v = (st', true) ->
      kv_run ok st' ls st'' r -> kv_run ok st (l :: ls) st'' r.

  Lemma kv_run_exists ok ls : forall st, exists st' r, kv_run ok st ls st' r.
  Proof.
    induction ls as [|l ls IH]; intros st; [exists st, ok; constructor|].
    destruct (in_dec ascii_dec ":"%char (upto_nul l)) as [I|I]; [|exists st, false; apply kv_malformed; exact I].
    assert (SP : exists k v, upto_nul l = k ++ ":"%char :: v /\ ~ In ":"%char k).
    { clear - I. induction (upto_nul l) as [|x u IH]; [destruct I|]. destruct (beq_spec x ":") as [-> | N]; [exists [], u; auto|].
      destruct IH as [k [r [-> NI]]]; [destruct I; [congruence|assumption]|]. exists (x :: k), r. split; [reflexivity|]. intros [E|E]; congruence || contradiction. }
    destruct SP as [k [v [E N]]]. destruct (callback st k v) as [st1 [|]] eqn:C.
    - destruct (IH st1) as [st' [r R]]. exists st', r. apply kv_next with k v st1; assumption.
    - exists st1, false. apply kv_stop with k v; assumption.
  Qed.

  Lemma strchr_colon k v : ~ In ":"%char k -> strchr (k ++ ":"%char :: v) ":" = Some (length k).
  Proof.
    induction k as [|c k IH]; intros N; [reflexivity|]. cbn [app strchr]. destruct (beq_spec c ":") as [-> | C]; [exfalso; apply N; left; reflexivity|].
    rewrite IH; [reflexivity|]. intros I. apply N. right. exact I.
  Qed.

  Lemma keyvalue_spec b : forall s ls, raw_lines b s ls -> lines_upto 1022 s -> forall fuel st st' r, length s < fuel -> kv_run (negb b) st ls st' r ->
    forall e, keyvalue_loop callback fuel (Stream s b e false) st = Ok (st', r).
  Proof.
    assert (K : 1022 < 1024 - 1) by (apply Nat.ltb_lt; vm_compute; reflexivity).
    assert (END : forall s fuel st e, 0 < fuel -> ~ In LF s -> s = [] \/ b = true -> length s <= 1022 ->
      keyvalue_loop callback fuel (Stream s b e false) st = Ok (st, negb b)).
    { intros s fuel st e F NI H L. destruct fuel as [|fuel]; [lia|]. cbn [keyvalue_loop]. unfold fgets.
      rewrite fgets_last by (auto; lia). cbn [bad andb].
      replace (match s with [] => true | _ => false end || b) with true; [|destruct H as [H | H]; [rewrite H; reflexivity|rewrite H; destruct s; reflexivity]].
      cbn [err]. destruct b; reflexivity. }
    (* one line *)
    assert (STEP : forall l ls fd fuel st st' r,
      (forall st1, kv_run (negb b) st1 ls st' r -> keyvalue_loop callback fuel fd st1 = Ok (st', r)) -> kv_run (negb b) st (l :: ls) st' r ->
      (let text := upto_nul l in
            match strchr text ":" with
            | None => Ok (st, false)
            | Some s =>
                let ' (st, b) := callback st (firstn s text) (skipn (S s) text) in
                if b then keyvalue_loop callback fuel fd st else Ok (st, false)
            end) = Ok (st', r)).
    { intros l ls fd fuel st st' r H R. cbv zeta.
      assert (SP : forall k v : list byte, firstn (length k) (k ++ ":"%char :: v) = k /\ skipn (S (length k)) (k ++ ":"%char :: v) = v).
      { intros k v. rewrite firstn_app_le by lia. rewrite firstn_all. split; [reflexivity|]. rewrite skipn_app_ge by lia. replace (S (length k) - length k) with 1 by lia. reflexivity. }
      inversion R as [|? ? ? N|? ? ? k v ? E N C|? ? ? k v st1 ? ? E N C R']; subst.
      - assert (X := @strchr_cases (upto_nul l) ":"%char (upto_nul_is_cstr l)). destruct (strchr (upto_nul l) ":"); [|reflexivity].
        destruct X as [a [t [E _]]]; [discriminate|]. exfalso. apply N. rewrite E. apply in_or_app. right. left. reflexivity.
      - rewrite E, strchr_colon by exact N. destruct (SP k v) as [-> ->]. rewrite C. reflexivity.
      - rewrite E, strchr_colon by exact N. destruct (SP k v) as [-> ->]. rewrite C. apply H. exact R'. }
    intros s ls RL. induction RL as [|l B NE N|l B N|l t ls N RL IH]; intros SH fuel st st' r F R e.
    - inversion R. subst. apply END; auto; cbn; lia.
    - subst b. destruct fuel as [|fuel]; [lia|]. cbn [keyvalue_loop]. unfold fgets.
      assert (LL : length l <= 1022) by (apply (SH [] l []); [rewrite app_nil_r; reflexivity|exact N]).
      rewrite fgets_last by (auto; lia). cbn [bad andb]. destruct l as [|c l]; [congruence|]. cbn [orb].
      apply STEP with (ls := @nil (list byte)); [|exact R]. intros st1 R1. inversion R1. subst. apply END; auto; cbn in *; lia.
    - inversion R. subst. assert (LL : length l <= 1022) by (apply (SH [] l []); [rewrite app_nil_r; reflexivity|exact N]). apply END; auto; lia.
    - destruct fuel as [|fuel]; [lia|]. cbn [keyvalue_loop]. unfold fgets.
      assert (LL : length l <= 1022) by (apply (SH [] l (LF :: t)); [reflexivity|exact N]).
      rewrite fgets_line by (auto; lia). cbn [andb].
      apply STEP with (ls := ls); [|exact R]. intros st1 R1. apply IH; auto.
      + intros a x c E NI. apply (SH ((l ++ [LF]) ++ a) x c); [|exact NI]. rewrite E, <- !app_assoc. reflexivity.
      + rewrite app_length in F. cbn in F. lia.
  Qed.
End KV.
