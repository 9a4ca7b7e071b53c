(** C142: ThreadLock, ThreadUnlock and ThreadWait. *)
From Verif Require Import Prelude MutexModel.
Set Implicit Arguments.
Local Open Scope Z_scope.

(** what the history (latest first) says: a thread holds the mutex from the return of ThreadLock or ThreadWait to its next call of
    ThreadUnlock or ThreadWait *)
Fixpoint holds (t : nat) (h : list event) : bool :=
  match h with
  | [] => false
  | Began u c _ :: h => if (u =? t)%nat then match c with Lock => holds t h | _ => false end else holds t h
  | Returned u c _ _ :: h => if (u =? t)%nat then match c with Unlock => false | _ => true end else holds t h
  | ClockSet :: h => holds t h
  end.
(** the latest call of a thread, when it began, and whether the thread held the mutex then *)
Fixpoint latest (t : nat) (h : list event) : option (call * Z * bool) :=
  match h with
  | [] => None
  | Began u c m :: h => if (u =? t)%nat then Some (c, m, holds t h) else latest t h
  | _ :: h => latest t h
  end.

Section Mutex.
  Variable errorcheck : bool.
  Variable now : Z.
  Notation reach := (reach errorcheck now).
  Notation step := (step errorcheck).

  Definition thread_ok (o : option nat) (h : list event) (t : nat) (p : phase) : Prop :=
    match p with
    | Out => holds t h = true <-> o = Some t
    | Called c => (exists m b, latest t h = Some (c, m, b) /\ (b = true <-> o = Some t)) /\ match c with Lock => holds t h = true <-> o = Some t | _ => holds t h = false end
    | Asleep n _ | Woken n _ => o <> Some t /\ holds t h = false /\ exists m, latest t h = Some (Wait n, m, true)
    end.
  Definition inv (s : st) : Prop :=
    (forall t, holds t (hist s) = true -> owner s = Some t) /\
    (over s = None -> forall t, thread_ok (owner s) (hist s) t (phases s t)) /\
    match over s with None => True | Some e => e = Exited 101 \/ (errorcheck = false /\ e = Undefined) end.

  Lemma after_ok c r : r <> 0 -> c <> Lock /\ c <> Unlock /\ r = ETIMEDOUT \/ after c r = Exit 101.
  Proof.
    intros N. destruct c as [| |n]; cbn [after]; unfold after_lock, after_unlock, after_wait; apply Z.eqb_neq in N; rewrite N; cbn [negb]; auto.
    destruct (Z.eqb_spec r ETIMEDOUT); auto. left. repeat split; congruence.
  Qed.
  Lemma after_0 c : after c 0 = Return 0.
  Proof. destruct c; reflexivity. Qed.

  (** other threads are not touched by an event of [t] if ownership does not change for them *)
  Lemma other_ok o o' t u p h e : u <> t -> (match e with Began v _ _ | Returned v _ _ _ => v = t | ClockSet => True end) ->
    (o = Some u <-> o' = Some u) -> thread_ok o h u p -> thread_ok o' (e :: h) u p.
  Proof.
    intros N E OO H. assert (X : holds u (e :: h) = holds u h /\ latest u (e :: h) = latest u h).
    { destruct e as [v c m|v c r m|]; cbn [holds latest]; try subst v; try (assert (Z : (t =? u)%nat = false) by (apply Nat.eqb_neq; congruence); rewrite Z); auto. }
    destruct X as [X Y]. destruct p as [|c|n d|n r]; cbn [thread_ok] in *; rewrite ?X, ?Y.
    - tauto.
    - destruct H as [(m & b & L & B) H]. split; [exists m, b; split; [exact L|tauto]|]. destruct c; tauto.
    - destruct H as (A & B & C). split; [tauto|auto].
    - destruct H as (A & B & C). split; [tauto|auto].
  Qed.
  Lemma same_ok o o' u p h : (o = Some u <-> o' = Some u) -> thread_ok o h u p -> thread_ok o' h u p.
  Proof.
    intros OO H. destruct p as [|c|n d|n r]; cbn [thread_ok] in *; try tauto.
    destruct H as [(m & b & L & B) H]. split; [exists m, b; split; [exact L|tauto]|]. destruct c; tauto.
  Qed.

  Lemma inv_reach s : reach s -> inv s.
  Proof.
    induction 1 as [|s s' R [H [T _]] ST]; [repeat split; cbn; try discriminate; auto|].
    assert (RET : forall t c o r, over s = None -> after c 0 = Return 0 -> after c r = Return r ->
      (c = Unlock -> r = 0 /\ owner s = Some t /\ o = None) -> (c <> Unlock -> owner s = None /\ o = Some t) -> phases s t <> Out ->
      inv (finish s t c o r)).
    { intros t c o r OV _ A U W _. unfold finish. rewrite A. specialize (T OV). unfold inv. cbn [hist owner over phases].
      assert (OT : forall u, u <> t -> (owner s = Some u <-> o = Some u)).
      { intros u N. destruct c as [| |n].
        - destruct (W ltac:(discriminate)) as [-> ->]. split; congruence.
        - destruct (U eq_refl) as (_ & -> & ->). split; congruence.
        - destruct (W ltac:(discriminate)) as [-> ->]. split; congruence. }
      split; [|split; [|exact Logic.I]].
      - intros u. cbn [holds]. destruct (Nat.eqb_spec t u) as [->|N].
        + destruct c; [intros _; apply (W ltac:(discriminate))|discriminate|intros _; apply (W ltac:(discriminate))].
        + intros X. apply OT; [congruence|]. now apply H.
      - intros _ u. unfold put. destruct (Nat.eqb_spec u t) as [->|N].
        + cbn [thread_ok holds]. rewrite Nat.eqb_refl. destruct c as [| |n].
          * destruct (W ltac:(discriminate)) as [_ ->]. tauto.
          * destruct (U eq_refl) as (_ & _ & ->). split; discriminate.
          * destruct (W ltac:(discriminate)) as [_ ->]. tauto.
        + apply (@other_ok (owner s) o t u (phases s u) (hist s) (Returned t c r (mono s))); auto. }
    assert (ERR : forall t c r, over s = None -> after c r = Exit 101 -> inv (finish s t c (owner s) r)).
    { intros t c r OV A. unfold finish. rewrite A. split; [exact H|]. split; [discriminate|]. cbn. auto. }
    inversion ST; subst; match goal with OV : over s = None |- _ => specialize (T OV) end; clear ST.
    - (* begin *) unfold inv. cbn [hist owner over phases]. pose proof (T t) as Tt. rewrite H1 in Tt. cbn [thread_ok] in Tt. split; [|split; [|exact Logic.I]].
      + intros u. cbn [holds]. destruct (Nat.eqb_spec t u) as [->|N]; [destruct c; try discriminate; apply H|apply H].
      + intros _ u. unfold put. destruct (Nat.eqb_spec u t) as [->|N].
        * cbn [thread_ok holds latest]. rewrite Nat.eqb_refl. split; [eexists _, _; split; [reflexivity|exact Tt]|destruct c; [exact Tt|reflexivity|reflexivity]].
        * apply (@other_ok (owner s) (owner s) t u (phases s u) (hist s) (Began t c (mono s))); auto. tauto.
    - apply RET; auto; try reflexivity; try congruence. 
    - apply ERR; auto. destruct (@after_ok Lock e H2) as [(X & _)|X]; congruence.
    - apply RET; auto; try reflexivity; try congruence.
    - apply ERR; auto. destruct (@after_ok Unlock e H2) as [(_ & X & _)|X]; congruence.
    - (* sleep *) unfold inv. cbn [hist owner over phases]. pose proof (T t) as Tt. rewrite H1 in Tt. cbn [thread_ok] in Tt. destruct Tt as [(m & b & L & B) HN].
      split; [|split; [|exact Logic.I]].
      + intros u X. pose proof (H u X). rewrite H2 in H3. injection H3 as ->. congruence.
      + intros _ u. unfold put. destruct (Nat.eqb_spec u t) as [->|N].
        * cbn [thread_ok]. split; [discriminate|]. split; [exact HN|]. exists m. rewrite L. replace b with true by (symmetry; tauto). reflexivity.
        * apply (@same_ok (owner s)); [|apply T]. rewrite H2. split; congruence.
    - apply ERR; auto. destruct (@after_ok (Wait timeout) e H2) as [(_ & _ & X)|X]; congruence.
    - (* wake *) unfold inv. cbn [hist owner over phases]. split; [exact H|split; [|exact Logic.I]]. intros _ u. unfold put. destruct (Nat.eqb_spec u t) as [->|N]; [|apply T].
      pose proof (T t) as Tt. rewrite H1 in Tt. exact Tt.
    - unfold inv. cbn [hist owner over phases]. split; [exact H|split; [|exact Logic.I]]. intros _ u. unfold put. destruct (Nat.eqb_spec u t) as [->|N]; [|apply T].
      pose proof (T t) as Tt. rewrite H1 in Tt. exact Tt.
    - (* relock *) destruct (Z.eq_dec r 0) as [->|NZ]; [apply RET; auto; try reflexivity; congruence|].
      destruct (@after_ok (Wait timeout) r NZ) as [(_ & _ & ->)|X].
      + apply RET; auto; try reflexivity; congruence.
      + unfold finish. rewrite X. unfold inv. cbn [hist owner over]. split; [|split; [discriminate|auto]]. intros u HU. exfalso. pose proof (H u HU). congruence.
    - unfold inv. cbn [hist owner over]. split; [exact H|]. split; [discriminate|auto].
    - unfold inv. cbn [hist owner over phases]. auto.
    - unfold inv. cbn [hist owner over phases]. split; [exact H|]. split; [|exact Logic.I]. intros _ u.
      pose proof (T u) as Tu. destruct (phases s u); exact Tu.
  Qed.

  (** the mutex excludes: at no time do two threads hold it *)
  Theorem C142_exclusion s t u : reach s -> holds t (hist s) = true -> holds u (hist s) = true -> t = u.
  Proof. intros R A B. destruct (inv_reach R) as [H _]. apply H in A. apply H in B. congruence. Qed.

  (** a call that returns was made by the rules: ThreadLock by a thread that did not hold the mutex, the others by the one that did;
      after any other call the process ends *)
  Definition returns_ok (h : list event) : Prop := forall l1 t c r m l2, h = l1 ++ Returned t c r m :: l2 ->
    exists m0, latest t l2 = Some (c, m0, match c with Lock => false | _ => true end) /\
    match c with Wait n => r = 0 \/ (r = ETIMEDOUT /\ n <> THREAD_BLOCK_INDEFINITELY) | _ => r = 0 end.
  Lemma returns_cons e h : returns_ok h -> (forall t c r m, e = Returned t c r m -> exists m0, latest t h = Some (c, m0, match c with Lock => false | _ => true end) /\
    match c with Wait n => r = 0 \/ (r = ETIMEDOUT /\ n <> THREAD_BLOCK_INDEFINITELY) | _ => r = 0 end) -> returns_ok (e :: h).
  Proof.
    intros H E [|x l1] t c r m l2 EQ; cbn [app] in EQ; injection EQ as -> ->; [now apply E with m|]. eapply H. reflexivity.
  Qed.
  Definition sleeping_ok (s : st) : Prop := forall t, match phases s t with
    | Asleep n d => (d = None <-> n = THREAD_BLOCK_INDEFINITELY) | Woken n r => r = 0 \/ (r = ETIMEDOUT /\ n <> THREAD_BLOCK_INDEFINITELY) | _ => True end.
  Lemma returns_reach s : reach s -> returns_ok (hist s) /\ sleeping_ok s.
  Proof.
    induction 1 as [|s s' R [RO SO] ST].
    - split; [|intros t; exact Logic.I]. intros l1 t c r m l2 E. destruct l1; discriminate.
    - destruct (inv_reach R) as (HO & T & _).
      assert (PUT : forall t p, match p with Asleep n d => (d = None <-> n = THREAD_BLOCK_INDEFINITELY) | Woken n r => r = 0 \/ (r = ETIMEDOUT /\ n <> THREAD_BLOCK_INDEFINITELY) | _ => True end ->
        forall u, match put (phases s) t p u with Asleep n d => (d = None <-> n = THREAD_BLOCK_INDEFINITELY) | Woken n r => r = 0 \/ (r = ETIMEDOUT /\ n <> THREAD_BLOCK_INDEFINITELY) | _ => True end).
      { intros t p P u. unfold put. destruct (u =? t)%nat; [exact P|apply SO]. }
      assert (FIN : forall t c o r, (after c r = Return r -> exists m0, latest t (hist s) = Some (c, m0, match c with Lock => false | _ => true end) /\
          match c with Wait n => r = 0 \/ (r = ETIMEDOUT /\ n <> THREAD_BLOCK_INDEFINITELY) | _ => r = 0 end) ->
          (after c r = Return r \/ after c r = Exit 101) -> returns_ok (hist (finish s t c o r)) /\ sleeping_ok (finish s t c o r)).
      { intros t c o r L [A|A]; unfold finish; rewrite A; cbn [hist]; (split; [|]).
        - apply returns_cons; [exact RO|]. intros t' c' r' m' E. injection E as <- <- <- <-. now apply L.
        - unfold sleeping_ok. cbn [phases]. apply PUT. exact Logic.I.
        - exact RO.
        - exact SO. }
      inversion ST; subst; match goal with OV : over s = None |- _ => specialize (T OV) end; clear ST.
      + split; [apply returns_cons; [exact RO|discriminate]|]. unfold sleeping_ok. cbn [phases]. now apply PUT.
      + apply FIN; [|left; reflexivity]. intros _. pose proof (T t) as Tt. rewrite H0 in Tt. cbn [thread_ok] in Tt. destruct Tt as [(m & b & L & B) _]. exists m.
        destruct b; [destruct B as [B _]; specialize (B eq_refl); congruence|]. auto.
      + destruct (@after_ok Lock e H1) as [(X & _)|X]; [congruence|]. apply FIN; [intros Y; congruence|auto].
      + apply FIN; [|left; reflexivity]. intros _. pose proof (T t) as Tt. rewrite H0 in Tt. cbn [thread_ok] in Tt. destruct Tt as [(m & b & L & B) _]. exists m.
        replace b with true in L by (symmetry; tauto). auto.
      + destruct (@after_ok Unlock e H1) as [(_ & X & _)|X]; [congruence|]. apply FIN; [intros Y; congruence|auto].
      + split; [exact RO|]. unfold sleeping_ok. cbn [phases]. apply PUT. unfold wait_until. destruct (Z.eqb_spec timeout THREAD_BLOCK_INDEFINITELY); split; congruence.
      + destruct (@after_ok (Wait timeout) e H1) as [(_ & _ & X)|X]; [congruence|]. apply FIN; [intros Y; congruence|auto].
      + split; [exact RO|]. unfold sleeping_ok. cbn [phases]. apply PUT. auto.
      + split; [exact RO|]. unfold sleeping_ok. cbn [phases]. apply PUT. right. split; [reflexivity|]. pose proof (SO t) as X. rewrite H0 in X. destruct X as [_ X]. intros ->. discriminate (X eq_refl).
      + pose proof (SO t) as X. rewrite H0 in X. pose proof (T t) as Tt. rewrite H0 in Tt. cbn [thread_ok] in Tt. destruct Tt as (_ & _ & m & L).
        apply FIN; [|destruct X as [->|[-> _]]; left; reflexivity]. intros _. exists m. auto.
      + split; [exact RO|exact SO].
      + split; [exact RO|exact SO].
      + split; [apply returns_cons; [exact RO|discriminate]|exact SO].
  Qed.
  Theorem C142_returns s l1 t c r m l2 : reach s -> hist s = l1 ++ Returned t c r m :: l2 ->
    exists m0, latest t l2 = Some (c, m0, match c with Lock => false | _ => true end) /\
    match c with Wait n => r = 0 \/ (r = ETIMEDOUT /\ n <> THREAD_BLOCK_INDEFINITELY) | _ => r = 0 end.
  Proof. intros R E. destruct (returns_reach R) as [H _]. eapply H. exact E. Qed.

  (** how the process may end: with status 101; an unlock or a wait with what the thread does not hold is undefined unless the mutex checks *)
  Theorem C142_ends s : reach s -> match over s with None => True | Some e => e = Exited 101 \/ (errorcheck = false /\ e = Undefined) end.
  Proof. intros R. apply (inv_reach R). Qed.
  (** and a failure of pthread does end it: it is never passed over *)
  Theorem C142_failure s t c e : e <> 0 -> (e = ETIMEDOUT -> c = Lock \/ c = Unlock) -> over (finish s t c (owner s) e) = Some (Exited 101) /\ hist (finish s t c (owner s) e) = hist s.
  Proof. intros N M. unfold finish. destruct (@after_ok c e N) as [(A & B & X)|X]; [destruct (M X); congruence|]. rewrite X. auto. Qed.

  (** a thread that asks for a mutex that nobody holds, or is about to give back, can get it *)
  Theorem C142_available s t : reach s -> over s = None -> phases s t = Called Lock ->
    (forall u, holds u (hist s) = false) -> (forall u, phases s u <> Called Unlock /\ forall n, phases s u <> Called (Wait n)) ->
    exists s', step s s' /\ holds t (hist s') = true.
  Proof.
    intros R OV P NH NC. destruct (inv_reach R) as (_ & T & _). specialize (T OV).
    assert (O : owner s = None).
    { destruct (owner s) as [u|] eqn:O; [|reflexivity]. exfalso. pose proof (T u) as Tu. specialize (NH u). destruct (NC u) as [N1 N2]. destruct (phases s u) as [|[| |n]|n d|n r] eqn:PU; cbn [thread_ok] in Tu; try (now apply (N2 n)); try congruence; try tauto.
      - destruct Tu as [_ Tu]. rewrite Tu in NH by reflexivity. discriminate.
      - destruct Tu as [_ [_ Tu]]. rewrite Tu in NH by reflexivity. discriminate. }
    exists (finish s t Lock (Some t) 0). split; [now apply S_lock|]. cbn. now rewrite Nat.eqb_refl.
  Qed.

  (** a wait does not time out early, as long as nobody sets the clock *)
  Definition timing (s : st) : Prop := ~ In ClockSet (hist s) ->
    real s - mono s = now /\
    forall t, match phases s t with
      | Called c => exists m b, latest t (hist s) = Some (c, m, b) /\ m <= mono s
      | Asleep n d => exists m b, latest t (hist s) = Some (Wait n, m, b) /\ match d with None => True | Some d => m + n <= d - now end
      | Woken n r => exists m b, latest t (hist s) = Some (Wait n, m, b) /\ (r = ETIMEDOUT -> m + n <= mono s)
      | Out => True end.
  Definition on_time (h : list event) : Prop := ~ In ClockSet h -> forall l1 t n m l2, h = l1 ++ Returned t (Wait n) ETIMEDOUT m :: l2 ->
    exists m0 b, latest t l2 = Some (Wait n, m0, b) /\ m0 + n <= m.
  Lemma latest_cons t u e h : u <> t -> match e with Began v _ _ | Returned v _ _ _ => v = t | ClockSet => True end -> latest u (e :: h) = latest u h.
  Proof. intros N E. destruct e as [v c m|v c r m|]; cbn [latest]; try subst v; auto. assert (Z : (t =? u)%nat = false) by (apply Nat.eqb_neq; congruence). now rewrite Z. Qed.
  Lemma timing_reach s : reach s -> on_time (hist s) /\ (over s = None -> timing s).
  Proof.
    induction 1 as [|s s' R [OT TM] ST].
    - split; [|intros _ _; cbn; split; [lia|auto]]. intros _ l1 t n m l2 E. destruct l1; discriminate.
    - assert (FIN : forall t c o r, over s = None -> (after c r = Return r \/ after c r = Exit 101) ->
        (r = ETIMEDOUT -> after c r = Return r -> forall n, c = Wait n -> ~ In ClockSet (hist s) -> exists m b, latest t (hist s) = Some (Wait n, m, b) /\ m + n <= mono s) ->
        on_time (hist (finish s t c o r)) /\ (over (finish s t c o r) = None -> timing (finish s t c o r))).
      { intros t c o r OV [A|A] TO; unfold finish; rewrite A; cbn [hist over]; [|split; [exact OT|discriminate]]. split.
        - intros NC [|x l1] t' n m l2 E; cbn [app] in E.
          + assert (X1 : t' = t) by congruence. assert (X2 : c = Wait n) by congruence. assert (X3 : r = ETIMEDOUT) by congruence. assert (X4 : m = mono s) by congruence. assert (X5 : l2 = hist s) by congruence.
            rewrite X1, X4, X5. apply (TO X3 A n X2). intros X. apply NC. now right.
          + injection E as _ E. eapply OT; [|exact E]. intros X. apply NC. now right.
        - intros _ NC. cbn [hist] in NC. assert (NC' : ~ In ClockSet (hist s)) by (intros X; apply NC; now right). destruct (TM OV NC') as [K P]. split; [exact K|].
          intros u. cbn [phases hist mono]. unfold put. destruct (Nat.eqb_spec u t) as [->|N]; [exact Logic.I|]. rewrite (@latest_cons t u) by auto. exact (P u). }
      inversion ST; subst; match goal with OV : over s = None |- _ => pose proof (TM OV) as TS end; clear ST.
      + split.
        * intros NC [|x l1] t' n m l2 E; [discriminate|]. injection E as _ E. eapply OT; [|exact E]. intros X. apply NC. now right.
        * intros _ NC. cbn [hist] in NC. assert (NC' : ~ In ClockSet (hist s)) by (intros X; apply NC; now right). destruct (TS NC') as [K P]. split; [exact K|].
          intros u. cbn [phases hist mono]. unfold put. destruct (Nat.eqb_spec u t) as [->|N]; [cbn [latest]; rewrite Nat.eqb_refl; eexists _, _; split; [reflexivity|lia]|].
          rewrite (@latest_cons t u) by auto. exact (P u).
      + apply FIN; auto; try (left; reflexivity). discriminate.
      + apply FIN; auto. destruct (@after_ok Lock e H1) as [(X & _)|X]; [congruence|auto]. discriminate.
      + apply FIN; auto; try (left; reflexivity). discriminate.
      + apply FIN; auto. destruct (@after_ok Unlock e H1) as [(_ & X & _)|X]; [congruence|auto]. discriminate.
      + split; [exact OT|]. intros _ NC. cbn [hist] in NC. destruct (TS NC) as [K P]. split; [exact K|]. intros u. cbn [phases hist mono]. unfold put. destruct (Nat.eqb_spec u t) as [->|N]; [|exact (P u)].
        pose proof (P t) as X. rewrite H0 in X. destruct X as (m & b & L & LE). exists m, b. split; [exact L|]. unfold wait_until. destruct (timeout =? THREAD_BLOCK_INDEFINITELY); [exact Logic.I|lia].
      + apply FIN; auto. destruct (@after_ok (Wait timeout) e H1) as [(_ & _ & X)|X]; [congruence|auto]. congruence.
      + split; [exact OT|]. intros _ NC. cbn [hist] in NC. destruct (TS NC) as [K P]. split; [exact K|]. intros u. cbn [phases hist mono]. unfold put. destruct (Nat.eqb_spec u t) as [->|N]; [|exact (P u)].
        pose proof (P t) as X. rewrite H0 in X. destruct X as (m & b & L & LE). exists m, b. split; [exact L|]. discriminate.
      + split; [exact OT|]. intros _ NC. cbn [hist] in NC. destruct (TS NC) as [K P]. split; [exact K|]. intros u. cbn [phases hist mono]. unfold put. destruct (Nat.eqb_spec u t) as [->|N]; [|exact (P u)].
        pose proof (P t) as X. rewrite H0 in X. destruct X as (m & b & L & LE). exists m, b. split; [exact L|]. intros _. lia.
      + destruct (returns_reach R) as [_ SO]. specialize (SO t). rewrite H0 in SO. apply FIN; auto.
        * destruct SO as [->|[-> _]]; left; reflexivity.
        * intros -> _ n E NC. injection E as <-. destruct (TS NC) as [K P]. specialize (P t). rewrite H0 in P. destruct P as (m & b & L & LE). exists m, b. auto.
      + split; [exact OT|discriminate].
      + split; [exact OT|]. intros _ NC. cbn [hist] in NC. destruct (TS NC) as [K P]. split; [cbn; lia|]. intros u. cbn [phases hist mono]. specialize (P u).
        destruct (phases s u) as [|c|k d|k r]; auto.
        * destruct P as (m & b & L & LE). exists m, b. split; [exact L|lia].
        * destruct P as (m & b & L & LE). exists m, b. split; [exact L|]. intros E. specialize (LE E). lia.
      + split.
        * intros NC. exfalso. apply NC. now left.
        * intros _ NC. exfalso. apply NC. now left.
  Qed.
  Theorem C142_not_early s l1 t n m l2 : reach s -> ~ In ClockSet (hist s) -> hist s = l1 ++ Returned t (Wait n) ETIMEDOUT m :: l2 ->
    exists m0 b, latest t l2 = Some (Wait n, m0, b) /\ m0 + n <= m.
  Proof. intros R NC E. destruct (timing_reach R) as [H _]. eapply H; eassumption. Qed.
  (** and it does time out: if nothing else happens for that many seconds, it returns then *)
  Theorem C142_in_time s t n : reach s -> over s = None -> phases s t = Called (Wait n) -> owner s = Some t -> 0 <= n ->
    exists s', reach s' /\ hist s' = Returned t (Wait n) ETIMEDOUT (mono s + n) :: hist s.
  Proof.
    intros R OV P O N. assert (W : wait_until (real s) n = Some (real s + n)) by (unfold wait_until; destruct (Z.eqb_spec n THREAD_BLOCK_INDEFINITELY); [unfold THREAD_BLOCK_INDEFINITELY in *; lia|reflexivity]).
    pose proof (R_step R (@S_sleep errorcheck s t n OV P O)) as R1. rewrite W in R1.
    set (s1 := mkSt None (put (phases s) t (Asleep n (Some (real s + n)))) (real s) (mono s) None (hist s)) in *.
    assert (X : exists s2, reach s2 /\ over s2 = None /\ owner s2 = None /\ phases s2 t = Asleep n (Some (real s + n)) /\ hist s2 = hist s /\ real s2 = real s + n /\ mono s2 = mono s + n).
    { assert (PT : phases s1 t = Asleep n (Some (real s + n))) by (cbn; unfold put; now rewrite Nat.eqb_refl).
      destruct (Z.eq_dec n 0) as [->|NZ].
      - exists s1. cbn [hist real mono over owner s1]. rewrite !Z.add_0_r in *. auto 8.
      - assert (N0 : 0 < n) by lia. pose proof (R_step R1 (@S_tick errorcheck s1 n eq_refl N0)) as R2. eexists. split; [exact R2|]. cbn [over owner phases hist real mono s1] in *. auto 8. }
    destruct X as (s2 & R2 & OV2 & O2 & P2 & H2 & RE & MO).
    assert (LE : real s + n <= real s2) by lia. pose proof (R_step R2 (@S_timeout errorcheck s2 t n (real s + n) OV2 P2 LE)) as R3.
    set (s3 := mkSt (owner s2) (put (phases s2) t (Woken n ETIMEDOUT)) (real s2) (mono s2) None (hist s2)) in *.
    assert (P3 : phases s3 t = Woken n ETIMEDOUT) by (cbn; unfold put; now rewrite Nat.eqb_refl).
    pose proof (R_step R3 (@S_relock errorcheck s3 t n ETIMEDOUT eq_refl P3 O2)) as R4. eexists. split; [exact R4|]. cbn. now rewrite MO, H2.
  Qed.
End Mutex.
Print Assumptions C142_in_time.
Print Assumptions C142_exclusion.
Print Assumptions C142_returns.
Print Assumptions C142_ends.
Print Assumptions C142_failure.
Print Assumptions C142_available.
Print Assumptions C142_not_early.

(** but if the clock is set forward, it may *)
Lemma reach_step ec now s s' : reach ec now s -> step ec s s' -> reach ec now s'.
Proof. intros; eapply R_step; eassumption. Qed.
Theorem C142_early_refuted : exists s, reach true 0 s /\
  hist s = [Returned 0 (Wait 10) ETIMEDOUT 0; ClockSet; Began 0 (Wait 10) 0; Returned 0 Lock 0 0; Began 0 Lock 0].
Proof.
  pose proof (R_init true 0) as R.
  assert (G : forall s s', reach true 0 s -> step true s s' -> reach true 0 s') by (intros; eapply reach_step; eassumption).
  pose proof (G _ _ R (@S_begin true (init 0) 0%nat Lock eq_refl eq_refl)) as R1.
  let s := match type of R1 with reach _ _ ?s => s end in pose proof (G s _ R1 (@S_lock true s 0%nat eq_refl eq_refl eq_refl)) as R2.
  let s := match type of R2 with reach _ _ ?s => s end in pose proof (G s _ R2 (@S_begin true s 0%nat (Wait 10) eq_refl eq_refl)) as R3.
  let s := match type of R3 with reach _ _ ?s => s end in pose proof (G s _ R3 (@S_sleep true s 0%nat 10 eq_refl eq_refl eq_refl)) as R4.
  let s := match type of R4 with reach _ _ ?s => s end in pose proof (G s _ R4 (@S_set true s 10 eq_refl)) as R5.
  let s := match type of R5 with reach _ _ ?s => s end in pose proof (G s _ R5 (@S_timeout true s 0%nat 10 10 eq_refl eq_refl (Z.le_refl 10))) as R6.
  let s := match type of R6 with reach _ _ ?s => s end in pose proof (G s _ R6 (@S_relock true s 0%nat 10 ETIMEDOUT eq_refl eq_refl eq_refl)) as R7.
  eexists. split; [exact R7|]. reflexivity.
Qed.
Print Assumptions C142_early_refuted.
(** two threads: 1 waits for the mutex while 0 holds it, gets it when 0 waits for the condition, and 0 comes back when 1 unlocks *)
Example C142_nonvacuous : exists s, reach true 0 s /\ over s = None /\ holds 0 (hist s) = true /\ holds 1 (hist s) = false /\
  hist s = [Returned 0 (Wait THREAD_BLOCK_INDEFINITELY) 0 0; Returned 1 Unlock 0 0; Began 1 Unlock 0; Returned 1 Lock 0 0; Began 0 (Wait THREAD_BLOCK_INDEFINITELY) 0;
            Began 1 Lock 0; Returned 0 Lock 0 0; Began 0 Lock 0].
Proof.
  pose proof (R_init true 0) as R.
  assert (G : forall s s', reach true 0 s -> step true s s' -> reach true 0 s') by (intros; eapply reach_step; eassumption).
  pose proof (G _ _ R (@S_begin true (init 0) 0%nat Lock eq_refl eq_refl)) as R1.
  let s := match type of R1 with reach _ _ ?s => s end in pose proof (G s _ R1 (@S_lock true s 0%nat eq_refl eq_refl eq_refl)) as R2.
  let s := match type of R2 with reach _ _ ?s => s end in pose proof (G s _ R2 (@S_begin true s 1%nat Lock eq_refl eq_refl)) as R3.
  let s := match type of R3 with reach _ _ ?s => s end in pose proof (G s _ R3 (@S_begin true s 0%nat (Wait (-1)) eq_refl eq_refl)) as R4.
  let s := match type of R4 with reach _ _ ?s => s end in pose proof (G s _ R4 (@S_sleep true s 0%nat (-1) eq_refl eq_refl eq_refl)) as R5.
  let s := match type of R5 with reach _ _ ?s => s end in pose proof (G s _ R5 (@S_lock true s 1%nat eq_refl eq_refl eq_refl)) as R6.
  let s := match type of R6 with reach _ _ ?s => s end in pose proof (G s _ R6 (@S_begin true s 1%nat Unlock eq_refl eq_refl)) as R7.
  let s := match type of R7 with reach _ _ ?s => s end in pose proof (G s _ R7 (@S_unlock true s 1%nat eq_refl eq_refl eq_refl)) as R8.
  let s := match type of R8 with reach _ _ ?s => s end in pose proof (G s _ R8 (@S_wake true s 0%nat (-1) None eq_refl eq_refl)) as R9.
  let s := match type of R9 with reach _ _ ?s => s end in pose proof (G s _ R9 (@S_relock true s 0%nat (-1) 0 eq_refl eq_refl eq_refl)) as R10.
  eexists. split; [exact R10|]. vm_compute. repeat (split; [reflexivity|]). reflexivity.
Qed.
(** and a thread that locks what it holds ends the process *)
Example C142_relock : exists s, reach true 0 s /\ over s = Some (Exited 101) /\ hist s = [Began 0 Lock 0; Returned 0 Lock 0 0; Began 0 Lock 0].
Proof.
  pose proof (R_init true 0) as R.
  assert (G : forall s s', reach true 0 s -> step true s s' -> reach true 0 s') by (intros; eapply reach_step; eassumption).
  pose proof (G _ _ R (@S_begin true (init 0) 0%nat Lock eq_refl eq_refl)) as R1.
  let s := match type of R1 with reach _ _ ?s => s end in pose proof (G s _ R1 (@S_lock true s 0%nat eq_refl eq_refl eq_refl)) as R2.
  let s := match type of R2 with reach _ _ ?s => s end in pose proof (G s _ R2 (@S_begin true s 0%nat Lock eq_refl eq_refl)) as R3.
  assert (N : 35 <> 0) by discriminate.
  let s := match type of R3 with reach _ _ ?s => s end in pose proof (G s _ R3 (@S_lock_error true s 0%nat 35 eq_refl eq_refl N)) as R4.
  eexists. split; [exact R4|]. split; reflexivity.
Qed.
