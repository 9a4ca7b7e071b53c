(** C53: cleanup functions run once, last registered first, in every schedule. *)
From Verif Require Import Prelude PreludeFacts ConcModel ConcProofs ConcExec CleanupModel PropsThreaded.
Set Implicit Arguments.

Section P.
Variable F : Type.
Variable reenters : F -> bool.
Notation run := (cs_run (ccode reenters)).
Notation cstate := (cstate F).

(** the atomic object: the functions registered and not yet run, the last one first *)
Definition cleanup_spec (pending : list F) (o : cop F) (pending' : list F) (ran : list F) : Prop :=
  match o with
  | Register f => pending' = f :: pending /\ ran = []
  | CallAll => pending' = [] /\ ran = pending
  end.

(** the heap holds exactly the list *)
Fixpoint chain (h : nat -> option (cnode F)) (p : option nat) (l : list (nat * F)) : Prop :=
  match l with
  | [] => p = None
  | (a, f) :: l => p = Some a /\ exists q, h a = Some (mkCN (Some f) (Some q)) /\ chain h q l
  end.
Definition exact (h : nat -> option (cnode F)) (l : list (nat * F)) : Prop :=
  NoDup (map fst l) /\ forall a, h a <> None -> In a (map fst l).
Definition cwf (s : cstate) (pending : list F) : Prop :=
  Forall (fun f => reenters f = false) pending /\
  exists l, pending = map snd l /\ chain (cheap s) (chead s) l /\ exact (cheap s) l /\ Forall (fun a => a < cfresh s) (map fst l).

Lemma chain_put h p l a n : ~ In a (map fst l) -> chain h p l -> chain (hput h a n) p l.
Proof.
  revert p. induction l as [|[b f] l IH]; intros p N C; [exact C|]. destruct C as [E [q [Hb C]]]. split; [exact E|].
  exists q. split.
  - unfold hput. destruct (Nat.eqb_spec b a) as [->|_]; [exfalso; apply N; left; reflexivity|exact Hb].
  - apply IH; [|exact C]. intros K. apply N. right. exact K.
Qed.
Lemma act s pc f k s1 s' pc' : ccode reenters pc = CAct f k -> f s = Ok s1 -> run s1 (k s) s' pc' -> run s pc s' pc'.
Proof. intros H1 H2 H3. eapply cr_act; eauto. Qed.

Lemma hput_same (h : nat -> option (cnode F)) a n : hput h a n a = n.
Proof. unfold hput. rewrite Nat.eqb_refl. reflexivity. Qed.

Lemma register_run s pending f : reenters f = false -> cwf s pending ->
  exists s', run s (CuAlloc f) s' (CuUnlock []) /\ cwf s' (f :: pending).
Proof.
  intros R [Rp [l [-> [C [[ND EX] B]]]]]. set (a := cfresh s).
  assert (NI : ~ In a (map fst l)). { intros K. rewrite Forall_forall in B. specialize (B a K). unfold a in B. lia. }
  set (h1 := hput (cheap s) a (Some (mkCN None None))).
  set (h2 := hput h1 a (Some (mkCN (Some f) None))).
  set (h3 := hput h2 a (Some (mkCN (Some f) (Some (chead s))))).
  exists (mkCS h3 (S a) (Some a)). split.
  - eapply act; [reflexivity|reflexivity|]. fold a h1.
    eapply act; [reflexivity| |]; [cbv beta; unfold load; cbn [cheap]; unfold h1; rewrite hput_same; cbn [bind cnext cfresh chead]; fold h1; fold h2; reflexivity|].
    eapply act; [reflexivity| |]; [cbv beta; unfold load; cbn [cheap]; unfold h2; rewrite hput_same; cbn [bind cfn cfresh chead]; fold h2; fold h3; reflexivity|].
    eapply act; [reflexivity|reflexivity|]. cbn [cheap cfresh]. eapply cr_unlock. reflexivity.
  - split; [constructor; assumption|]. exists ((a, f) :: l). split; [reflexivity|]. cbn [cheap chead cfresh]. split; [|split].
    + split; [reflexivity|]. exists (chead s). split; [unfold h3; apply hput_same|].
      unfold h3, h2, h1. do 3 (apply chain_put; [exact NI|]). exact C.
    + split; [constructor; assumption|]. intros b Hb. cbn [map fst]. destruct (Nat.eq_dec b a) as [->|N]; [left; reflexivity|right].
      apply EX. unfold h3, h2, h1, hput in Hb. destruct (Nat.eqb_spec b a); [contradiction|exact Hb].
    + constructor; [cbn; unfold a; lia|]. eapply Forall_impl; [|exact B]. cbn. intros x Hx. unfold a. lia.
Qed.

Lemma call_loop l : forall (s : cstate) p acc, Forall (fun f => reenters f = false) (map snd l) -> chain (cheap s) p l -> exact (cheap s) l ->
  exists s', run s (CuLoop p acc) s' (CuUnlock (acc ++ map snd l)) /\ chead s' = None /\ (forall a, cheap s' a = None).
Proof.
  induction l as [|[a f] l IH]; intros s p acc R C [ND EX].
  - cbn in C. subst p. exists (mkCS (cheap s) (cfresh s) None). split; [|split; [reflexivity|]].
    + eapply act; [reflexivity|reflexivity|]. eapply act; [reflexivity|reflexivity|]. cbn [map]. rewrite app_nil_r. eapply cr_unlock. reflexivity.
    + intros b. cbn [cheap]. destruct (cheap s b) eqn:E; [|reflexivity]. exfalso. apply (EX b). rewrite E. discriminate.
  - destruct C as [-> [q [Ha C]]]. inversion R as [|? ? Rf Rl]; subst. cbn [map fst] in ND. inversion ND as [|? ? NI NDl]; subst.
    set (s2 := mkCS (hput (cheap s) a None) (cfresh s) (chead s)).
    destruct (IH s2 q (acc ++ [f]) Rl) as [s' [Rn [H1 H2]]].
    + apply chain_put; [exact NI|exact C].
    + split; [exact NDl|]. intros b Hb. cbn [cheap s2] in Hb. unfold hput in Hb. destruct (Nat.eqb_spec b a) as [Eb|N]; [congruence|].
      destruct (EX b Hb) as [K|K]; [cbn in K; congruence|exact K].
    + exists s'. split; [|auto].
      assert (LF : load_fn s a = Ok f) by (unfold load_fn, load; rewrite Ha; reflexivity).
      assert (LN : load_next s a = Ok q) by (unfold load_next, load; rewrite Ha; reflexivity).
      eapply act; [reflexivity|reflexivity|]. cbv beta iota.
      eapply act; [reflexivity|cbv beta; rewrite LF; cbn [bind]; cbn [snd] in Rf; rewrite Rf; reflexivity|]. cbv beta. rewrite LF.
      eapply act; [reflexivity|cbv beta; rewrite LN; reflexivity|]. cbv beta. rewrite LN. cbn [or_fail].
      eapply act; [reflexivity|cbv beta; unfold load; rewrite Ha; reflexivity|]. cbv beta.
      cbn [map snd]. replace (acc ++ f :: map snd l) with ((acc ++ [f]) ++ map snd l) by (rewrite <- app_assoc; reflexivity). exact Rn.
Qed.

Definition crs (o : cop F) (l : cpc F) : Prop := centry o = CuLock l.
(** the functions handed to RegisterCleanupFunction do not call it themselves *)
Definition cleanup_call := {o : cop F | match o with Register f => reenters f = false | CallAll => True end}.
Notation ospec := (fun p (o : cleanup_call) => cleanup_spec p (proj1_sig o)).
Definition cleanup_runs n h m :=
  steps (fun _ _ : unit => true) (ccode reenters) (fun o : cleanup_call => centry (proj1_sig o)) (minit (cpc F) unit cleanup_call (cinit F) n) h m.

Lemma cinit_wf : cwf (cinit F) [].
Proof. split; [constructor|]. exists []. repeat split; [constructor|intros a H; exfalso; apply H; reflexivity|constructor]. Qed.

Lemma cleanup_sim n h m : cleanup_runs n h m -> exists am,
  asteps ospec (ainit cleanup_call (list F) [] n) h am /\
  sim (ccode reenters) ospec cwf (fun (o : cleanup_call) l => crs (proj1_sig o) l) m am.
Proof.
  intros H. eapply simulation; [| |apply cinit_wf|exact H].
  - intros op. eexists. split; reflexivity.
  - intros [op Hop] l s a Hr W. unfold crs in Hr. cbn [proj1_sig] in Hr. injection Hr as <-. destruct op as [f|].
    + destruct (register_run Hop W) as [s' [Rn W']]. eexists _, _. split; [exact Rn|].
      unfold post. cbn [ccode]. exists (f :: a), []. split; [split; reflexivity|]. split; [exact W'|reflexivity].
    + destruct W as [R [l [-> [C [EX B]]]]]. destruct (@call_loop l s (chead s) [] R C EX) as [s' [Rn [H1 H2]]].
      exists s', (CuUnlock (map snd l)). split.
      * eapply act; [reflexivity|reflexivity|]. exact Rn.
      * unfold post. cbn [ccode]. exists [], (map snd l). split; [split; reflexivity|]. split; [|reflexivity].
        split; [constructor|]. exists []. split; [reflexivity|]. split; [exact H1|]. split; [|constructor].
        split; [constructor|]. intros x Hx. exfalso. apply Hx, H2.
Qed.

(** every schedule of concurrent registrations and cleanups has the history of an object
    on which each call takes effect in one step *)
Theorem C53_cleanup_linearizable n h m : cleanup_runs n h m ->
  exists am, asteps ospec (ainit cleanup_call (list F) [] n) h am.
Proof. intros H. destruct (cleanup_sim H) as [am [As _]]. exists am. exact As. Qed.

Theorem C53_exclusion_and_safety n h m : cleanup_runs n h m ->
  (forall t1 t2 x1 x2, nth_error (th m) t1 = Some x1 -> nth_error (th m) t2 = Some x2 ->
     in_cs (ccode reenters) x1 = true -> in_cs (ccode reenters) x2 = true -> t1 = t2) /\
  (forall t x, nth_error (th m) t = Some x -> ~ goes_wrong (ccode reenters) (sh m) x).
Proof. intros H. destruct (cleanup_sim H) as (am & _ & Sm). split; intros; [eapply sim_exclusion|eapply sim_safe]; eauto. Qed.

(** what the calls of a history registered, and what its cleanups ran *)
Definition registered (h : list (event cleanup_call (list F))) : list F :=
  flat_map (fun e => match e with ECall _ o => match proj1_sig o with Register f => [f] | CallAll => [] end | _ => [] end) h.
Definition ran (h : list (event cleanup_call (list F))) : list F :=
  flat_map (fun e => match e with ERet _ r => r | _ => [] end) h.
Definition owed (y : astat cleanup_call (list F)) : list F :=
  match y with APend o => match proj1_sig o with Register f => [f] | CallAll => [] end | _ => [] end.
Definition kept (y : astat cleanup_call (list F)) : list F := match y with ADone r => r | _ => [] end.

Lemma flat_upd X Y (g : X -> list Y) l t x y : nth_error l t = Some x -> Permutation (g x ++ flat_map g (upd l t y)) (g y ++ flat_map g l).
Proof.
  revert t. induction l as [|z l IH]; intros [|t] E; cbn in E; try discriminate E; cbn [upd flat_map].
  - injection E as ->. rewrite !app_assoc. apply Permutation_app_tail, Permutation_app_comm.
  - specialize (IH t E). rewrite !app_assoc. rewrite (Permutation_app_comm (g x) (g z)), (Permutation_app_comm (g y) (g z)), <- !app_assoc.
    apply Permutation_app_head. exact IH.
Qed.
Lemma conserved n h am : asteps ospec (ainit cleanup_call (list F) [] n) h am ->
  Permutation (registered h) (ran h ++ ab am ++ flat_map owed (ath am) ++ flat_map kept (ath am)).
Proof.
  intros H. remember (ainit _ _ _ _) as a0. induction H as [s|s h s1 e s2 H IH St]; subst.
  - cbn. induction n as [|n IH]; [constructor|]. exact IH.
  - specialize (IH eq_refl). unfold registered, ran in *. rewrite !flat_map_app.
    inversion St as [? t op E|? t op a' r E Sp|? t r E]; subst; cbn [ab ath flat_map app].
    + pose proof (flat_upd owed (ath s1) t (APend op) E) as U1. pose proof (flat_upd kept (ath s1) t (APend op) E) as U2.
      cbn [owed kept app] in U1, U2. rewrite U1, U2, IH, app_nil_r, app_nil_r.
      set (z := match proj1_sig op with Register f => [f] | CallAll => [] end).
      rewrite <- !app_assoc. do 2 apply Permutation_app_head. rewrite app_assoc. apply Permutation_app_comm.
    + pose proof (flat_upd owed (ath s1) t (ADone r) E) as U1. pose proof (flat_upd kept (ath s1) t (ADone r) E) as U2.
      cbn [owed kept app] in U1, U2. rewrite U2, IH, app_nil_r, app_nil_r. rewrite <- U1.
      apply Permutation_app_head. destruct (proj1_sig op) as [f|]; cbn in Sp; destruct Sp as [-> ->]; cbn [app].
      * symmetry. apply (Permutation_middle (ab s1) _ f).
      * apply Permutation_app_swap_app.
    + pose proof (flat_upd owed (ath s1) t AIdle E) as U1. pose proof (flat_upd kept (ath s1) t AIdle E) as U2.
      cbn [owed kept app] in U1, U2. rewrite U1, IH, !app_nil_r, <- U2. rewrite <- !app_assoc. apply Permutation_app_head.
      rewrite !(app_assoc (ab s1)). apply Permutation_app_swap_app.
Qed.

(** [cs_run s l s' l'] is an uninterrupted run; CuStart is the body of
    CallCleanupFunctions and CuUnlock carries the functions it ran.
    Once all calls have returned, every registered function has been run exactly once or is
    still registered exactly once; after a final CallCleanupFunctions they have all run *)
Theorem C53_exactly_once n h m : cleanup_runs n h m -> all_idle (th m) ->
  exists pending, Permutation (registered h) (ran h ++ pending) /\
    exists s', cs_run (ccode reenters) (sh m) CuStart s' (CuUnlock pending) /\ forall a, cheap s' a = None.
Proof.
  intros H Id. destruct (cleanup_sim H) as (am & As & Sm). destruct (idle_free Sm Id) as (W & Hy).
  exists (ab am). split.
  - rewrite (conserved As). rewrite (flat_nil owed), (flat_nil kept); [rewrite !app_nil_r; reflexivity| |]; intros t y E; rewrite (Hy t y E); reflexivity.
  - destruct W as [R [l [El [C [EX B]]]]]. rewrite El in *. destruct (@call_loop l (sh m) (chead (sh m)) [] R C EX) as [s' [Rn [H1 H2]]].
    exists s'. split; [|exact H2]. eapply act; [reflexivity|reflexivity|]. exact Rn.
Qed.
End P.

(** two threads register functions 1 and 2, the second while the first still waits for the
    lock; then the second thread cleans up: 1 runs before 2 *)
Definition ncall := @cleanup_call nat (fun _ => false).
Definition reg (k : nat) : ncall := exist (fun o : cop nat => match o with Register f => (fun _ => false) f = false | CallAll => True end) (Register k) eq_refl.
Definition cll : ncall := exist (fun o : cop nat => match o with Register f => (fun _ => false) f = false | CallAll => True end) CallAll Logic.I.
Definition csched : list (choice ncall) :=
  [Call 0 (reg 1); Call 1 (reg 2)] ++ repeat (Go 1) 7 ++ repeat (Go 0) 7 ++ [Call 1 cll] ++ repeat (Go 1) 14.
Definition crun := exec (fun _ _ : unit => true) (ccode (fun _ : nat => false)) (fun o : ncall => centry (proj1_sig o)) (minit (cpc nat) unit ncall (cinit nat) 2) csched.
Definition idleb L C Op (x : tstat L C Op) : bool := match x with Idle => true | _ => false end.
Lemma crun_eq : match crun with Some (m, h) => Some (h, map (@idleb _ _ _) (th m)) | None => None end =
  Some ([ECall 0 (reg 1); ECall 1 (reg 2); ERet 1 []; ERet 0 []; ECall 1 cll; ERet 1 [1; 2]], [true; true]).
Proof. vm_compute. reflexivity. Qed.
Lemma idle_list L C Op (l : list (tstat L C Op)) : Forall (fun b => b = true) (map (@idleb _ _ _) l) -> all_idle l.
Proof.
  intros H t x E. apply nth_error_In in E. rewrite Forall_forall in H. specialize (H (idleb x) (in_map _ _ _ E)). destruct x; [reflexivity|discriminate H..].
Qed.
Example C53_ex : exists m, cleanup_runs (reenters := fun _ => false) 2
  [ECall 0 (reg 1); ECall 1 (reg 2); ERet 1 []; ERet 0 []; ECall 1 cll; ERet 1 [1; 2]] m /\ all_idle (th m).
Proof.
  pose proof crun_eq as E. destruct crun as [[m h]|] eqn:Ex; [|discriminate E]. injection E as Eh E. exists m. rewrite <- Eh. split.
  - exact (exec_steps _ _ _ _ _ Ex).
  - apply (@idle_list (cpc nat) unit ncall (th m)). rewrite E. repeat constructor.
Qed.

(** a cleanup function that registers another one blocks on the mutex held by its caller *)
Definition rcode := ccode (fun f => f =? 7).
Definition rsched : list (choice (cop nat)) := [Call 0 (Register 7)] ++ repeat (Go 0) 7 ++ [Call 0 CallAll] ++ repeat (Go 0) 3.
Definition rrun := exec (fun _ _ : unit => true) rcode (fun o : cop nat => centry o) (minit (cpc nat) unit (cop nat) (cinit nat) 1) rsched.
Lemma rrun_eq : match rrun with
  | Some (m, h) => match nth_error (th m) 0 with Some (Run o l) => match rcode l with CAct f _ => match f (sh m) with Ok _ => false | _ => true end | _ => false end | _ => false end
  | None => false end = true.
Proof. vm_compute. reflexivity. Qed.
Theorem C53_reentrant_refuted : exists h (m : mstate (cstate nat) (cpc nat) unit (cop nat)) x,
  steps (fun _ _ : unit => true) rcode (fun o : cop nat => centry o) (minit (cpc nat) unit (cop nat) (cinit nat) 1) h m /\
  nth_error (th m) 0 = Some x /\ goes_wrong rcode (sh m) x.
Proof.
  pose proof rrun_eq as E. destruct rrun as [[m h]|] eqn:Ex; [|discriminate E]. exists h, m.
  destruct (nth_error (th m) 0) as [x|]; [|discriminate E]. exists x. split; [exact (exec_steps _ _ _ _ _ Ex)|]. split; [reflexivity|].
  destruct x as [|o l|o c tm lo lt|o c b l]; try discriminate E. cbn [goes_wrong]. destruct (rcode l); try discriminate E.
  intros s' K. rewrite K in E. discriminate E.
Qed.
