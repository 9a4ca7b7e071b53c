(** C118: the *at functions made of fchdir. *)
From Verif Require Import Prelude JsonHeapFacts AtModel.
From Coq Require Import Permutation.
Set Implicit Arguments.

(** the descriptors of the program after what was observed: those it opened, or got from openat, and did not close *)
Fixpoint program (own : list nat) (ls : list label) : list nat :=
  match ls with
  | [] => own
  | Opens fd :: ls => program (fd :: own) ls
  | Closes fd :: ls => program (filter (fun x => negb (x =? fd)) own) ls
  | Returns _ _ KOpen (Some fd) :: ls => program (fd :: own) ls
  | _ :: ls => program own ls
  end.
Lemma program_app own ls ls' : program own (ls ++ ls') = program (program own ls) ls'.
Proof.
  revert own. induction ls as [|l ls IH]; intros own; [reflexivity|].
  destruct l as [| | | |t d [] [r|]| |]; cbn; apply IH.
Qed.

(** what thread [t] does *)
Definition mine (t : nat) (l : label) : bool :=
  match l with Begins x _ _ | Runs x _ _ _ | Lost x | Returns x _ _ _ => x =? t | _ => false end.
(** calls that have returned: the system call was made once and its result is returned; or not at all, or the way back failed,
    and -1 is returned *)
Inductive calls (t : nat) : list label -> Prop :=
| c_nil : calls t []
| c_result tr d k dir r : calls t tr -> calls t (tr ++ [Begins t d k; Runs t d dir r; Returns t d k r])
| c_not tr d k : calls t tr -> calls t (tr ++ [Begins t d k; Returns t d k None])
| c_lost tr d k dir r : calls t tr -> calls t (tr ++ [Begins t d k; Runs t d dir r; Lost t; Returns t d k None]).

(** ** the list of threads *)
Lemma nth_mid A (a : list A) p b i : nth_error (a ++ p :: b) i = if i =? length a then Some p else
  nth_error (a ++ b) (if i <? length a then i else pred i).
Proof.
  destruct (Nat.eqb_spec i (length a)) as [->|N].
  - rewrite nth_error_app2, Nat.sub_diag by lia. reflexivity.
  - destruct (Nat.ltb_spec i (length a)).
    + rewrite !nth_error_app1 by lia. reflexivity.
    + rewrite !nth_error_app2 by lia. replace (i - length a) with (S (pred i - length a)) by lia. reflexivity.
Qed.
Definition locked_by (l : option nat) (ths : list pc) : Prop := forall i p, nth_error ths i = Some p -> (critical p = true <-> l = Some i).
Lemma locked_upd l l' a p p' b : locked_by l (a ++ p :: b) -> (critical p' = true <-> l' = Some (length a)) ->
  (forall i, i <> length a -> (l = Some i <-> l' = Some i)) -> locked_by l' (a ++ p' :: b).
Proof.
  intros L C H i q E. rewrite nth_mid in E. destruct (Nat.eqb_spec i (length a)) as [->|N].
  - injection E as <-. exact C.
  - rewrite <- (H i N). apply L. rewrite nth_mid. apply Nat.eqb_neq in N. rewrite N. exact E.
Qed.
Lemma locked_at l a p b : locked_by l (a ++ p :: b) -> (critical p = true <-> l = Some (length a)).
Proof. intros L. apply L. rewrite nth_mid, Nat.eqb_refl. reflexivity. Qed.
Lemma locked_rest l a p b q : locked_by l (a ++ p :: b) -> critical p = true -> In q (a ++ b) -> critical q = false.
Proof.
  intros L C I. pose proof (locked_at _ _ _ L) as LA. apply LA in C. apply in_app_iff in I.
  assert (X : exists i, i <> length a /\ nth_error (a ++ p :: b) i = Some q).
  { destruct I as [I|I]; apply In_nth_error in I as [i E].
    - exists i. assert (i < length a) by (apply nth_error_Some; congruence). split; [lia|]. rewrite nth_error_app1 by lia. exact E.
    - exists (length a + S i). split; [lia|]. rewrite nth_error_app2 by lia. replace (length a + S i - length a) with (S i) by lia. exact E. }
  destruct X as [i [N E]]. destruct (critical q) eqn:CQ; [|reflexivity]. apply (L _ _ E) in CQ. congruence.
Qed.
Lemma concat_mid A B (f : A -> list B) a p b : concat (map f (a ++ p :: b)) = concat (map f a) ++ f p ++ concat (map f b).
Proof. rewrite map_app, concat_app. reflexivity. Qed.

(** ** descriptors *)
Lemma fds_without f fd : fds (without f fd) = filter (fun x => negb (x =? fd)) (fds f).
Proof. unfold fds, without. induction f as [|[a x] f IH]; [reflexivity|]. cbn. destruct (a =? fd); cbn; congruence. Qed.
Lemma filter_perm (fd : nat) l l' : Permutation l l' -> Permutation (filter (fun x => negb (x =? fd)) l) (filter (fun x => negb (x =? fd)) l').
Proof.
  induction 1; cbn; auto.
  - destruct (x =? fd); cbn; auto.
  - destruct (x =? fd), (y =? fd); cbn; auto. apply perm_swap.
  - eapply Permutation_trans; eauto.
Qed.
Lemma filter_notin (fd : nat) l : ~ In fd l -> filter (fun x => negb (x =? fd)) l = l.
Proof.
  intros N. induction l as [|x l IH]; [reflexivity|]. cbn. destruct (Nat.eqb_spec x fd); [subst; exfalso; apply N; left; reflexivity|].
  cbn. f_equal. apply IH. intros I. apply N. right. exact I.
Qed.
Lemma filter_one (fd : nat) l r : NoDup l -> Permutation l (fd :: r) -> Permutation (filter (fun x => negb (x =? fd)) l) r.
Proof.
  intros ND P. pose proof (filter_perm fd P) as Q. cbn in Q. rewrite Nat.eqb_refl in Q. cbn in Q.
  assert (NI : ~ In fd r) by (assert (NoDup (fd :: r)) as N2 by (eapply Permutation_NoDup; eauto); inversion N2; assumption).
  rewrite (filter_notin _ _ NI) in Q. exact Q.
Qed.
Lemma refers_unique f fd x y : NoDup (fds f) -> refers f fd x -> refers f fd y -> x = y.
Proof.
  unfold fds, refers. induction f as [|[a z] f IH]; intros ND X Y; [destruct X|]. cbn in ND. inversion ND as [|? ? NI ND']; subst.
  destruct X as [X|X], Y as [Y|Y].
  - congruence.
  - exfalso. apply NI. injection X as -> ->. apply (in_map fst) in Y. exact Y.
  - exfalso. apply NI. injection Y as -> ->. apply (in_map fst) in X. exact X.
  - auto.
Qed.
Lemma refers_without f fd n x : n <> fd -> refers f n x -> refers (without f fd) n x.
Proof. intros N R. unfold refers, without. apply filter_In. split; [exact R|]. cbn. apply Nat.eqb_neq in N. rewrite N. reflexivity. Qed.
Lemma syscall_refers k f r f' n x : syscall k f r f' -> refers f n x -> refers f' n x.
Proof. destruct k, r; cbn; intros S R; subst; auto. destruct S as [_ [y ->]]. right. exact R. Qed.
Lemma syscall_fds k f r f' : syscall k f r f' -> fds f' = result k r ++ fds f /\ (NoDup (fds f) -> NoDup (fds f')).
Proof.
  destruct k, r; cbn; intros S; subst; auto. destruct S as [NI [y ->]]. cbn. split; [reflexivity|]. intros ND. constructor; assumption.
Qed.

(** ** what always holds *)
Definition shaped (p : pc) : Prop :=
  match p with
  | Called CWD _ c _ => c = None
  | Called (FD _) _ c _ => c <> None
  | _ => True
  end.
Definition owned (f : table) (own : list nat) (ths : list pc) : Prop :=
  NoDup (fds f) /\ Permutation (fds f) (own ++ concat (map held ths)).
(** how far the call in progress is *)
Definition progress (t : nat) (p : pc) (tr : list label) : Prop :=
  match p with
  | Idle => calls t tr
  | Start d k | Locked d k | OpenFailed d k => exists tr0, calls t tr0 /\ tr = tr0 ++ [Begins t d k]
  | Saved n k _ | ChdirFailed n k _ | Inside n k _ => exists tr0, calls t tr0 /\ tr = tr0 ++ [Begins t (FD n) k]
  | Called d k _ r | Back d k _ r true | Closed d k r true | Unlocked d k r true =>
      exists tr0 dir, calls t tr0 /\ tr = tr0 ++ [Begins t d k; Runs t d dir r]
  | Back d k _ r false | Closed d k r false | Unlocked d k r false =>
      exists tr0 dir, calls t tr0 /\ tr = tr0 ++ [Begins t d k; Runs t d dir r; Lost t]
  end.
Record good (f0 : list nat) (ls : list label) (s : state) : Prop := mkGood {
  g_lock : locked_by (lock s) (threads s);
  g_shape : Forall shaped (threads s);
  g_own : owned (files s) (program f0 ls) (threads s);
  g_calls : forall i p, nth_error (threads s) i = Some p -> progress i p (filter (mine i) ls)
}.

Lemma shaped_upd a p p' b : shaped p' -> Forall shaped (a ++ p :: b) -> Forall shaped (a ++ p' :: b).
Proof. intros S F. apply Forall_app in F as [A B]. inversion B; subst. apply Forall_app. auto. Qed.
Lemma own_same f own a p p' b : held p' = held p -> owned f own (a ++ p :: b) -> owned f own (a ++ p' :: b).
Proof. intros E [N P]. split; [exact N|]. rewrite concat_mid in *. rewrite E. exact P. Qed.

Lemma own_perm f f' own own' a p p' b : owned f own (a ++ p :: b) -> NoDup (fds f') ->
  (Permutation (fds f) (own ++ concat (map held a) ++ held p ++ concat (map held b)) ->
   Permutation (fds f') (own' ++ concat (map held a) ++ held p' ++ concat (map held b))) -> owned f' own' (a ++ p' :: b).
Proof. intros [N P] ND H. split; [exact ND|]. rewrite concat_mid in *. auto. Qed.

Lemma calls_upd ls l a p p' b : (forall i q, nth_error (a ++ p :: b) i = Some q -> progress i q (filter (mine i) ls)) ->
  (forall i, i <> length a -> mine i l = false) ->
  progress (length a) p' (filter (mine (length a)) ls ++ if mine (length a) l then [l] else []) ->
  forall i q, nth_error (a ++ p' :: b) i = Some q -> progress i q (filter (mine i) (ls ++ [l])).
Proof.
  intros C M P i q E. rewrite filter_app. cbn [filter]. rewrite nth_mid in E. destruct (Nat.eqb_spec i (length a)) as [->|N].
  - injection E as <-. exact P.
  - rewrite (M i N), app_nil_r. apply C. rewrite nth_mid. apply Nat.eqb_neq in N. rewrite N. exact E.
Qed.

Ltac locks L := eapply locked_upd; [exact L|cbn [critical]; try (pose proof (locked_at _ _ _ L) as LA; cbn [critical] in LA; intuition congruence)|
   try (pose proof (locked_at _ _ _ L) as LA; cbn [critical] in LA; intuition congruence)].
Ltac trace P0 :=
  cbn [progress] in P0 |- *; rewrite ?app_nil_r;
  first [ exact P0
        | eexists; split; [exact P0|reflexivity]
        | let tr := fresh in let H := fresh in let E := fresh in destruct P0 as [tr [H E]]; rewrite E, <- app_assoc; cbn [app];
          first [ apply c_not; exact H | eexists _, _; split; [exact H|reflexivity] ]
        | let tr := fresh in let dir := fresh in let H := fresh in let E := fresh in destruct P0 as [tr [dir [H E]]];
          first [ rewrite E, <- app_assoc; cbn [app]; first [ apply c_result; exact H | apply c_lost; exact H | eexists _, _; split; [exact H|reflexivity] ]
                | eexists _, _; split; [exact H|exact E] ] ].
Lemma good_step f0 ls s l s' : good f0 ls s -> step s l s' -> good f0 (ls ++ [l]) s'.
Proof.
  intros [L SH O C] ST. destruct ST; cbn [lock threads files] in *.
  all: try pose proof (C (length a) _ ltac:(rewrite nth_mid, Nat.eqb_refl; reflexivity)) as P0.
  all: constructor; cbn [lock threads files]; rewrite ?program_app; cbn [program].
  all: try (locks L; fail).
  all: try (eapply shaped_upd; [|exact SH]; cbn; solve [exact Logic.I|congruence|discriminate]).
  all: try exact SH.
  all: try exact L.
  all: try (eapply own_same; [|exact O]; reflexivity).
  all: try (eapply calls_upd; [exact C|intros i N; cbn [mine]; first [reflexivity|apply Nat.eqb_neq; auto]|]; cbn [mine]; rewrite ?Nat.eqb_refl;
            try destruct ok; trace P0).
  all: try (intros i q E; rewrite filter_app; cbn [filter mine]; rewrite app_nil_r; apply C; exact E).
  all: try pose proof (proj1 O) as ND0.
  - (* s_call_cwd *) match goal with H : syscall _ _ _ _ |- _ => destruct (@syscall_fds _ _ _ _ H) as [EF NF] end.
    eapply own_perm; [exact O|auto|]. intros P. rewrite EF. cbn [held app] in *. rewrite P. perm.
  - (* s_open *) eapply own_perm; [exact O|constructor; assumption|]. intros P. cbn [fds map fst]. fold (fds f). rewrite P. cbn [held]. perm.
  - (* s_close_failed *) eapply own_perm; [exact O|rewrite fds_without; apply NoDup_filter; exact ND0|]. intros P. rewrite fds_without.
    apply filter_one; [exact ND0|]. rewrite P. cbn [held]. perm.
  - (* s_give_up *) destruct k; (eapply own_same; [|exact O]; reflexivity).
  - (* s_call *) match goal with H : syscall _ _ _ _ |- _ => destruct (@syscall_fds _ _ _ _ H) as [EF NF] end.
    eapply own_perm; [exact O|auto|]. intros P. rewrite EF. cbn [held app] in *. rewrite P. perm.
  - (* s_close *) eapply own_perm; [exact O|rewrite fds_without; apply NoDup_filter; exact ND0|]. intros P. rewrite fds_without.
    apply filter_one; [exact ND0|]. rewrite P. cbn [held]. perm.
  - (* s_return *) destruct k, r; (eapply own_perm; [exact O|exact ND0|]); intros P; rewrite P; cbn [held result app]; perm.
  - (* s_cleanup *) destruct k, r; try (eapply own_perm; [exact O|exact ND0|]; intros P; rewrite P; cbn [held result app]; perm).
    eapply own_perm; [exact O|rewrite fds_without; apply NoDup_filter; exact ND0|]. intros P. rewrite fds_without.
    apply filter_one; [exact ND0|]. rewrite P. cbn [held result]. perm.
  - (* s_opens *) destruct O as [_ P]. split; [constructor; assumption|]. cbn [fds map fst app]. constructor. exact P.
  - (* s_closes *) destruct O as [_ P]. split; [rewrite fds_without; apply NoDup_filter; exact ND0|]. rewrite fds_without.
    apply (filter_perm fd) in P. rewrite filter_app in P. rewrite (filter_notin fd (concat (map held ths))) in P by assumption. exact P.
Qed.

Lemma good_runs home f n ls s : NoDup (fds f) -> runs (initial home f n) ls s -> good (fds f) ls s.
Proof.
  intros ND R. induction R as [|ls s l s' R IH ST]; [|eapply good_step; eauto].
  assert (HR : forall k, concat (map held (repeat Idle k)) = []) by (induction k; auto).
  assert (NE : forall i p, nth_error (repeat Idle n) i = Some p -> p = Idle).
  { intros i p E. apply nth_error_In in E. apply repeat_spec in E. exact E. }
  constructor; cbn [initial lock threads files program filter].
  - intros i p E. apply NE in E. subst. cbn. split; discriminate.
  - apply Forall_forall. intros p I. apply repeat_spec in I. subst. exact Logic.I.
  - split; [exact ND|]. rewrite HR, app_nil_r. apply Permutation_refl.
  - intros i p E. apply NE in E. subst. constructor.
Qed.

(** ** where the calls are made *)
Definition lost (l : label) : bool := match l with Lost _ => true | _ => false end.
Definition at_home (home : obj) (w : obj) (f : table) (p : pc) : Prop :=
  match p with
  | Idle | Start _ _ => True
  | Locked _ _ | OpenFailed _ _ | ChdirFailed _ _ _ => w = home
  | Saved _ _ fd => w = home /\ refers f fd home
  | Inside n _ fd => refers f fd home /\ refers f n w
  | Called _ _ (Some fd) _ => refers f fd home
  | Called _ _ None _ => w = home
  | Back _ _ _ _ ok | Closed _ _ _ ok => ok = true /\ w = home
  | Unlocked _ _ _ ok => ok = true
  end.
Definition homely (home : obj) (s : state) : Prop :=
  Forall (at_home home (cwd s) (files s)) (threads s) /\ (lock s = None -> cwd s = home).
Lemma at_home_nc home w f w' f' p : critical p = false -> at_home home w f p -> at_home home w' f' p.
Proof. destruct p; cbn; try discriminate; auto. Qed.

Lemma at_home_mono home w f f' p : (forall n x, In n (held p ++ given p) -> refers f n x -> refers f' n x) -> at_home home w f p -> at_home home w f' p.
Proof.
  intros M. destruct p; cbn in *; auto.
  - intros [H R]. split; [exact H|]. apply M; auto.
  - intros [H R]. split; apply M; auto.
  - match goal with |- match ?o with _ => _ end -> _ => destruct o; [|auto] end. intros R. apply M; [|exact R]. left. reflexivity.
Qed.
(** a step of the thread that has the lock *)
Lemma home_crit home w f l a p p' b w' f' l' : locked_by l (a ++ p :: b) -> critical p = true ->
  Forall (at_home home w f) (a ++ p :: b) -> at_home home w' f' p' -> (l' = None -> w' = home) ->
  homely home (mkState w' f' l' (a ++ p' :: b)).
Proof.
  intros L C F H W. split; [|exact W]. cbn [cwd files threads].
  assert (R : forall q, In q (a ++ b) -> at_home home w' f' q).
  { intros q I. eapply at_home_nc; [eapply locked_rest; eauto|]. rewrite Forall_forall in F. apply F. apply in_app_iff in I. apply in_app_iff. cbn. tauto. }
  apply Forall_forall. intros q I. apply in_app_iff in I. cbn in I. destruct I as [I|[<-|I]]; [|exact H|]; apply R; apply in_app_iff; tauto.
Qed.
Lemma home_same home w f l a p p' b : Forall (at_home home w f) (a ++ p :: b) -> (l = None -> w = home) -> at_home home w f p' -> 
  homely home (mkState w f l (a ++ p' :: b)).
Proof.
  intros F W H. split; [|exact W]. cbn [cwd files threads]. apply Forall_app in F as [A B]. inversion B; subst. apply Forall_app. auto.
Qed.

Lemma home_step home f0 ls s l s' : good f0 ls s -> homely home s -> lost l = false -> step s l s' -> homely home s'.
Proof.
  intros G [F W] NL ST. destruct G as [L SH O C].
  destruct ST; cbn [lock threads files cwd] in *; cbn [lost] in NL; try discriminate.
  all: try (assert (P0 := F); rewrite Forall_app in P0; destruct P0 as [_ P0]; inversion P0 as [|? ? P1 _]; subst; clear P0; cbn [at_home] in P1).
  all: try (eapply home_same; [exact F|exact W|]; cbn [at_home]; solve [exact Logic.I|assumption|tauto|auto]).
  all: try pose proof (proj1 O) as ND0.
  all: try (eapply home_crit; [exact L|reflexivity|exact F|cbn [at_home]|intros LN; try (pose proof (proj1 (locked_at _ _ _ L) eq_refl); congruence)]).
  all: try solve [tauto|assumption|auto].
  - eapply home_same; [exact F|discriminate|exact (W eq_refl)].
  - split; [exact P1|]. left. rewrite P1. reflexivity.
  - match goal with H : syscall _ _ _ _ |- _ => apply (@syscall_refers _ _ _ _ _ _ H) end. apply P1.
  - split; [reflexivity|]. eapply refers_unique; eauto.
  - discriminate.
  - split; [|exact W]. cbn [cwd files threads]. eapply Forall_impl; [|exact F]. intros q. apply at_home_mono. intros n y _ R. right. exact R.
  - split; [|exact W]. cbn [cwd files threads]. rewrite Forall_forall in *. intros q I. specialize (F q I). revert F. apply at_home_mono.
    intros n y IN R. apply refers_without; [|exact R]. intros ->. apply in_app_iff in IN as [IN|IN].
    + match goal with H : ~ In fd (concat (map held _)) |- _ => apply H end. apply in_concat. exists (held q). split; [apply in_map; exact I|exact IN].
    + match goal with H : ~ In fd (concat (map given _)) |- _ => apply H end. apply in_concat. exists (given q). split; [apply in_map; exact I|exact IN].
Qed.

Lemma home_runs home f n ls s : NoDup (fds f) -> runs (initial home f n) ls s -> Forall (fun l => lost l = false) ls -> homely home s.
Proof.
  intros ND R NL. induction R as [|ls s l s' R IH ST].
  - split; [|reflexivity]. cbn. apply Forall_forall. intros p I. apply repeat_spec in I. subst. exact Logic.I.
  - apply Forall_app in NL as [NL1 NL2]. apply Forall_inv in NL2. exact (home_step (good_runs ND R) (IH NL1) NL2 ST).
Qed.

(** As long as no way back failed: every system call is made in the directory its descriptor refers to, or for AT_FDCWD in
    that of the process, whatever the other threads do; and that is the current directory whenever no call is in progress. *)
Theorem C118_in_directory home f n ls s t d dir r s' : NoDup (fds f) -> runs (initial home f n) ls s ->
  (forall i, ~ In (Lost i) ls) -> step s (Runs t d dir r) s' ->
  cwd s = dir /\ match d with CWD => dir = home | FD m => refers (files s) m dir end.
Proof.
  intros ND R NL ST. assert (F : Forall (fun l => lost l = false) ls).
  { apply Forall_forall. intros [] I; try reflexivity. destruct (NL _ I). }
  destruct (home_runs ND R F) as [H _].
  remember (Runs t d dir r) as l eqn:E. destruct ST; try discriminate; injection E as <- <- <- <-; cbn [cwd threads files] in *;
    apply Forall_app in H as [_ H]; inversion H as [|? ? P1 _]; subst; cbn [at_home] in P1; split; try reflexivity; tauto.
Qed.
Theorem C118_directory_restored home f n ls s : NoDup (fds f) -> runs (initial home f n) ls s ->
  (forall i, ~ In (Lost i) ls) -> (forall p, In p (threads s) -> critical p = false) -> cwd s = home.
Proof.
  intros ND R NL NC. assert (F : Forall (fun l => lost l = false) ls).
  { apply Forall_forall. intros [] I; try reflexivity. destruct (NL _ I). }
  destruct (home_runs ND R F) as [_ W]. apply W. destruct (lock s) as [t|] eqn:LS; [|reflexivity]. exfalso.
  assert (X : exists p, nth_error (threads s) t = Some p /\ critical p = true).
  { clear -ND R LS. pose proof (good_runs ND R) as G. pose proof (g_lock G) as L.
    destruct (nth_error (threads s) t) as [p|] eqn:E.
    - exists p. split; [reflexivity|]. apply (L _ _ E). exact LS.
    - exfalso. revert t LS E. clear L G. induction R as [|ls s l s' R IH ST]; intros t LS E; [discriminate|].
      assert (LT : forall a p p' (b : list pc) i, nth_error (a ++ p' :: b) i = None -> nth_error (a ++ p :: b) i = None).
      { intros a p p' b i H. apply nth_error_None in H. apply nth_error_None. rewrite app_length in *. exact H. }
      destruct ST; cbn [lock threads] in *; try discriminate; try (eapply IH; [exact LS|eapply LT; exact E]); try (eapply IH; [exact LS|exact E]).
      injection LS as <-. rewrite nth_mid, Nat.eqb_refl in E. discriminate. }
  destruct X as [p [E C]]. apply nth_error_In in E. rewrite (NC p E) in C. discriminate.
Qed.
(** no descriptor is leaked, closed twice or lost, whatever fails: when no call is in progress there are exactly those of the program *)
Theorem C118_descriptors home f n ls s : NoDup (fds f) -> runs (initial home f n) ls s ->
  (forall p, In p (threads s) -> p = Idle) -> Permutation (fds (files s)) (program (fds f) ls).
Proof.
  intros ND R ID. destruct (g_own (good_runs ND R)) as [_ P].
  replace (concat (map held (threads s))) with (@nil nat) in P; [rewrite app_nil_r in P; exact P|].
  symmetry. assert (forall l, (forall p, In p l -> p = Idle) -> concat (map held l) = []) as H.
  { induction l as [|p l IH]; intros H; [reflexivity|]. cbn. rewrite (H p) by (left; reflexivity). apply IH. intros q I. apply H. right. exact I. }
  apply H, ID.
Qed.
(** each call of a thread makes its system call at most once, and returns its result unless something failed *)
Theorem C118_calls home f n ls s t : NoDup (fds f) -> runs (initial home f n) ls s -> nth_error (threads s) t = Some Idle ->
  calls t (filter (mine t) ls).
Proof. intros ND R E. exact (g_calls (good_runs ND R) _ E). Qed.
(** no deadlock: if a call is in progress, some call can go on *)
Theorem C118_progress home f n ls s p : NoDup (fds f) -> runs (initial home f n) ls s -> In p (threads s) -> p <> Idle ->
  exists l s', step s l s' /\ forall t d k fd, l <> Begins t d k /\ l <> Opens fd /\ l <> Closes fd.
Proof.
  intros ND R I NI. pose proof (good_runs ND R) as G. destruct s as [w fl lk ths]. destruct G as [L SH _ _]. cbn [lock threads] in *.
  assert (CRIT : forall q, In q ths -> critical q = true -> exists l s', step (mkState w fl lk ths) l s' /\ forall t d k fd, l <> Begins t d k /\ l <> Opens fd /\ l <> Closes fd).
  { intros q IQ CQ. apply in_split in IQ as [a [b ->]]. pose proof SH as SQ. apply Forall_app in SQ as [_ SQ]. inversion SQ as [|? ? S1 _]; subst.
    destruct q as [|d k|d k|n0 k c0|d k|n0 k c0|n0 k c0|d k oc r|d k c0 r ok|d k r ok|d k r ok]; try discriminate.
    - destruct d as [|m].
      + eexists _, _; split; [apply s_call_cwd with (r := None) (f' := fl); destruct k; reflexivity|intros; repeat split; discriminate].
      + eexists _, _; split; [apply s_open_fails|intros; repeat split; discriminate].
    - eexists _, _; split; [apply s_chdir_fails|intros; repeat split; discriminate].
    - eexists _, _; split; [apply s_give_up|intros; repeat split; discriminate].
    - eexists _, _; split; [apply s_close_failed|intros; repeat split; discriminate].
    - eexists _, _; split; [apply s_call with (r := None) (f' := fl); destruct k; reflexivity|intros; repeat split; discriminate].
    - cbn in S1. destruct d.
      + subst oc. eexists _, _; split; [apply s_unlock_cwd|intros; repeat split; discriminate].
      + destruct oc as [c|]; [|congruence]. eexists _, _; split; [apply s_back_fails|intros; repeat split; discriminate].
    - eexists _, _; split; [apply s_close|intros; repeat split; discriminate].
    - eexists _, _; split; [apply s_unlock|intros; repeat split; discriminate]. }
  destruct (critical p) eqn:CP; [eapply CRIT; eauto|].
  destruct (existsb critical ths) eqn:EX.
  { apply existsb_exists in EX as [q [IQ CQ]]. eapply CRIT; eauto. }
  destruct p; try discriminate; try congruence.
  - assert (LN : lk = None).
    { destruct lk as [t|]; [|reflexivity]. exfalso. destruct (nth_error ths t) as [q|] eqn:E.
      - assert (critical q = true) by (apply (L _ _ E); reflexivity). apply nth_error_In in E.
        assert (existsb critical ths = true) by (apply existsb_exists; eauto). congruence.
      - clear -R E ND. remember (mkState w fl (Some t) ths) as s eqn:ES. revert w fl t ths ES E. induction R as [|ls s l s' R IH ST]; intros w fl t ths ES E; [discriminate|].
        assert (LT : forall a p p' (b : list pc) i, nth_error (a ++ p' :: b) i = None -> nth_error (a ++ p :: b) i = None).
        { intros a p p' b i H. apply nth_error_None in H. apply nth_error_None. rewrite app_length in *. exact H. }
        destruct ST; injection ES as E1 E2 E3 E4; subst; try discriminate; try (eapply IH; [reflexivity|eapply LT; exact E]); try (eapply IH; [reflexivity|exact E]).
        rewrite nth_mid, Nat.eqb_refl in E. discriminate. }
    subst lk. apply in_split in I as [a [b ->]]. eexists _, _; split; [apply s_lock|intros; repeat split; discriminate].
  - apply in_split in I as [a [b ->]]. destruct ok; (eexists _, _; split; [first [apply s_return|apply s_cleanup]|intros; repeat split; discriminate]).
Qed.
(** It is not enough that the program changes its directory nowhere else (generic_at.c's criterion 2): a thread outside of these
    functions can find itself in the directory of another thread's call. *)
Theorem C118_criterion_2_refuted : exists ls s, runs (initial 1 [(5, 2)] 2) ls s /\ (forall i, ~ In (Lost i) ls) /\
  nth_error (threads s) 1 = Some Idle /\ cwd s = 2.
Proof.
  eexists _, _. split; [|split; [|split]].
  - eapply r_step; [eapply r_step; [eapply r_step; [eapply r_step; [apply r_nil|apply (@s_begin _ _ _ [] (FD 5) KOpen [Idle])]|apply (@s_lock _ _ [] _ _ [Idle])]|]|].
    + apply (@s_open _ _ _ [] _ _ [Idle] 6). cbn. intuition congruence.
    + apply (@s_chdir _ _ _ [] _ _ _ [Idle] 2). right. left. reflexivity.
  - cbn. intros i H. intuition discriminate.
  - reflexivity.
  - reflexivity.
Qed.
(** an openat that goes all the way, another that fails to go back: nothing stays open but what was returned *)
Example C118_nonvacuous : exists ls s, runs (initial 1 [(5, 2)] 2) ls s /\ threads s = [Idle; Idle] /\
  In (Runs 0 (FD 5) 2 (Some 7)) ls /\ In (Returns 0 (FD 5) KOpen (Some 7)) ls /\ files s = [(7, 9); (5, 2)] /\ cwd s = 1.
Proof.
  eexists _, _. split; [|split; [|split; [|split; [|split]]]].
  - eapply r_step; [eapply r_step; [eapply r_step; [eapply r_step; [eapply r_step; [eapply r_step; [eapply r_step; [eapply r_step; [eapply r_step; [apply r_nil
      |apply (@s_begin _ _ _ [] (FD 5) KOpen [Idle])]|apply (@s_lock _ _ [] _ _ [Idle])]|]|]|]|]|]|]|].
    + apply (@s_open _ _ _ [] _ _ [Idle] 6). cbn. intuition congruence.
    + apply (@s_chdir _ _ _ [] _ _ _ [Idle] 2). right. left. reflexivity.
    + apply (@s_call _ _ _ [] _ _ _ [Idle] (Some 7) [(7, 9); (6, 1); (5, 2)]). split; [cbn; intuition congruence|exists 9; reflexivity].
    + apply (@s_back _ _ _ [] _ _ _ _ [Idle] 1). right. left. reflexivity.
    + apply (@s_close _ _ _ [] _ _ _ _ _ [Idle]).
    + apply (@s_unlock _ _ _ [] _ _ _ _ [Idle]).
    + apply (@s_return _ _ _ [] _ _ _ [Idle]).
  - reflexivity.
  - cbn. tauto.
  - cbn. tauto.
  - reflexivity.
  - reflexivity.
Qed.
Print Assumptions C118_in_directory.
Print Assumptions C118_directory_restored.
Print Assumptions C118_descriptors.
Print Assumptions C118_calls.
Print Assumptions C118_progress.
Print Assumptions C118_criterion_2_refuted.
