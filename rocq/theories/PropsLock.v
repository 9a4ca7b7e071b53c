(** C99-C100: file locks (libutils/file_lib.c). *)
From Verif Require Import Prelude PreludeFacts Str LockModel LockSpec.
Set Implicit Arguments.

Section WithFiles.
Variable file_of : path -> inode.
Notation target := LockSpec.target.
Notation claims := (LockSpec.claims file_of).
Notation target_file := (LockSpec.target_file file_of).
Notation hist := (list (pid * call * Z)).

(** a call that is about to return counts as completed *)
Definition eff_hist (p : pid) (run : option (call * prog)) (h : hist) : hist := match run with Some (c, Ret r _) => (p, c, r) :: h | _ => h end.
Definition eff_mem (mm : nat -> option nat) (run : option (call * prog)) (l : nat) : option nat :=
  match run with Some (c, Ret _ fd) => if l =? lock_of c then fd else mm l | _ => mm l end.
Definition after_open (m : mode) (w : bool) (n fd : nat) : prog := LockFD n fd m w (fun ret => Ret ret (if (ret =? 0)%Z then Some fd else None)).
Definition shape (o : os) (p : pid) (mm : nat -> option nat) (c : call) (pr : prog) : Prop :=
  match pr with
  | Ret _ _ | Stop => True
  | Sys _ _ =>
      match c with
      | LockPath m l f w => mm l = None /\ ((exists n, pr = body n None c) \/
          exists n fd, pr = after_open m w n fd /\ fd_file o p fd = Some (file_of f) /\ forall l', mm l' <> Some fd)
      | Lock m l w => exists n fd, mm l = Some fd /\ pr = LockFD n fd m w (fun r => Ret r (Some fd))
      | Unlock _ l cl => exists fd, mm l = Some fd /\ pr = ExclusiveFileUnlock (Some fd) cl
      | Check l => exists fd, mm l = Some fd /\ pr = ExclusiveFileLockCheck (Some fd)
      end
  end.
Record PI (o : os) (p : pid) (mm : nat -> option nat) (run : option (call * prog)) (h : hist) : Prop := mkPI
  { pi_nodup : NoDup (map fst (fds o p));
    pi_mem : forall l, match eff_mem mm run l with
                       | Some fd => exists f, target (eff_hist p run h) p l = Some f /\ fd_file o p fd = Some (file_of f)
                       | None => target (eff_hist p run h) p l = None
                       end;
    pi_inj : forall l l' fd, eff_mem mm run l = Some fd -> eff_mem mm run l' = Some fd -> l = l';
    pi_claims : forall i m, claims (eff_hist p run h) p i = Some m -> held o i p = Some m;
    pi_shape : match run with Some (c, pr) => shape o p mm c pr | None => True end }.
Definition compatible (o : os) : Prop := forall i p q m m', p <> q -> held o i p = Some m -> held o i q = Some m' -> excludes m m' = false.
Definition Inv (s : state) : Prop := compatible (sys_state s) /\ forall p, PI (sys_state s) p (mem s p) (running s p) (history s).

Lemma target_other q c r h p l : q <> p -> target ((q, c, r) :: h) p l = target h p l.
Proof. intros N. cbn. now rewrite (proj2 (Nat.eqb_neq q p) N). Qed.
Lemma claims_other q c r h p i : q <> p -> claims ((q, c, r) :: h) p i = claims h p i.
Proof. intros N. cbn. now rewrite (proj2 (Nat.eqb_neq q p) N). Qed.
(** facts about a process depend only on its own part of the world *)
Lemma PI_local o o' p mm run h h' : fds o' p = fds o p -> (forall i, held o' i p = held o i p) ->
  (forall l, target h' p l = target h p l) -> (forall i, claims h' p i = claims h p i) -> PI o p mm run h -> PI o' p mm run h'.
Proof.
  intros F H T C [A B D E G].
  assert (TE : forall l, target (eff_hist p run h') p l = target (eff_hist p run h) p l).
  { intros l. unfold eff_hist. destruct run as [[c [r fd|sc k|]]|]; auto. cbn [LockSpec.target]. now rewrite T. }
  assert (TF : forall l, target_file h' p l = target_file h p l) by (intros l; unfold LockSpec.target_file; now rewrite T).
  assert (CE : forall i, claims (eff_hist p run h') p i = claims (eff_hist p run h) p i).
  { intros i. unfold eff_hist. destruct run as [[c [r fd|sc k|]]|]; auto. cbn [LockSpec.claims]. rewrite Nat.eqb_refl. destruct c; rewrite ?TF, C; reflexivity. }
  assert (FF : forall fd, fd_file o' p fd = fd_file o p fd) by (intros fd; unfold fd_file; now rewrite F).
  constructor.
  - now rewrite F.
  - intros l. specialize (B l). rewrite TE. destruct (eff_mem mm run l); auto. destruct B as (f & B1 & B2). exists f. now rewrite FF.
  - exact D.
  - intros i m X. rewrite H. apply E. now rewrite <- CE.
  - destruct run as [[c pr]|]; auto. unfold shape in *. destruct pr; auto. destruct c; auto.
    destruct G as [G1 [G2|(n & fd & G2 & G3 & G4)]]; split; auto. right. exists n, fd. now rewrite FF.
Qed.
Lemma sys_local p sc o a o' q : sys file_of p sc o a o' -> q <> p -> fds o' q = fds o q /\ forall i, held o' i q = held o i q.
Proof.
  intros S N. assert (NE : (q =? p) = false) by (now apply Nat.eqb_neq).
  destruct S; cbn; rewrite ?NE; auto; (split; [reflexivity|]); intros j; rewrite ?andb_false_r; reflexivity.
Qed.
Lemma conflict_free o i p m : ~ conflict o i p m -> forall q m', q <> p -> held o i q = Some m' -> excludes m m' = false /\ excludes m' m = false.
Proof.
  intros C q m' N H. destruct m, m'; auto; exfalso; apply C; exists q; rewrite H; auto.
Qed.
Lemma sys_compatible p sc o a o' : sys file_of p sc o a o' -> compatible o -> compatible o'.
Proof.
  intros S C. destruct S as [| |o fd m w i F NC| |o fd i F| | | | |o fd i r F|]; auto.
  - intros j u v m1 m2 N H1 H2. cbn in H1, H2.
    destruct (Nat.eqb_spec j i) as [->|]; cbn [andb] in *; [|exact (C j u v m1 m2 N H1 H2)].
    destruct (Nat.eqb_spec u p) as [->|NU], (Nat.eqb_spec v p) as [->|NV]; try congruence.
    + injection H1 as <-. exact (proj1 (conflict_free NC NV H2)).
    + injection H2 as <-. exact (proj2 (conflict_free NC NU H1)).
    + exact (C i u v m1 m2 N H1 H2).
  - intros j u v m1 m2 N H1 H2. cbn in H1, H2.
    destruct ((j =? i) && (u =? p)); [discriminate|]. destruct ((j =? i) && (v =? p)); [discriminate|]. exact (C j u v m1 m2 N H1 H2).
  - intros j u v m1 m2 N H1 H2. cbn in H1, H2.
    destruct ((j =? i) && (u =? p)); [discriminate|]. destruct ((j =? i) && (v =? p)); [discriminate|]. exact (C j u v m1 m2 N H1 H2).
Qed.
Lemma fd_file_In o p fd i : fd_file o p fd = Some i -> In fd (map fst (fds o p)).
Proof.
  unfold fd_file. destruct (find _ _) as [x|] eqn:F; [|discriminate]. intros _. apply find_some in F as [I E]. apply Nat.eqb_eq in E. subst. now apply in_map.
Qed.

(** starting a call *)
Lemma PI_call o p mm h c n : PI o p mm None h -> PI o p mm (Some (c, body n (mm (lock_of c)) c)) h.
Proof.
  intros [A B D E _]. cbn [eff_hist eff_mem] in *.
  assert (NR : forall r fd, body n (mm (lock_of c)) c <> Ret r fd).
  { intros r fd. destruct c as [[] l f w|[] l w|[] l cl|l]; cbn; destruct (mm l); try discriminate;
    try (destruct n; cbn; discriminate); try (destruct cl; discriminate). }
  assert (EH : eff_hist p (Some (c, body n (mm (lock_of c)) c)) h = h).
  { unfold eff_hist. destruct (body n (mm (lock_of c)) c) eqn:X; auto. exfalso; exact (NR _ _ eq_refl). }
  assert (EM : forall l, eff_mem mm (Some (c, body n (mm (lock_of c)) c)) l = mm l).
  { intros l. unfold eff_mem. destruct (body n (mm (lock_of c)) c) eqn:X; auto. exfalso; exact (NR _ _ eq_refl). }
  constructor; auto.
  - intros l. rewrite EH, EM. exact (B l).
  - intros l l' fd. rewrite !EM. apply D.
  - intros i m. rewrite EH. apply E.
  - unfold shape. destruct (body n (mm (lock_of c)) c) as [|sc k|] eqn:X; auto.
    destruct c as [m l f w|m l w|m l cl|l]; cbn [lock_of] in X.
    + destruct (mm l) eqn:M; [destruct m; discriminate X|]. split; auto. left. exists n. symmetry. exact X.
    + destruct (mm l) as [fd|] eqn:M; [|destruct m; discriminate X]. exists n, fd. split; auto. rewrite <- X. destruct m; reflexivity.
    + destruct (mm l) as [fd|] eqn:M; [|destruct m; discriminate X]. exists fd. split; auto. rewrite <- X. destruct m; reflexivity.
    + destruct (mm l) as [fd|] eqn:M; [|discriminate X]. exists fd. split; auto.
Qed.
(** returning *)
Lemma PI_return o p mm h c r fd : PI o p mm (Some (c, Ret r fd)) h -> PI o p (fun l => if l =? lock_of c then fd else mm l) None ((p, c, r) :: h).
Proof. intros [A B D E _]. constructor; auto. Qed.

Lemma fd_file_new o p fd i fd' : fd_file (set_fds o p ((fd, i) :: fds o p)) p fd' = if fd =? fd' then Some i else fd_file o p fd'.
Proof. unfold fd_file. cbn. rewrite Nat.eqb_refl. cbn. destruct (fd =? fd'); reflexivity. Qed.
Lemma fd_file_held o i p m q fd : fd_file (set_held o i p m) q fd = fd_file o q fd.
Proof. reflexivity. Qed.
Lemma fd_file_closed o p fd i m fd' : fd' <> fd ->
  fd_file (set_held (set_fds o p (filter (fun x => negb (fst x =? fd)) (fds o p))) i p m) p fd' = fd_file o p fd'.
Proof.
  intros N. unfold fd_file. cbn. rewrite Nat.eqb_refl. induction (fds o p) as [|[a b] l IH]; [reflexivity|]. cbn [filter fst].
  destruct (Nat.eqb_spec a fd) as [->|NA]; cbn [negb find fst].
  - rewrite IH. destruct (Nat.eqb_spec fd fd'); [congruence|reflexivity].
  - destruct (a =? fd'); [reflexivity|exact IH].
Qed.
Lemma nodup_filter (l : list (nat * inode)) g : NoDup (map fst l) -> NoDup (map fst (filter g l)).
Proof.
  induction l as [|x l IH]; cbn; [auto|]. intros N. inversion N as [|y z A B]; subst. destruct (g x); cbn; auto. constructor; auto.
  intros I. apply A. apply in_map_iff in I as (y & E & I). apply filter_In in I as [I _]. apply in_map_iff. eauto.
Qed.
Definition quiet (pr : prog) : Prop := match pr with Ret _ _ => False | _ => True end.
Lemma LockFD_quiet n fd m w k : quiet (LockFD n fd m w k).
Proof. destruct n; exact I. Qed.
(** while the program has not come to its end the account is that of the completed calls *)
Lemma PI_quiet o p mm h c pr : quiet pr -> NoDup (map fst (fds o p)) ->
  (forall l, match mm l with Some fd => exists f, target h p l = Some f /\ fd_file o p fd = Some (file_of f) | None => target h p l = None end) ->
  (forall l l' fd, mm l = Some fd -> mm l' = Some fd -> l = l') -> (forall i m, claims h p i = Some m -> held o i p = Some m) ->
  shape o p mm c pr -> PI o p mm (Some (c, pr)) h.
Proof. intros Q A B D E G. destruct pr as [r fd|sc k|]; [destruct Q| |]; constructor; auto. Qed.
Lemma PI_loud o p mm h c sc k : PI o p mm (Some (c, Sys sc k)) h -> NoDup (map fst (fds o p)) /\
  (forall l, match mm l with Some fd => exists f, target h p l = Some f /\ fd_file o p fd = Some (file_of f) | None => target h p l = None end) /\
  (forall l l' fd, mm l = Some fd -> mm l' = Some fd -> l = l') /\ (forall i m, claims h p i = Some m -> held o i p = Some m) /\
  shape o p mm c (Sys sc k).
Proof. intros [A B D E G]. cbn [eff_hist eff_mem] in *. auto. Qed.
(** a call that returns without having changed anything, with the descriptor as before *)
Lemma PI_unchanged o p mm h c r : NoDup (map fst (fds o p)) ->
  (forall l, match mm l with Some fd => exists f, target h p l = Some f /\ fd_file o p fd = Some (file_of f) | None => target h p l = None end) ->
  (forall l l' fd, mm l = Some fd -> mm l' = Some fd -> l = l') -> (forall i m, claims h p i = Some m -> held o i p = Some m) ->
  match c with LockPath _ l _ _ => r <> 0%Z /\ mm l = None | Unlock _ _ cl => cl = false | Lock _ _ _ => r <> 0%Z | Check _ => True end ->
  PI o p mm (Some (c, Ret r (mm (lock_of c)))) h.
Proof.
  intros A B D E G.
  assert (EM : forall l, eff_mem mm (Some (c, Ret r (mm (lock_of c)))) l = mm l).
  { intros l. cbn. destruct (Nat.eqb_spec l (lock_of c)); congruence. }
  constructor; auto.
  - intros l. rewrite EM. specialize (B l). cbn [eff_hist LockSpec.target]. rewrite Nat.eqb_refl. cbn [andb].
    destruct (Nat.eqb_spec (lock_of c) l) as [<-|N]; [|exact B].
    destruct c as [m l f w|m l w|m l cl|l]; cbn [lock_of] in *; auto.
    + destruct G as [G1 G2]. rewrite G2 in *. now rewrite (proj2 (Z.eqb_neq _ _) G1).
    + subst cl. exact B.
  - intros l l' fd. rewrite !EM. apply D.
  - intros i m. cbn [eff_hist LockSpec.claims]. rewrite Nat.eqb_refl. destruct c as [m' l f w|m' l w|m' l cl|l]; auto.
    + rewrite (proj2 (Z.eqb_neq _ _) (proj1 G)). cbn [andb]. apply E.
    + rewrite (proj2 (Z.eqb_neq _ _) G). cbn [andb]. apply E.
    + destruct (match target_file h p l with Some j => j =? i | None => false end); [discriminate|]. apply E.
  - exact I.
Qed.
Lemma held_same o i p m : held (set_held o i p m) i p = m.
Proof. cbn. now rewrite !Nat.eqb_refl. Qed.
Lemma held_diff o i p m j : j <> i -> held (set_held o i p m) j p = held o j p.
Proof. intros N. cbn. now rewrite (proj2 (Nat.eqb_neq j i) N). Qed.
Lemma PI_sys o p mm h c sc k a o' : PI o p mm (Some (c, Sys sc k)) h -> sys file_of p sc o a o' -> PI o' p mm (Some (c, k a)) h.
Proof.
  intros P S. apply PI_loud in P as (A & B & D & E & G). unfold shape in G. destruct c as [m l f w|m l w|m l cl|l].
  - destruct G as [ML [[n X]|(n & fd & X & FF & NM)]].
    + (* opening *)
      assert (SC : sc = Open f (match m with Exclusive => true | Shared => false end) /\ forall a, k a = match a with inr _ => Ret (-2) None | inl fd => after_open m w n fd end).
      { destruct m; cbn in X; injection X; intros -> ->; split; auto. }
      destruct SC as [-> K]. rewrite K. inversion S as [o1 f1 w1 fd NI|o1 f1 w1| | | | | | | | |]; subst.
      * apply PI_quiet.
        -- apply LockFD_quiet.
        -- cbn. rewrite Nat.eqb_refl. cbn. constructor; auto.
        -- intros l'. specialize (B l'). destruct (mm l') as [fd'|]; auto. destruct B as (g & B1 & B2). exists g. split; auto.
           rewrite fd_file_new. destruct (Nat.eqb_spec fd fd') as [<-|]; auto. exfalso. apply NI. exact (fd_file_In _ _ _ B2).
        -- exact D.
        -- exact E.
        -- unfold shape. destruct (after_open m w n fd) eqn:Y; auto. split; auto. right. exists n, fd. split; auto.
           rewrite fd_file_new, Nat.eqb_refl. split; auto. intros l' M. specialize (B l'). rewrite M in B. destruct B as (g & _ & B2). apply NI. exact (fd_file_In _ _ _ B2).
      * rewrite <- ML. apply (@PI_unchanged o' p mm h (LockPath m l f w)); auto. split; [lia|auto].
    + (* locking *)
      destruct n as [|n]; [discriminate X|]. unfold after_open in X. cbn [LockFD] in X. injection X; intros -> ->.
      inversion S as [| |o1 fd1 m1 w1 i F NC|o1 fd1 m1 w1 e| | | | | | |]; subst.
      * rewrite FF in F. injection F as <-. cbn [Z.eqb]. cbv iota beta.
        constructor; auto.
        -- intros l'. cbn [eff_mem lock_of eff_hist LockSpec.target]. rewrite Nat.eqb_refl. cbn [andb]. rewrite (Nat.eqb_sym l l').
           destruct (Nat.eqb_spec l' l) as [->|N]; [exists f; split; auto|exact (B l')].
        -- intros l1 l2 fd'. cbn [eff_mem lock_of]. destruct (Nat.eqb_spec l1 l), (Nat.eqb_spec l2 l); subst; auto.
           ++ intros X1 X2. injection X1 as <-. now apply NM in X2.
           ++ intros X1 X2. injection X2 as <-. now apply NM in X1.
           ++ apply D.
        -- intros i m2. cbn [eff_hist LockSpec.claims]. rewrite Nat.eqb_refl. cbn [andb Z.eqb]. destruct (Nat.eqb_spec (file_of f) i) as [<-|N].
           ++ rewrite held_same. auto.
           ++ rewrite held_diff by auto. apply E.
        -- exact I.
      * assert (FAIL : PI o' p mm (Some (LockPath m l f w, Ret (-1) None)) h).
        { rewrite <- ML. apply (@PI_unchanged o' p mm h (LockPath m l f w)); auto. split; [lia|auto]. }
        destruct e; [|exact FAIL]. destruct w; [|exact FAIL]. apply PI_quiet; auto; [apply LockFD_quiet|].
        change (shape o' p mm (LockPath m l f true) (after_open m true n fd)). unfold shape. destruct (after_open m true n fd) eqn:Y; auto. split; auto. right. exists n, fd. auto.
  - destruct G as (n & fd & ML & X). destruct n as [|n]; [discriminate X|]. cbn [LockFD] in X. injection X; intros -> ->.
    inversion S as [| |o1 fd1 m1 w1 i F NC|o1 fd1 m1 w1 e| | | | | | |]; subst.
    + pose proof (B l) as BL. rewrite ML in BL. destruct BL as (f & T & FF). rewrite FF in F. injection F as <-.
      constructor; auto.
      * intros l'. cbn [eff_mem lock_of eff_hist LockSpec.target]. rewrite Nat.eqb_refl. cbn [andb]. rewrite (Nat.eqb_sym l l').
        destruct (Nat.eqb_spec l' l) as [->|N]; [exists f; split; auto|exact (B l')].
      * intros l1 l2 fd'. cbn [eff_mem lock_of]. destruct (Nat.eqb_spec l1 l), (Nat.eqb_spec l2 l); subst; auto; intros X1 X2.
        -- apply (D l l2 fd'); congruence.
        -- apply (D l1 l fd'); congruence.
        -- exact (D _ _ _ X1 X2).
      * intros i m2. cbn [eff_hist LockSpec.claims]. rewrite Nat.eqb_refl. unfold LockSpec.target_file. rewrite T. cbn [andb Z.eqb option_map].
        destruct (Nat.eqb_spec (file_of f) i) as [<-|N].
        -- rewrite held_same. auto.
        -- rewrite held_diff by auto. apply E.
      * exact I.
    + assert (FAIL : PI o' p mm (Some (Lock m l w, Ret (-1) (Some fd))) h).
      { rewrite <- ML. apply (@PI_unchanged o' p mm h (Lock m l w)); auto. lia. }
      destruct e; [|exact FAIL]. destruct w; [|exact FAIL]. apply PI_quiet; auto; [apply LockFD_quiet|].
      unfold shape. destruct (LockFD n fd m true (fun r => Ret r (Some fd))) eqn:Y; auto. exists n, fd. auto.
  - destruct G as (fd & ML & X). pose proof (B l) as BL. rewrite ML in BL. destruct BL as (f & T & FF).
    cbn [ExclusiveFileUnlock] in X. destruct cl.
    + injection X; intros -> ->. inversion S as [| | | | | | | | |o1 fd1 i r F|o1 fd1 e F]; subst; [|congruence].
      rewrite FF in F. injection F as <-.
      assert (KA : exists r, match a with inr _ => Ret (-1) None | inl _ => Ret 0 None end = Ret r None) by (destruct a; eauto). destruct KA as [r ->].
      constructor.
      * cbn. rewrite Nat.eqb_refl. cbn. now apply nodup_filter.
      * intros l'. cbn [eff_mem lock_of eff_hist LockSpec.target]. rewrite Nat.eqb_refl. cbn [andb]. rewrite (Nat.eqb_sym l l').
        destruct (Nat.eqb_spec l' l) as [->|N]; [reflexivity|]. pose proof (B l') as BL. destruct (mm l') as [fd'|] eqn:M'; auto.
        destruct BL as (g & B1 & B2). exists g. split; auto. rewrite fd_file_closed; auto. intros ->. apply N. exact (D _ _ _ M' ML).
      * intros l1 l2 fd'. cbn [eff_mem lock_of]. destruct (Nat.eqb_spec l1 l), (Nat.eqb_spec l2 l); subst; try discriminate. apply D.
      * intros i m2. cbn [eff_hist LockSpec.claims]. rewrite Nat.eqb_refl. unfold LockSpec.target_file. rewrite T. cbn [option_map].
        destruct (Nat.eqb_spec (file_of f) i) as [<-|N]; [discriminate|]. intros C. rewrite held_diff by auto. cbn. now apply E.
      * exact I.
    + unfold UnlockFD in X. injection X; intros -> ->. inversion S as [| | | |o1 fd1 i F|o1 fd1 e| | | | |]; subst.
      * rewrite FF in F. injection F as <-. constructor; auto.
        -- intros l'. cbn [eff_mem lock_of eff_hist LockSpec.target]. rewrite Nat.eqb_refl. cbn [andb]. rewrite (Nat.eqb_sym l l').
           destruct (Nat.eqb_spec l' l) as [->|N]; [exists f; auto|exact (B l')].
        -- intros l1 l2 fd'. cbn [eff_mem lock_of]. destruct (Nat.eqb_spec l1 l), (Nat.eqb_spec l2 l); subst; auto; intros X1 X2.
           ++ apply (D l l2 fd'); congruence.
           ++ apply (D l1 l fd'); congruence.
           ++ exact (D _ _ _ X1 X2).
        -- intros i m2. cbn [eff_hist LockSpec.claims]. rewrite Nat.eqb_refl. unfold LockSpec.target_file. rewrite T. cbn [option_map].
           destruct (Nat.eqb_spec (file_of f) i) as [<-|N]; [discriminate|]. rewrite held_diff by auto. apply E.
        -- exact I.
      * rewrite <- ML. apply (@PI_unchanged o' p mm h (Unlock m l false)); auto.
  - destruct G as (fd & ML & X). cbn [ExclusiveFileLockCheck] in X. injection X; intros -> ->.
    assert (O : o' = o) by (inversion S; reflexivity). subst o'.
    assert (KA : exists r, match a with inr _ => Ret 0 (Some fd) | inl 1 => Ret 1 (Some fd) | inl _ => Ret 0 (Some fd) end = Ret r (Some fd)) by (destruct a as [[|[|?]]|]; eauto).
    destruct KA as [r ->]. rewrite <- ML. apply (@PI_unchanged o p mm h (Check l)); auto.
Qed.
(** the end of a process *)
Notation without p h := (filter (fun x : pid * call * Z => negb (fst (fst x) =? p)) h).
Lemma target_without p h q l : target (without p h) q l = if q =? p then None else target h q l.
Proof.
  induction h as [|[[u c] r] h IH]; [cbn; now destruct (q =? p)|]. cbn [filter fst]. destruct (Nat.eqb_spec u p) as [->|N]; cbn [negb].
  - rewrite IH. destruct (Nat.eqb_spec q p) as [->|N2]; auto. symmetry. apply target_other. auto.
  - destruct (Nat.eqb_spec u q) as [->|N2].
    + cbn [LockSpec.target]. rewrite IH, Nat.eqb_refl. now rewrite (proj2 (Nat.eqb_neq q p) N).
    + now rewrite !target_other, IH by auto.
Qed.
Lemma claims_without p h q i : claims (without p h) q i = if q =? p then None else claims h q i.
Proof.
  induction h as [|[[u c] r] h IH]; [cbn; now destruct (q =? p)|]. cbn [filter fst]. destruct (Nat.eqb_spec u p) as [->|N]; cbn [negb].
  - rewrite IH. destruct (Nat.eqb_spec q p) as [->|N2]; auto. symmetry. apply claims_other. auto.
  - destruct (Nat.eqb_spec u q) as [->|N2].
    + cbn [LockSpec.claims]. rewrite IH, Nat.eqb_refl. unfold LockSpec.target_file. rewrite (proj2 (Nat.eqb_neq q p) N).
      destruct c as [m l f w|m l w|m l cl|l]; auto; rewrite target_without, (proj2 (Nat.eqb_neq q p) N); reflexivity.
    + now rewrite !claims_other, IH by auto.
Qed.
Lemma Inv_ended s p : Inv s -> Inv (ended s p).
Proof.
  intros [C P]. split.
  - intros i u v m1 m2 N. cbn. destruct (u =? p); [discriminate|]. destruct (v =? p); [discriminate|]. now apply C.
  - intros q. unfold ended. cbn [sys_state mem running history]. unfold set_running. destruct (Nat.eqb_spec q p) as [->|N].
    + constructor; cbn [eff_mem eff_hist fds held]; rewrite ?Nat.eqb_refl; try discriminate; auto.
      * constructor.
      * intros l. now rewrite target_without, Nat.eqb_refl.
      * intros i m. now rewrite claims_without, Nat.eqb_refl.
    + apply Nat.eqb_neq in N. apply (@PI_local (sys_state s) _ q _ _ (history s)); cbn; rewrite ?N; auto.
      * intros l. now rewrite target_without, N.
      * intros i. now rewrite claims_without, N.
Qed.
Lemma Inv_step s s' : Inv s -> step file_of s s' -> Inv s'.
Proof.
  intros [C P] S. destruct S as [s p c n R|s p c sc k a o R S|s p c r fd R|s p]; [| | |apply Inv_ended; now split]; split; cbn [sys_state]; auto.
  - intros q. unfold set_running. cbn [mem running history]. destruct (Nat.eqb_spec q p) as [->|N]; [|apply P].
    apply PI_call. rewrite <- R. apply P.
  - exact (sys_compatible S C).
  - intros q. unfold set_running. cbn [mem running history]. destruct (Nat.eqb_spec q p) as [->|N].
    + eapply PI_sys; [|exact S]. rewrite <- R. apply P.
    + destruct (sys_local S N) as [F H]. apply (@PI_local (sys_state s) o q (mem s q) (running s q) (history s)); auto.
  - intros q. unfold set_running. cbn [mem running history]. destruct (Nat.eqb_spec q p) as [->|N]; cbn [andb].
    + apply PI_return. rewrite <- R. apply P.
    + apply (@PI_local (sys_state s) (sys_state s) q (mem s q) (running s q) (history s)); auto.
      * intros l. apply target_other. auto.
      * intros i. apply claims_other. auto.
Qed.
Lemma Inv_start : Inv start.
Proof. split; [intros i p q m m' _ X; discriminate X|]. intros p. constructor; cbn; auto; try discriminate. constructor. Qed.
Lemma Inv_reachable s : reachable file_of s -> Inv s.
Proof. induction 1; [apply Inv_start|eapply Inv_step; eauto]. Qed.

(** what the callers were told is true: locks of different processes exclude each other, in every
    interleaving, at every moment *)
Theorem C99_mutual_exclusion s p q i m m' : reachable file_of s -> p <> q ->
  claims (history s) p i = Some m -> ~ busy file_of s p i ->
  claims (history s) q i = Some m' -> ~ busy file_of s q i -> m = Shared /\ m' = Shared.
Proof.
  intros R N C1 B1 C2 B2. destruct (Inv_reachable R) as [C P].
  assert (G : forall u mu, claims (history s) u i = Some mu -> ~ busy file_of s u i -> held (sys_state s) i u = Some mu).
  { intros u mu CU BU. apply (pi_claims (P u)). unfold eff_hist, busy in *. destruct (running s u) as [[c [r fd|sc k|]]|]; auto.
    cbn [LockSpec.claims]. rewrite Nat.eqb_refl. destruct c as [m0 l f w|m0 l w|m0 l cl|l]; auto.
    - destruct (Nat.eqb_spec (file_of f) i); [contradiction|]. now rewrite andb_false_r.
    - destruct (target_file (history s) u l) as [j|]; [|now rewrite andb_false_r]. destruct (Nat.eqb_spec j i); [congruence|]. now rewrite andb_false_r.
    - destruct (target_file (history s) u l) as [j|]; auto. destruct (Nat.eqb_spec j i); [congruence|auto]. }
  specialize (C i p q m m' N (G _ _ C1 B1) (G _ _ C2 B2)). destruct m, m'; auto; discriminate.
Qed.

(** the operating system agrees: while a process claims a lock it has it, so that also other
    programs that use fcntl(2) are kept out *)
Theorem C99_claims_are_held s p i m : reachable file_of s -> claims (history s) p i = Some m -> ~ busy file_of s p i -> held (sys_state s) i p = Some m.
Proof.
  intros R CU BU. destruct (Inv_reachable R) as [C P].
  apply (pi_claims (P p)). unfold eff_hist, busy in *. destruct (running s p) as [[c [r fd|sc k|]]|]; auto.
  cbn [LockSpec.claims]. rewrite Nat.eqb_refl. destruct c as [m0 l f w|m0 l w|m0 l cl|l]; auto.
  - destruct (Nat.eqb_spec (file_of f) i); [contradiction|]. now rewrite andb_false_r.
  - destruct (target_file (history s) p l) as [j|]; [|now rewrite andb_false_r]. destruct (Nat.eqb_spec j i); [congruence|]. now rewrite andb_false_r.
  - destruct (target_file (history s) p l) as [j|]; auto. destruct (Nat.eqb_spec j i); [congruence|auto].
Qed.

(** when a process ends, for whatever reason and wherever it is, its locks are gone and all others stay:
    what was excluded by it alone can go on *)
Theorem C99_end_of_process s p : reachable file_of s -> exists s', step file_of s s' /\ running s' p = None /\
  (forall i, held (sys_state s') i p = None /\ claims (history s') p i = None) /\ fds (sys_state s') p = [] /\
  forall q, q <> p -> running s' q = running s q /\ fds (sys_state s') q = fds (sys_state s) q /\
  (forall i, held (sys_state s') i q = held (sys_state s) i q /\ claims (history s') q i = claims (history s) q i /\ (busy file_of s' q i <-> busy file_of s q i)) /\
  forall i m, (forall u, u <> p -> u <> q -> held (sys_state s) i u = None) -> ~ conflict (sys_state s') i q m.
Proof.
  intros R. exists (ended s p). split; [constructor|]. unfold ended. cbn [sys_state mem running history fds held]. unfold set_running. rewrite !Nat.eqb_refl.
  split; auto. split; [intros i; now rewrite claims_without, Nat.eqb_refl|]. split; auto. intros q N. pose proof (proj2 (Nat.eqb_neq q p) N) as N'. rewrite !N'. split; auto. split; auto. split.
  - intros i. rewrite claims_without, N'. split; auto. split; auto. unfold busy. cbn [running history]. rewrite N'. unfold LockSpec.target_file.
    destruct (running s q) as [[[m l f w|m l w|m l cl|l] pr]|]; rewrite ?target_without, ?N'; reflexivity.
  - intros i m H (u & NU & X). cbn in X. destruct (Nat.eqb_spec u p) as [->|NP]; [exact X|]. now rewrite (H u NP NU) in X.
Qed.

(** * C100: results *)
(** the results: 0, -1, and -2 only when the file cannot be opened *)
Definition legal_result (c : call) (r : Z) : Prop :=
  match c with
  | LockPath _ _ _ _ => r = 0%Z \/ r = (-1)%Z \/ r = (-2)%Z
  | Lock _ _ _ | Unlock _ _ _ => r = 0%Z \/ r = (-1)%Z
  | Check _ => r = 0%Z \/ r = 1%Z
  end.
(** the last answers of the operating system decide: what a step of a program means *)
Lemma sys_result s p c sc k : Inv s -> running s p = Some (c, Sys sc k) ->
  match c with
  | LockPath m l f w => (exists b, sc = Open f b /\ (forall e, k (inr e) = Ret (-2) None)) \/
      exists fd n, sc = SetLk fd m w /\ fd_file (sys_state s) p fd = Some (file_of f) /\ k (inl 0) = Ret 0 (Some fd) /\ k (inr Other) = Ret (-1) None /\
        k (inr EINTR) = if w then after_open m w n fd else Ret (-1) None
  | Lock m l w => exists fd n, mem s p l = Some fd /\ sc = SetLk fd m w /\ k (inl 0) = Ret 0 (Some fd) /\ k (inr Other) = Ret (-1) (Some fd) /\
        k (inr EINTR) = if w then LockFD n fd m w (fun r => Ret r (Some fd)) else Ret (-1) (Some fd)
  | Unlock _ l cl => exists fd, mem s p l = Some fd /\ sc = (if cl then Close fd else Unlk fd) /\
        (forall x, k (inl x) = Ret 0 (if cl then None else Some fd)) /\ forall e, k (inr e) = Ret (-1) (if cl then None else Some fd)
  | Check l => exists fd, mem s p l = Some fd /\ sc = GetLk fd /\ k (inl 1) = Ret 1 (Some fd) /\ k (inl 0) = Ret 0 (Some fd) /\ forall e, k (inr e) = Ret 0 (Some fd)
  end.
Proof.
  intros [_ P] R. pose proof (pi_shape (P p)) as G. rewrite R in G. unfold shape in G. destruct c as [m l f w|m l w|m l cl|l].
  - destruct G as [ML [[n X]|(n & fd & X & FF & NM)]].
    + left. destruct m; cbn in X; injection X; intros -> ->; eexists; split; reflexivity.
    + right. destruct n as [|n]; [discriminate X|]. unfold after_open in X. cbn [LockFD] in X. injection X; intros -> ->. exists fd, n. repeat (split; auto).
  - destruct G as (n & fd & ML & X). destruct n as [|n]; [discriminate X|]. cbn [LockFD] in X. injection X; intros -> ->. exists fd, n. repeat (split; auto).
  - destruct G as (fd & ML & X). exists fd. split; auto. cbn in X. destruct cl; cbn in X; injection X; intros -> ->; repeat (split; auto).
  - destruct G as (fd & ML & X). exists fd. split; auto. cbn in X. injection X; intros -> ->. repeat (split; auto).
Qed.

Lemma results_step s s' : Inv s -> step file_of s s' ->
  (forall p c r, In (p, c, r) (history s) -> legal_result c r) -> (forall p c r fd, running s p = Some (c, Ret r fd) -> legal_result c r) ->
  (forall p c r, In (p, c, r) (history s') -> legal_result c r) /\ (forall p c r fd, running s' p = Some (c, Ret r fd) -> legal_result c r).
Proof.
  intros IV S H1 H2. destruct S as [s p c n R|s p c sc k a o R S|s p c r fd R|s p]; cbn [ended history running]; unfold set_running.
  - split; auto. intros q c' r fd. destruct (Nat.eqb_spec q p) as [->|N]; [|apply H2].
    intros X. exfalso. pose proof (proj2 IV p) as P. rewrite R in P. apply (PI_call c n) in P.
    destruct c as [[] l f w|[] l w|[] l cl|l]; cbn in X; destruct (mem s p l); try discriminate X; try (destruct n; discriminate X); destruct cl; discriminate X.
  - split; auto. intros q c' r fd. destruct (Nat.eqb_spec q p) as [->|N]; [|apply H2]. intros X. injection X; intros K <-.
    pose proof (@sys_result s p c sc k IV R) as G.
    destruct c as [m l f w|m l w|m l cl|l].
    + destruct G as [(b & -> & G)|(fd1 & n & -> & _ & G1 & G2 & G3)].
      * destruct a as [fd1|e]; [|rewrite G in K; injection K; intros; subst; cbn; auto].
        exfalso. pose proof (pi_shape (proj2 IV p)) as SH. rewrite R in SH. destruct SH as [ML [[n X1]|(n & fd2 & X1 & _)]].
        -- destruct m; cbn in X1; injection X1; intros K1 _; rewrite K1 in K; destruct n; discriminate K.
        -- destruct n; discriminate X1.
      * inversion S; subst.
        -- rewrite G1 in K. injection K; intros; subst. cbn. auto.
        -- destruct e; [rewrite G3 in K|rewrite G2 in K; injection K; intros; subst; cbn; auto].
           destruct w; [destruct n; discriminate K|]. injection K; intros; subst; cbn; auto.
    + destruct G as (fd1 & n & _ & -> & G1 & G2 & G3). inversion S; subst.
      * rewrite G1 in K. injection K; intros; subst. cbn. auto.
      * destruct e; [rewrite G3 in K|rewrite G2 in K; injection K; intros; subst; cbn; auto].
        destruct w; [destruct n; discriminate K|]. injection K; intros; subst; cbn; auto.
    + destruct G as (fd1 & _ & _ & G1 & G2). destruct a as [x|e]; [rewrite G1 in K|rewrite G2 in K]; injection K; intros; subst; cbn; auto.
    + destruct G as (fd1 & _ & -> & G1 & G2 & G3). inversion S; subst; [rewrite G1 in K|rewrite G2 in K|rewrite G3 in K]; injection K; intros; subst; cbn; auto.
  - split.
    + intros q c' r' [X|I]; [injection X; intros; subst; eauto|eauto].
    + intros q c' r' fd'. destruct (q =? p); [discriminate|]. apply H2.
  - split.
    + intros q c' r' I. apply filter_In in I as [I _]. eauto.
    + intros q c' r' fd'. destruct (q =? p); [discriminate|]. apply H2.
Qed.
(** the calls return 0, -1, or (only those with a path) -2; the check 0 or 1 *)
Theorem C100_results s p c r : reachable file_of s -> In (p, c, r) (history s) -> legal_result c r.
Proof.
  intros R. assert (X : (forall p c r, In (p, c, r) (history s) -> legal_result c r) /\ (forall p c r fd, running s p = Some (c, Ret r fd) -> legal_result c r)).
  { induction R as [|s s' R IH S]; [split; [intros ? ? ? []|discriminate]|]. destruct IH as [A B]. exact (results_step (Inv_reachable R) S A B). }
  apply X.
Qed.
(** a waiting call is not ended by a signal, and comes through with 0 when nobody else has a lock that
    excludes it *)
Theorem C100_waiting s p c fd m k : reachable file_of s -> running s p = Some (c, Sys (SetLk fd m true) k) ->
  (forall r x, k (inr EINTR) <> Ret r x) /\
  exists i, fd_file (sys_state s) p fd = Some i /\
    (~ conflict (sys_state s) i p m -> exists s' fd', step file_of s s' /\ running s' p = Some (c, Ret 0 fd') /\ held (sys_state s') i p = Some m).
Proof.
  intros R RU. pose proof (Inv_reachable R) as IV. pose proof (@sys_result s p c _ k IV RU) as G.
  assert (OUT : forall i fd' n kk, fd_file (sys_state s) p fd = Some i -> k (inl 0) = Ret 0 fd' -> k (inr EINTR) = LockFD n fd m true kk ->
     (forall r x, k (inr EINTR) <> Ret r x) /\
     exists i, fd_file (sys_state s) p fd = Some i /\
      (~ conflict (sys_state s) i p m -> exists s' fd', step file_of s s' /\ running s' p = Some (c, Ret 0 fd') /\ held (sys_state s') i p = Some m)).
  { intros i fd' n kk FF K0 KE. split; [intros r x; rewrite KE; destruct n; discriminate|]. exists i. split; auto. intros NC.
    eexists _, fd'. split; [eapply step_sys; [exact RU|apply sys_setlk; eauto]|]. cbn. unfold set_running. rewrite Nat.eqb_refl, K0. split; auto. now rewrite !Nat.eqb_refl. }
  destruct c as [m' l f w|m' l w|m' l cl|l].
  - destruct G as [(b & X & _)|(fd1 & n & X & FF & K0 & _ & KE)]; [discriminate X|]. injection X; intros; subst. exact (OUT _ _ _ _ FF K0 KE).
  - destruct G as (fd1 & n & ML & X & K0 & _ & KE). injection X; intros; subst.
    pose proof (pi_mem (proj2 IV p) l) as B. rewrite RU in B. cbn [eff_mem eff_hist] in B. rewrite ML in B. destruct B as (f & _ & FF). exact (OUT _ _ _ _ FF K0 KE).
  - destruct G as (fd1 & _ & X & _). destruct cl; discriminate X.
  - destruct G as (fd1 & _ & X & _). discriminate X.
Qed.
(** ExclusiveFileLockCheck answers true only when no other process has any lock on the file *)
Theorem C100_check s s' p l sc k fd : reachable file_of s -> step file_of s s' ->
  running s p = Some (Check l, Sys sc k) -> running s' p = Some (Check l, Ret 1 fd) ->
  exists i, target_file (history s) p l = Some i /\ forall q, q <> p -> held (sys_state s) i q = None.
Proof.
  intros R S R1 R2. pose proof (Inv_reachable R) as IV.
  pose proof (@sys_result s p _ sc k IV R1) as (fd1 & ML & -> & K1 & K0 & KE).
  pose proof (pi_mem (proj2 IV p) l) as B. rewrite R1 in B. cbn [eff_mem eff_hist] in B. rewrite ML in B. destruct B as (f & T & FF).
  exists (file_of f). unfold LockSpec.target_file. rewrite T. split; auto.
  destruct S as [s q c n R0|s q c sc k' a o R' S|s q c r x R'|s q]; cbn [ended running] in R2; unfold set_running in R2; destruct (Nat.eqb_spec p q) as [<-|N]; try congruence.
  rewrite R1 in R'. assert (EQ3 : c = Check l /\ sc = GetLk fd1 /\ k' = k) by (injection R'; auto). destruct EQ3 as (-> & -> & ->).
  assert (KA : k a = Ret 1 fd) by congruence.
  inversion S as [| | | | | |o1 fd2 i F NC|o1 fd2 i F CF|o1 fd2 e| |]; subst.
  - rewrite FF in F. injection F as <-. intros u N. destruct (held (sys_state s) (file_of f) u) as [m|] eqn:H; auto. exfalso. apply NC. exists u. rewrite H. split; auto. now destruct m.
  - rewrite K0 in KA. discriminate KA.
  - rewrite KE in KA. discriminate KA.
Qed.

(** ** Descriptors *)
Definition failed_attempt (h : hist) (p : pid) : Prop := exists m l f w, In (p, LockPath m l f w, (-1)%Z) h.
Definition DI (s : state) : Prop := forall p fd, In fd (map fst (fds (sys_state s) p)) ->
  (exists l, eff_mem (mem s p) (running s p) l = Some fd) \/
  (exists m l f w n, running s p = Some (LockPath m l f w, after_open m w n fd)) \/ failed_attempt (eff_hist p (running s p) (history s)) p.
Lemma failed_cons e h p : failed_attempt h p -> failed_attempt (e :: h) p.
Proof. intros (m & l & f & w & I). exists m, l, f, w. now right. Qed.
Lemma after_open_quiet m w n fd r x : after_open m w n fd <> Ret r x.
Proof. destruct n; discriminate. Qed.
Lemma DI_step s s' : Inv s -> DI s -> step file_of s s' -> DI s'.
Proof.
  intros IV DV S. destruct S as [s p c n R|s p c sc k a o R S|s p c r fd R|s p]; intros q x; cbn [ended sys_state mem running history fds]; unfold set_running.
  - destruct (Nat.eqb_spec q p) as [->|N]; [|apply DV]. intros I. specialize (DV p x I). rewrite R in DV. cbn [eff_mem eff_hist] in DV.
    pose proof (proj2 IV p) as P. rewrite R in P.
    assert (NR : forall r fd, body n (mem s p (lock_of c)) c <> Ret r fd).
    { intros r fd. destruct c as [[] l f w|[] l w|[] l cl|l]; cbn; destruct (mem s p l); try discriminate; try (destruct n; cbn; discriminate); try (destruct cl; discriminate). }
    destruct DV as [(l & M)|[(m & l & f & w & n' & X)|F]]; [left|discriminate X|right; right].
    + exists l. unfold eff_mem. destruct (body n (mem s p (lock_of c)) c); auto. exfalso. exact (NR _ _ eq_refl).
    + unfold eff_hist. destruct (body n (mem s p (lock_of c)) c); auto. exfalso. exact (NR _ _ eq_refl).
  - destruct (Nat.eqb_spec q p) as [->|N]; [|destruct (sys_local S N) as [-> _]; apply DV]. intros I.
    (* descriptors open before *)
    assert (OLD : In x (map fst (fds (sys_state s) p)) -> (exists l, mem s p l = Some x) \/
       (exists m l f w n, (c, Sys sc k) = (LockPath m l f w, after_open m w n x)) \/ failed_attempt (history s) p).
    { intros J. specialize (DV p x J). rewrite R in DV. cbn [eff_mem eff_hist] in DV. destruct DV as [D|[(m & l & f & w & n & X)|F]]; auto. right. left. exists m, l, f, w, n. congruence. }
    pose proof (@sys_result s p c sc k IV R) as G.
    assert (KEEP : forall r y, k a = Ret r y -> mem s p (lock_of c) = y -> o = sys_state s -> (forall m l f w n, (c, Sys sc k) <> (LockPath m l f w, after_open m w n x)) ->
      (exists l, eff_mem (mem s p) (Some (c, k a)) l = Some x) \/ (exists m l f w n, Some (c, k a) = Some (LockPath m l f w, after_open m w n x)) \/ failed_attempt (eff_hist p (Some (c, k a)) (history s)) p).
    { intros r y KA MY EO NA. rewrite EO in I. destruct (OLD I) as [(l & M)|[(m & l & f & w & n & X)|F]]; [left|exfalso; exact (NA _ _ _ _ _ X)|right; right].
      - exists l. rewrite KA. cbn. destruct (Nat.eqb_spec l (lock_of c)); congruence.
      - rewrite KA. cbn. now apply failed_cons. }
    destruct c as [m l f w|m l w|m l cl|l].
    + pose proof (pi_shape (proj2 IV p)) as SH. rewrite R in SH. destruct SH as [ML [[n X]|(n & fd1 & X & FF & NM)]].
      * assert (SC : sc = Open f (match m with Exclusive => true | Shared => false end) /\ forall a, k a = match a with inr _ => Ret (-2) None | inl fd => after_open m w n fd end).
        { destruct m; cbn in X; injection X; intros -> ->; split; auto. }
        destruct SC as [-> K]. inversion S as [o1 f1 w1 fd NI|o1 f1 w1| | | | | | | | |]; subst.
        -- rewrite K in *. cbn in I. rewrite Nat.eqb_refl in I. cbn in I. destruct I as [<-|I]; [right; left; exists m, l, f, w, n; reflexivity|].
           destruct (OLD I) as [(l' & M)|[(m' & l' & f' & w' & n' & X')|F]].
           ++ left. exists l'. unfold eff_mem. destruct (after_open m w n fd) eqn:Y; auto. now apply after_open_quiet in Y.
           ++ apply (f_equal snd) in X'. destruct n'; discriminate X'.
           ++ right; right. unfold eff_hist. destruct (after_open m w n fd) eqn:Y; auto. now apply after_open_quiet in Y.
        -- apply (KEEP (-2)%Z None); [apply K|exact ML|reflexivity|]. intros m' l' f' w' n' X'. apply (f_equal snd) in X'. destruct n'; discriminate X'.
      * destruct n as [|n]; [discriminate X|]. unfold after_open in X. cbn [LockFD] in X. injection X; intros EK ES.
        assert (SAME : forall m' l' f' w' n' y, (LockPath m l f w, Sys sc k) = (LockPath m' l' f' w', after_open m' w' n' y) -> y = fd1).
        { intros m' l' f' w' n' y Y. apply (f_equal snd) in Y. cbn [snd] in Y. destruct n'; [discriminate Y|]. unfold after_open in Y. cbn [LockFD] in Y.
          assert (Y3 : sc = SetLk y m' w') by congruence. congruence. }
        assert (FAIL : k a = Ret (-1) None -> (exists l0, eff_mem (mem s p) (Some (LockPath m l f w, k a)) l0 = Some x) \/ (exists m0 l0 f0 w0 n0, Some (LockPath m l f w, k a) = Some (LockPath m0 l0 f0 w0, after_open m0 w0 n0 x)) \/ failed_attempt (eff_hist p (Some (LockPath m l f w, k a)) (history s)) p).
        { intros ->. right. right. cbn. exists m, l, f, w. now left. }
        rewrite ES in S. inversion S as [| |o1 fd2 m1 w1 i F NC|o1 fd2 m1 w1 e| | | | | | |]; subst a.
        -- assert (I' : In x (map fst (fds (sys_state s) p))) by (subst o; exact I).
           destruct (OLD I') as [(l' & M)|[(m' & l' & f' & w' & n' & X')|F']].
           ++ left. exists l'. rewrite EK. cbn. destruct (Nat.eqb_spec l' l); congruence.
           ++ apply SAME in X'. subst x. left. exists l. rewrite EK. cbn. now rewrite Nat.eqb_refl.
           ++ right. right. rewrite EK. cbn. now apply failed_cons.
        -- destruct e; [|apply FAIL; rewrite EK; reflexivity]. destruct w; [|apply FAIL; rewrite EK; reflexivity].
           assert (KE : k (inr EINTR) = after_open m true n fd1) by (rewrite EK; reflexivity).
           assert (I' : In x (map fst (fds (sys_state s) p))) by (subst o; exact I).
           destruct (OLD I') as [(l' & M)|[(m' & l' & f' & w' & n' & X')|F']].
           ++ left. exists l'. rewrite KE. unfold eff_mem. destruct (after_open m true n fd1) eqn:Y; auto. now apply after_open_quiet in Y.
           ++ apply SAME in X'. subst x. right. left. exists m, l, f, true, n. now rewrite KE.
           ++ right. right. rewrite KE. unfold eff_hist. destruct (after_open m true n fd1) eqn:Y; auto. now apply after_open_quiet in Y.
    + destruct G as (fd1 & n & ML & -> & K0 & K1 & KE).
      assert (I' : In x (map fst (fds (sys_state s) p))) by (inversion S; subst; exact I).
      assert (NA : forall m0 l0 f w0 n0, (Lock m l w, Sys (SetLk fd1 m w) k) <> (LockPath m0 l0 f w0, after_open m0 w0 n0 x)) by (intros; discriminate).
      destruct (OLD I') as [(l' & M)|[(m' & l' & f' & w' & n' & X')|F']]; [left; exists l'|exfalso; exact (NA _ _ _ _ _ X')|right; right].
      * assert (KR : forall r, k a = Ret r (Some fd1) -> eff_mem (mem s p) (Some (Lock m l w, k a)) l' = Some x).
        { intros r ->. cbn. destruct (Nat.eqb_spec l' l); congruence. }
        inversion S; subst; [exact (KR _ K0)|]. destruct e; [|exact (KR _ K1)]. destruct w; [|exact (KR _ KE)].
        rewrite KE. unfold eff_mem. destruct (LockFD n fd1 m true _) eqn:Y; auto. destruct n; discriminate Y.
      * assert (KR : forall r y, k a = Ret r y -> failed_attempt (eff_hist p (Some (Lock m l w, k a)) (history s)) p).
        { intros r y ->. cbn. now apply failed_cons. }
        inversion S; subst; [exact (KR _ _ K0)|]. destruct e; [|exact (KR _ _ K1)]. destruct w; [|exact (KR _ _ KE)].
        rewrite KE. unfold eff_hist. destruct (LockFD n fd1 m true _) eqn:Y; auto. destruct n; discriminate Y.
    + destruct G as (fd1 & ML & -> & K1 & K2).
      assert (KR : exists r, k a = Ret r (if cl then None else Some fd1)) by (destruct a; rewrite ?K1, ?K2; eauto). destruct KR as [r KR].
      assert (I' : In x (map fst (fds (sys_state s) p)) /\ (cl = true -> x <> fd1)).
      { destruct cl; inversion S as [| | | |o1 fd2 i F|o1 fd2 e| | | |o1 fd2 i r' F|o1 fd2 e F]; subst.
        - cbn in I. rewrite Nat.eqb_refl in I. cbn in I. apply in_map_iff in I as ((u & v) & <- & I). apply filter_In in I as [I J]. cbn in *. apply negb_true_iff, Nat.eqb_neq in J. split; auto. apply in_map_iff. exists (u, v). auto.
        - split; auto. intros _ ->. pose proof (pi_mem (proj2 IV p) l) as B. rewrite R in B. cbn [eff_mem eff_hist] in B. rewrite ML in B. destruct B as (f & _ & FF). congruence.
        - split; [exact I|discriminate].
        - split; [exact I|discriminate]. }
      destruct I' as [I' NX].
      destruct (OLD I') as [(l' & M)|[(m' & l' & f' & w' & n' & X')|F']]; [left; exists l'|discriminate X'|right; right; rewrite KR; cbn; now apply failed_cons].
      rewrite KR. cbn. destruct (Nat.eqb_spec l' l) as [->|]; auto. destruct cl; [exfalso; apply (NX eq_refl); congruence|congruence].
    + destruct G as (fd1 & ML & -> & K1 & K0 & KE).
      assert (KR : exists r, k a = Ret r (Some fd1)) by (inversion S; subst; rewrite ?K1, ?K0, ?KE; eauto). destruct KR as [r KR].
      apply (KEEP r (Some fd1)); auto; [inversion S; reflexivity|]. intros; discriminate.
  - destruct (Nat.eqb_spec q p) as [->|N]; cbn [andb].
    + intros I. specialize (DV p x I). rewrite R in DV. cbn [eff_mem eff_hist] in DV |- *. destruct DV as [D|[(m & l & f & w & n & X)|F]]; auto.
      injection X; intros X1 X2. now apply eq_sym, after_open_quiet in X1.
    + intros I. destruct (DV q x I) as [D|[D|F]]; auto. right. right.
      unfold eff_hist in *. destruct (running s q) as [[c' [r' y|sc' k'|]]|]; try (now apply failed_cons).
      destruct F as (m & l & f & w & [F|F]); [exists m, l, f, w; left; exact F|exists m, l, f, w; right; right; exact F].
  - destruct (Nat.eqb_spec q p) as [->|N]; [intros []|]. intros I.
    assert (KF : failed_attempt (history s) q -> failed_attempt (without p (history s)) q).
    { intros (m & l & f & w & F). exists m, l, f, w. apply filter_In. split; auto. cbn. apply negb_true_iff. now apply Nat.eqb_neq. }
    destruct (DV q x I) as [D|[D|F]]; auto. right. right.
    unfold eff_hist in *. destruct (running s q) as [[c' [r' y|sc' k'|]]|]; auto.
    destruct F as (m & l & f & w & [F|F]); [exists m, l, f, w; left; exact F|]. apply failed_cons, KF. exists m, l, f, w. exact F.
Qed.
(** the descriptors a process has open are those in its FileLocks — except for those that failed
    attempts to lock a path have left behind *)
Theorem C100_descriptors_partial s p fd : reachable file_of s -> running s p = None -> In fd (map fst (fds (sys_state s) p)) ->
  (exists l, mem s p l = Some fd) \/ exists m l f w, In (p, LockPath m l f w, (-1)%Z) (history s).
Proof.
  intros R RN I. assert (D : DI s).
  { clear -R. induction R as [|s s' R IH S]; [intros p fd []|]. exact (DI_step (Inv_reachable R) IH S). }
  specialize (D p fd I). rewrite RN in D. cbn in D. destruct D as [D|[(m & l & f & w & n & X)|D]]; auto. discriminate X.
Qed.
End WithFiles.

Print Assumptions C99_mutual_exclusion.
Print Assumptions C99_claims_are_held.
Print Assumptions C99_end_of_process.
Print Assumptions C100_results.
Print Assumptions C100_waiting.
Print Assumptions C100_check.
Print Assumptions C100_descriptors_partial.

(** ** Runs *)
Section Runs.
Let files : path -> inode := fun _ => 0.
Let f : path := lit "lock".
Notation reach := (reachable files).
Lemma do_call s p c n : reach s -> running s p = None ->
  reach (mkState (sys_state s) (mem s) (set_running s p (Some (c, body n (mem s p (lock_of c)) c))) (history s)).
Proof. intros R X. eapply reach_step; [exact R|]. now apply step_call. Qed.
Lemma do_sys s p c sc k a o : reach s -> running s p = Some (c, Sys sc k) -> sys files p sc (sys_state s) a o ->
  reach (mkState o (mem s) (set_running s p (Some (c, k a))) (history s)).
Proof. intros R X Y. eapply reach_step; [exact R|]. eapply step_sys; eauto. Qed.
Lemma do_return s p c r fd : reach s -> running s p = Some (c, Ret r fd) ->
  reach (mkState (sys_state s) (fun q l => if (q =? p) && (l =? lock_of c) then fd else mem s q l) (set_running s p None) ((p, c, r) :: history s)).
Proof. intros R X. eapply reach_step; [exact R|]. now apply step_return. Qed.
Lemma no_conflict o i p m : (forall q, q <> p -> held o i q = None) -> ~ conflict o i p m.
Proof. intros H (q & N & X). now rewrite (H q N) in X. Qed.

Ltac norm R := unfold set_running in R; cbn [sys_state mem running history start] in R.

(** process 1 has the exclusive lock; process 2 waits for it, and process 3 has been turned away *)
Example C99_run : exists s, reach s /\ claims files (history s) 1 0 = Some Exclusive /\ ~ busy files s 1 0 /\
  running s 2 = Some (LockPath Shared 0 f true, after_open Shared true 4 5) /\ claims files (history s) 3 0 = None /\
  In (3, LockPath Exclusive 0 f false, (-1)%Z) (history s).
Proof.
  pose proof (@do_call _ 1 (LockPath Exclusive 0 f false) 5 (reach_start files) eq_refl) as R.
  norm R.
  eapply do_sys with (p := 1) (a := inl 3) in R; [|reflexivity|apply sys_open; cbn; tauto].
  norm R.
  eapply do_sys with (p := 1) (a := inl 0) in R; [|reflexivity|eapply sys_setlk; [reflexivity|apply no_conflict; reflexivity]].
  norm R.
  eapply do_return with (p := 1) in R; [|reflexivity].
  norm R.
  eapply do_call with (p := 2) (c := (LockPath Shared 0 f true)) (n := 4) in R; [|reflexivity].
  norm R.
  eapply do_sys with (p := 2) (a := inl 5) in R; [|reflexivity|apply sys_open; cbn; tauto].
  norm R.
  eapply do_call with (p := 3) (c := (LockPath Exclusive 0 f false)) (n := 4) in R; [|reflexivity].
  norm R.
  eapply do_sys with (p := 3) (a := inl 5) in R; [|reflexivity|apply sys_open; cbn; tauto].
  norm R.
  eapply do_sys with (p := 3) (a := inr Other) in R; [|reflexivity|apply sys_setlk_fail].
  norm R.
  eapply do_return with (p := 3) in R; [|reflexivity].
  norm R.
  eexists. split; [exact R|]. split; [reflexivity|]. split; [cbn; tauto|]. split; [reflexivity|]. split; [reflexivity|]. left. reflexivity.
Qed.
(** process 1 has the exclusive lock and is killed; process 2, which was waiting, gets it *)
Lemma do_exit s p : reach s -> reach (ended s p).
Proof. intros R. eapply reach_step; [exact R|]. apply step_exit. Qed.
Example C99_killed : exists s, reach s /\ claims files (history s) 1 0 = None /\ claims files (history s) 2 0 = Some Exclusive /\ ~ busy files s 2 0 /\
  history s = [(2, LockPath Exclusive 0 f true, 0%Z)] /\ forall p, held (sys_state s) 0 p = if p =? 2 then Some Exclusive else None.
Proof.
  pose proof (@do_call _ 1 (LockPath Exclusive 0 f false) 5 (reach_start files) eq_refl) as R.
  norm R.
  eapply do_sys with (p := 1) (a := inl 3) in R; [|reflexivity|apply sys_open; cbn; tauto].
  norm R.
  eapply do_sys with (p := 1) (a := inl 0) in R; [|reflexivity|eapply sys_setlk; [reflexivity|apply no_conflict; reflexivity]].
  norm R.
  eapply do_return with (p := 1) in R; [|reflexivity].
  norm R.
  eapply do_call with (p := 2) (c := (LockPath Exclusive 0 f true)) (n := 4) in R; [|reflexivity].
  norm R.
  eapply do_sys with (p := 2) (a := inl 5) in R; [|reflexivity|apply sys_open; cbn; tauto].
  norm R.
  eapply do_exit with (p := 1) in R.
  unfold ended in R. norm R.
  eapply do_sys with (p := 2) (a := inl 0) in R; [|reflexivity|].
  2:{ eapply sys_setlk; [reflexivity|]. intros (q & N & X). cbn in X. destruct q as [|[|q]]; cbn in X; exact X. }
  norm R.
  eapply do_return with (p := 2) in R; [|reflexivity].
  norm R.
  eexists. split; [exact R|]. split; [reflexivity|]. split; [reflexivity|]. split; [cbn; tauto|]. split; [reflexivity|].
  intros [|[|[|p]]]; reflexivity.
Qed.
(** two readers at the same time *)
Example C99_readers : exists s, reach s /\ claims files (history s) 1 0 = Some Shared /\ claims files (history s) 2 0 = Some Shared /\
  ~ busy files s 1 0 /\ ~ busy files s 2 0.
Proof.
  pose proof (@do_call _ 1 (LockPath Shared 0 f false) 5 (reach_start files) eq_refl) as R.
  norm R.
  eapply do_sys with (p := 1) (a := inl 3) in R; [|reflexivity|apply sys_open; cbn; tauto].
  norm R.
  eapply do_sys with (p := 1) (a := inl 0) in R; [|reflexivity|eapply sys_setlk; [reflexivity|apply no_conflict; reflexivity]].
  norm R.
  eapply do_return with (p := 1) in R; [|reflexivity].
  norm R.
  eapply do_call with (p := 2) (c := (LockPath Shared 0 f true)) (n := 5) in R; [|reflexivity].
  norm R.
  eapply do_sys with (p := 2) (a := inl 3) in R; [|reflexivity|apply sys_open; cbn; tauto].
  norm R.
  eapply do_sys with (p := 2) (a := inl 0) in R; [|reflexivity|].
  2:{ eapply sys_setlk; [reflexivity|]. intros (q & N & X). cbn in X. destruct q as [|[|q]]; cbn in X; [exact X|discriminate X|exact X]. }
  norm R.
  eapply do_return with (p := 2) in R; [|reflexivity].
  norm R.
  eexists. split; [exact R|]. split; [reflexivity|]. split; [reflexivity|]. split; cbn; tauto.
Qed.
(** an attempt that fails leaves the descriptor it has opened, and no FileLock knows it *)
Theorem C100_descriptor_leak_refuted : exists s, reach s /\ running s 2 = None /\ fds (sys_state s) 2 = [(3, 0)] /\ (forall l, mem s 2 l = None) /\
  history s = [(2, LockPath Exclusive 0 f false, (-1)%Z); (1, LockPath Exclusive 0 f false, 0%Z)].
Proof.
  pose proof (@do_call _ 1 (LockPath Exclusive 0 f false) 5 (reach_start files) eq_refl) as R.
  norm R.
  eapply do_sys with (p := 1) (a := inl 3) in R; [|reflexivity|apply sys_open; cbn; tauto].
  norm R.
  eapply do_sys with (p := 1) (a := inl 0) in R; [|reflexivity|eapply sys_setlk; [reflexivity|apply no_conflict; reflexivity]].
  norm R.
  eapply do_return with (p := 1) in R; [|reflexivity].
  norm R.
  eapply do_call with (p := 2) (c := (LockPath Exclusive 0 f false)) (n := 5) in R; [|reflexivity].
  norm R.
  eapply do_sys with (p := 2) (a := inl 3) in R; [|reflexivity|apply sys_open; cbn; tauto].
  norm R.
  eapply do_sys with (p := 2) (a := inr Other) in R; [|reflexivity|apply sys_setlk_fail].
  norm R.
  eapply do_return with (p := 2) in R; [|reflexivity].
  norm R.
  eexists. split; [exact R|]. split; [reflexivity|]. split; [reflexivity|]. split; [|reflexivity].
  intros l. cbn. destruct l; reflexivity.
Qed.
(** two FileLocks of one process on one file: both calls succeed, and closing the second takes the
    lock of the first, which is still there and was never unlocked, from it *)
Theorem C99_own_process_refuted : exists s, reach s /\ (forall p, running s p = None) /\
  history s = [(1, Unlock Exclusive 1 true, 0%Z); (1, LockPath Exclusive 1 f false, 0%Z); (1, LockPath Exclusive 0 f false, 0%Z)] /\
  mem s 1 0 = Some 3 /\ (forall p, held (sys_state s) 0 p = None).
Proof.
  pose proof (@do_call _ 1 (LockPath Exclusive 0 f false) 5 (reach_start files) eq_refl) as R.
  norm R.
  eapply do_sys with (p := 1) (a := inl 3) in R; [|reflexivity|apply sys_open; cbn; tauto].
  norm R.
  eapply do_sys with (p := 1) (a := inl 0) in R; [|reflexivity|eapply sys_setlk; [reflexivity|apply no_conflict; reflexivity]].
  norm R.
  eapply do_return with (p := 1) in R; [|reflexivity].
  norm R.
  eapply do_call with (p := 1) (c := (LockPath Exclusive 1 f false)) (n := 5) in R; [|reflexivity].
  norm R.
  eapply do_sys with (p := 1) (a := inl 4) in R; [|reflexivity|apply sys_open; cbn; intros [?|?]; [discriminate|tauto]].
  norm R.
  eapply do_sys with (p := 1) (a := inl 0) in R; [|reflexivity|].
  2:{ eapply sys_setlk; [reflexivity|]. intros (q & N & X). cbn in X. destruct q as [|[|q]]; cbn in X; [exact X|congruence|exact X]. }
  norm R.
  eapply do_return with (p := 1) in R; [|reflexivity].
  norm R.
  eapply do_call with (p := 1) (c := (Unlock Exclusive 1 true)) (n := 5) in R; [|reflexivity].
  norm R.
  eapply do_sys with (p := 1) (a := inl 0) in R; [|reflexivity|eapply sys_close; reflexivity].
  norm R.
  eapply do_return with (p := 1) in R; [|reflexivity].
  norm R.
  eexists. split; [exact R|]. split; [intros [|[|p]]; reflexivity|]. split; [reflexivity|]. split; [reflexivity|]. intros [|[|p]]; reflexivity.
Qed.
End Runs.
Print Assumptions C100_descriptor_leak_refuted.
Print Assumptions C99_own_process_refuted.
