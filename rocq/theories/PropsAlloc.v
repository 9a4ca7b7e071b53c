(** C131: allocation that does not fail (libutils/alloc.c, libutils/cleanup.c). *)
From Verif Require Import Prelude PreludeFacts Str StrFacts Libc LibcFacts MemSpec CompatModel CompatProofs PrintfModel PrintfSpec PropsPrintf AllocModel.
Set Implicit Arguments.

(** ** What is asked for *)
Inductive request :=
| Malloc (size : nat) | Calloc (nmemb size : nat) | Realloc (ptr : option nat) (size : nat)
| Strdup (str : cells byte) | Strndup (str : cells byte) (n : nat) | Memdup (data : cells byte) (size : nat)
| Asprintf (fmt : list byte) (args : list arg).
(** the content of the block asked for, given the blocks there are *)
Inductive asks (h : nat -> option (cells byte)) : request -> cells byte -> Prop :=
| asks_malloc size : asks h (Malloc size) (repeat None size)
| asks_calloc nmemb size : (N.of_nat (nmemb * size) <= SIZE_MAX)%N -> asks h (Calloc nmemb size) (repeat (Some NUL) (nmemb * size))
| asks_realloc_null size : asks h (Realloc None size) (repeat None size)
| asks_realloc a old size : h a = Some old -> asks h (Realloc (Some a) size) (firstn size old ++ repeat None (size - length old))
| asks_strdup str s : holds str s -> asks h (Strdup str) (map Some (s ++ [NUL]))
| asks_strndup s rest n : is_cstr s -> n <= length s \/ (exists r, rest = Some NUL :: r) ->
    asks h (Strndup (map Some s ++ rest) n) (map Some (firstn n s ++ [NUL]))
| asks_memdup data size : size <= length data -> asks h (Memdup data size) (firstn size data)
| asks_asprintf is args t st : Forall wf_item is -> expands supported 0 is args t st -> (Z.of_nat (length t) < INT_MAX)%Z ->
    asks h (Asprintf (renders is) args) (map Some (t ++ [NUL])).
(** no byte is asked for *)
Definition nothing (r : request) : bool :=
  match r with
  | Malloc size | Realloc _ size | Memdup _ size => size =? 0
  | Calloc nmemb size => (nmemb =? 0) || (size =? 0)
  | _ => false
  end.
(** the block that is given up *)
Definition gives_up (r : request) : option nat := match r with Realloc p _ => p | _ => None end.
Definition name (r : request) : list byte :=
  match r with
  | Malloc _ => lit "xmalloc" | Calloc _ _ => lit "xcalloc" | Realloc _ _ => lit "xrealloc" | Strdup _ => lit "xstrdup"
  | Strndup _ _ => lit "xstrndup" | Memdup _ _ => lit "xmemdup" | Asprintf _ _ => lit "xvasprintf"
  end.

Section Program.
Variable body : nat -> list action.
Variable depth : nat.
Notation leave := (DoCleanupAndExit (S (S depth)) body).
Definition do_request (r : request) : M (option nat) :=
  match r with
  | Malloc size => xmalloc leave size | Calloc nmemb size => xcalloc leave nmemb size | Realloc p size => xrealloc leave p size
  | Strdup s => xstrdup leave s | Strndup s n => xstrndup leave s n | Memdup d size => xmemdup leave d size
  | Asprintf fmt args => xvasprintf leave fmt args >>= fun x => ret (fst x)
  end.

(** ** Leaving *)
Definition quiet (f : nat) : Prop := forall a, In a (body f) -> exists n, a = Work n.
Definition work (l : list action) : list event := flat_map (fun a => match a with Work n => [Worked n] | _ => [] end) l.
(** what is seen of a function that is called *)
Definition called (f : nat) : list event := Started f :: work (body f).
Definition with_trace (w : world) (t : list event) : world := mkWorld (oracle w) (heap w) (next w) (functions w) (locked w) t.

Lemma perform_quiet lv l w : (forall a, In a l -> exists n, a = Work n) -> perform lv l w = Cont tt (with_trace w (trace w ++ work l)).
Proof.
  revert w. induction l as [|a l IH]; intros w Q.
  - cbn. unfold with_trace, ret. rewrite app_nil_r. now destruct w.
  - destruct (Q a) as [n ->]; [now left|]. cbn [perform]. unfold bindM. cbn [emit]. rewrite IH by (intros; apply Q; now right).
    unfold with_trace. cbn. now rewrite <- app_assoc.
Qed.
Lemma run_quiet lv l w : (forall f, In f l -> quiet f) -> run_functions lv body l w = Cont tt (with_trace w (trace w ++ flat_map called l)).
Proof.
  revert w. induction l as [|f l IH]; intros w Q.
  - cbn. unfold with_trace, ret. rewrite app_nil_r. now destruct w.
  - cbn [run_functions]. unfold bindM at 1 2. cbn [emit]. rewrite perform_quiet by (apply Q; now left). rewrite IH by (intros; apply Q; now right).
    unfold with_trace. cbn. now rewrite <- !app_assoc.
Qed.
Lemma leave_quiet A status w : locked w = false -> (forall f, In f (functions w) -> quiet f) ->
  leave A status w = Exited status (mkWorld (oracle w) (heap w) (next w) [] false (trace w ++ flat_map called (functions w))).
Proof.
  intros L Q. cbn [DoCleanupAndExit]. unfold CallCleanupFunctions, bindM, lock. rewrite L. cbn [functions].
  rewrite run_quiet by exact Q. reflexivity.
Qed.
(** inside of a cleanup function every way to end the process blocks *)
Definition under_lock (A : Type) (o : outcome A) : Prop := match o with Cont _ w => locked w = true | Hangs _ => True | _ => False end.
Lemma under_bind A B (x : M A) (f : A -> M B) w : under_lock (x w) -> (forall a w', locked w' = true -> under_lock (f a w')) -> under_lock ((x >>= f) w).
Proof. unfold bindM. destruct (x w); cbn; auto; tauto. Qed.
Lemma leave_locked n A status w : locked w = true -> under_lock (DoCleanupAndExit (S n) body A status w).
Proof. intros L. cbn [DoCleanupAndExit]. unfold CallCleanupFunctions, bindM, lock. rewrite L. exact I. Qed.
Lemma malloc_locked n size w : locked w = true -> under_lock (xmalloc (DoCleanupAndExit (S n) body) size w).
Proof.
  intros L. unfold xmalloc. apply under_bind.
  - unfold malloc, from_libc, bindM, granted. destruct (oracle w) as [|[] o]; cbn; exact L.
  - intros [a|] w' L'; cbn [CheckResult]; [exact L'|]. destruct (negb (size =? 0)); [|exact L'].
    apply under_bind; [exact L'|]. intros _ w1 L1. apply under_bind; [exact L1|]. intros _ w2 L2. now apply leave_locked.
Qed.
Lemma perform_locked n l w : locked w = true -> under_lock (perform (DoCleanupAndExit (S n) body) l w).
Proof.
  revert w. induction l as [|a l IH]; intros w L; [exact L|]. destruct a as [k|size|f|status]; cbn [perform].
  - apply under_bind; [exact L|]. intros _ w' L'. now apply IH.
  - apply under_bind; [now apply malloc_locked|]. intros _ w' L'. now apply IH.
  - apply under_bind; [|intros _ w' L'; now apply IH]. unfold RegisterCleanupFunction, bindM, lock. rewrite L. exact I.
  - now apply leave_locked.
Qed.
Lemma run_locked n l w : locked w = true -> under_lock (run_functions (DoCleanupAndExit (S n) body) body l w).
Proof.
  revert w. induction l as [|f l IH]; intros w L; [exact L|]. cbn [run_functions].
  apply under_bind; [exact L|]. intros _ w1 L1. apply under_bind; [now apply perform_locked|]. intros _ w' L'. now apply IH.
Qed.
Lemma leave_any A status w : locked w = false -> (exists w', leave A status w = Exited status w') \/ (exists w', leave A status w = Hangs w').
Proof.
  intros L.
  assert (U : match CallCleanupFunctions (DoCleanupAndExit (S depth) body) body w with Cont _ _ | Hangs _ => True | _ => False end).
  { unfold CallCleanupFunctions, bindM, lock. rewrite L. cbn [functions].
    match goal with |- context [run_functions _ _ ?l ?x] => pose proof (@run_locked depth l x eq_refl) as U; destruct (run_functions (DoCleanupAndExit (S depth) body) body l x) end; cbn in U |- *; tauto. }
  change (leave A status w) with ((CallCleanupFunctions (DoCleanupAndExit (S depth) body) body >>= fun _ w' => @Exited A status w') w). unfold bindM.
  destruct (CallCleanupFunctions (DoCleanupAndExit (S depth) body) body w); try contradiction U; [left|right]; eauto.
Qed.

(** it does not come back *)
Lemma leave_back A status w a w' : leave A status w <> Cont a w'.
Proof. cbn [DoCleanupAndExit]. unfold bindM. destruct (CallCleanupFunctions _ _ w); discriminate. Qed.
Lemma leave_bind A B C (f : A -> M B) (g : B -> M C) status w :
  match match leave A status w with Cont a w' => f a w' | Exited s w' => Exited s w' | Hangs w' => Hangs w' | Wrong => Wrong | Deep => Deep end with
  | Cont a w' => g a w' | Exited s w' => Exited s w' | Hangs w' => Hangs w' | Wrong => Wrong | Deep => Deep end = leave C status w.
Proof. cbn [DoCleanupAndExit]. unfold bindM. destruct (CallCleanupFunctions _ _ w); reflexivity. Qed.

(** ** Requests *)
Definition OOM : list byte := lit "CRITICAL: Unable to allocate memory" ++ ["010"%char].
(** the world after the allocator's answer *)
Definition asked (w : world) : world := mkWorld (tl (oracle w)) (heap w) (next w) (functions w) (locked w) (trace w).
Definition with_heap (w : world) (h : nat -> option (cells byte)) (n : nat) : world := mkWorld (oracle w) h n (functions w) (locked w) (trace w).
Definition given_new (w : world) (c : cells byte) : world := with_heap (asked w) (fun q => if q =? next w then Some c else heap w q) (S (next w)).
Definition failing (fn : list byte) (w : world) : outcome (option nat) := leave (option nat) 255%Z (with_trace w (trace w ++ [Stderr fn; Stderr OOM])).
Lemma check_fail fn w : CheckResult leave None fn true w = failing fn w.
Proof.
  unfold failing, CheckResult, bindM, emit, with_trace, OOM. cbn [trace oracle heap next functions locked]. rewrite <- app_assoc. reflexivity.
Qed.
Lemma from_libc_eq f w c : f true = Ok (Some c) -> f false = Ok None ->
  from_libc f w = if hd true (oracle w) then Cont (Some (next w)) (given_new w c) else Cont None (asked w).
Proof.
  intros T F. unfold from_libc, bindM, granted, given_new, asked, with_heap. destruct (oracle w) as [|[] o]; cbn; rewrite ?T, ?F; reflexivity.
Qed.
Lemma checked f w c fn check : f true = Ok (Some c) -> f false = Ok None ->
  (from_libc f >>= fun p => CheckResult leave p fn check) w =
    if hd true (oracle w) then Cont (Some (next w)) (given_new w c) else if check then failing fn (asked w) else Cont None (asked w).
Proof.
  intros T F. unfold bindM. rewrite (from_libc_eq _ _ T F). destruct (hd true (oracle w)); [reflexivity|].
  destruct check; [apply check_fail|reflexivity].
Qed.
(** what a granted request leaves *)
Definition after (w : world) (r : request) (c : cells byte) (w' : world) : Prop :=
  heap w' (next w) = Some c /\ (forall q, q <> next w -> heap w' q = if match gives_up r with Some p => q =? p | None => false end then None else heap w q) /\
  functions w' = functions w /\ locked w' = locked w /\ trace w' = trace w.
Definition fresh (w : world) : Prop := forall q, next w <= q -> heap w q = None.

Lemma request_eq w r c : fresh w -> asks (heap w) r c ->
  (hd true (oracle w) = true -> exists w', do_request r w = Cont (Some (next w)) w' /\ after w r c w' /\ fresh w') /\
  (hd true (oracle w) = false -> nothing r = false -> do_request r w = failing (name r) (asked w)) /\
  (hd true (oracle w) = false -> nothing r = true -> exists w', do_request r w = Cont None w' /\
     (forall q, heap w' q = if match gives_up r with Some p => q =? p | None => false end then None else heap w q) /\
     functions w' = functions w /\ locked w' = locked w /\ trace w' = trace w /\ fresh w').
Proof.
  intros FR A.
  assert (NEW : forall c, fresh (given_new w c)).
  { intros c' q. unfold given_new, with_heap. cbn. intros L. destruct (Nat.eqb_spec q (next w)); [lia|]. apply FR. lia. }
  assert (SIMPLE : forall fn check, gives_up r = None -> check = negb (nothing r) -> name r = fn ->
    (do_request r w = if hd true (oracle w) then Cont (Some (next w)) (given_new w c) else if check then failing fn (asked w) else Cont None (asked w)) ->
    (hd true (oracle w) = true -> exists w', do_request r w = Cont (Some (next w)) w' /\ after w r c w' /\ fresh w') /\
    (hd true (oracle w) = false -> nothing r = false -> do_request r w = failing (name r) (asked w)) /\
    (hd true (oracle w) = false -> nothing r = true -> exists w', do_request r w = Cont None w' /\
       (forall q, heap w' q = if match gives_up r with Some p => q =? p | None => false end then None else heap w q) /\
       functions w' = functions w /\ locked w' = locked w /\ trace w' = trace w /\ fresh w')).
  { intros fn check G -> <- E. rewrite E, G. split; [|split]; intros ->.
    - eexists. split; [reflexivity|]. split; [|apply NEW]. unfold after, given_new, with_heap. rewrite G. cbn. rewrite Nat.eqb_refl.
      split; auto. split; [|auto]. intros q N. now rewrite (proj2 (Nat.eqb_neq _ _) N).
    - intros ->. reflexivity.
    - intros ->. eexists. split; [reflexivity|]. repeat split; auto. }
  destruct A as [size|nmemb size L|size|a old size HA|str s H|s rest n C H|data size L|is args t st WF EX LT].
  - eapply SIMPLE; try reflexivity. apply checked; reflexivity.
  - apply (SIMPLE (lit "xcalloc") (negb (nmemb =? 0) && negb (size =? 0))); [reflexivity|cbn; now rewrite negb_orb|reflexivity|].
    cbn [do_request]. unfold xcalloc, calloc. apply checked; cbn [andb]; auto. apply N.leb_le in L. now rewrite L.
  - eapply SIMPLE; try reflexivity. apply checked; reflexivity.
  - (* realloc *)
    cbn [do_request]. unfold xrealloc, realloc, bindM. rewrite HA.
    assert (LA : a < next w). { destruct (Nat.ltb_spec a (next w)); auto. rewrite FR in HA by lia. discriminate. }
    unfold granted. destruct (oracle w) as [|[] o] eqn:O; cbn [hd]; (split; [|split]); try discriminate; intros _.
    + eexists. split; [reflexivity|]. unfold after. cbn. rewrite Nat.eqb_refl. split; [split; [reflexivity|]; split; auto; intros q N; now rewrite (proj2 (Nat.eqb_neq _ _) N)|].
      intros q L. cbn in *. destruct (Nat.eqb_spec q (next w)); [lia|]. destruct (Nat.eqb_spec q a); [reflexivity|]. apply FR. lia.
    + eexists. split; [reflexivity|]. unfold after. cbn. rewrite Nat.eqb_refl. split; [split; [reflexivity|]; split; auto; intros q N; now rewrite (proj2 (Nat.eqb_neq _ _) N)|].
      intros q L. cbn in *. destruct (Nat.eqb_spec q (next w)); [lia|]. destruct (Nat.eqb_spec q a); [reflexivity|]. apply FR. lia.
    + cbn [nothing name]. intros NZ. rewrite NZ. unfold ret. cbn [negb]. etransitivity; [apply check_fail|]. unfold asked. rewrite O. reflexivity.
    + cbn [nothing]. intros Z0. rewrite Z0. cbn. eexists. split; [reflexivity|]. cbn. repeat split; auto.
      intros q L. cbn in *. destruct (q =? a); auto.
  - eapply SIMPLE; try reflexivity. apply checked; [exact (strdup_spec H)|]. unfold strdup. rewrite (proj2 (mstr_holds _ _) H). reflexivity.
  - eapply SIMPLE; try reflexivity. apply checked; [exact (@strndup_spec s n rest C H)|]. unfold strndup. rewrite (strnlen_spec C H). reflexivity.
  - eapply SIMPLE; try reflexivity. apply checked; [|reflexivity]. unfold memdup. rewrite acopy_fresh by exact L. reflexivity.
  - assert (V : forall b : bool, rpl_vasprintf (fun n => if b then Some (repeat None n) else None) (renders is) args =
              Ok (if b then (Some (Some (map Some (t ++ [NUL]))), Z.of_nat (length t)) else (Some None, (-1)%Z))).
    { intros b. etransitivity; [apply (@C93_vasprintf_partial (fun n => if b then Some (repeat None n) else None) is args t st); [|exact WF|exact EX]|].
      - intros n m. destruct b; [|discriminate]. intros E; injection E as <-. apply repeat_length.
      - rewrite (proj2 (Z.leb_gt _ _) LT). now destruct b. }
    eapply SIMPLE; try reflexivity. cbn [nothing negb]. cbn [do_request]. unfold xvasprintf, vasprintf, bindM, granted, given_new, asked, with_heap.
    destruct (oracle w) as [|[] o]; cbn [hd tl].
    + rewrite (V true). cbn. replace (Z.of_nat (length t) =? -1)%Z with false by (symmetry; apply Z.eqb_neq; lia). reflexivity.
    + rewrite (V true). cbn. replace (Z.of_nat (length t) =? -1)%Z with false by (symmetry; apply Z.eqb_neq; lia). reflexivity.
    + rewrite (V false). unfold ret. cbv beta iota. change ((-1 =? -1)%Z) with true. cbv beta iota.
      match goal with |- context [CheckResult leave None ?f true ?x] => pose proof (check_fail f x) as CF; rewrite CF end.
      unfold failing. apply leave_bind.
Qed.

(** ** C131 *)
(** a request that returns and asks for at least one byte has its block: new, and with the content asked
    for; everything else is as before *)
Theorem C131_never_null r c w p w' : fresh w -> asks (heap w) r c -> nothing r = false -> do_request r w = Cont p w' ->
  exists a, p = Some a /\ heap w a = None /\ heap w' a = Some c /\
    (forall q, q <> a -> heap w' q = if match gives_up r with Some o => q =? o | None => false end then None else heap w q) /\
    functions w' = functions w /\ trace w' = trace w.
Proof.
  intros FR A NZ E. destruct (request_eq FR A) as (T & F & _). destruct (hd true (oracle w)).
  - destruct (T eq_refl) as (w1 & E1 & (A1 & A2 & A3 & A4 & A5) & _). assert (X : p = Some (next w) /\ w' = w1) by (rewrite E1 in E; injection E; auto). destruct X as [-> ->].
    exists (next w). split; [reflexivity|]. split; [apply FR; lia|]. auto.
  - rewrite (F eq_refl NZ) in E. exfalso. exact (leave_back _ _ E).
Qed.
(** one for no bytes may return NULL, and then nothing has changed but that realloc gave up the old block *)
Theorem C131_no_bytes r c w : fresh w -> asks (heap w) r c -> nothing r = true -> exists p w', do_request r w = Cont p w' /\
  (forall q, Some q <> p -> heap w' q = if match gives_up r with Some o => q =? o | None => false end then None else heap w q) /\
  functions w' = functions w /\ trace w' = trace w.
Proof.
  intros FR A Z0. destruct (request_eq FR A) as (T & _ & F). destruct (hd true (oracle w)).
  - destruct (T eq_refl) as (w1 & E1 & (A1 & A2 & A3 & A4 & A5) & _). exists (Some (next w)), w1. split; [exact E1|]. split; [intros q N; apply A2; congruence|]. auto.
  - destruct (F eq_refl Z0) as (w1 & E1 & A2 & A3 & A4 & A5 & _). exists None, w1. split; [exact E1|]. split; auto.
Qed.
(** memory that is there is given *)
Theorem C131_granted r c w : fresh w -> asks (heap w) r c -> hd true (oracle w) = true -> exists a w', do_request r w = Cont (Some a) w'.
Proof. intros FR A O. destruct (request_eq FR A) as (T & _). destruct (T O) as (w' & E & _). eauto. Qed.
(** without memory the process says so, calls the cleanup functions, the last registered first and each
    once, and ends with status 255 *)
Theorem C131_no_memory r c w : fresh w -> asks (heap w) r c -> nothing r = false -> hd true (oracle w) = false ->
  locked w = false -> (forall f, In f (functions w) -> quiet f) ->
  exists w', do_request r w = Exited 255 w' /\ heap w' = heap w /\ functions w' = [] /\
    trace w' = trace w ++ [Stderr (name r); Stderr OOM] ++ flat_map called (functions w).
Proof.
  intros FR A NZ O L Q. destruct (request_eq FR A) as (_ & F & _). rewrite (F O NZ). unfold failing. rewrite leave_quiet by assumption.
  eexists. split; [reflexivity|]. cbn. now rewrite <- app_assoc.
Qed.
(** whatever the cleanup functions do the caller does not go on without memory; but they must not allocate
    more than there is, register functions or end the process themselves: see C131_cleanup_refuted *)
Theorem C131_does_not_return r c w : fresh w -> asks (heap w) r c -> nothing r = false -> hd true (oracle w) = false -> locked w = false ->
  (exists w', do_request r w = Exited 255 w') \/ (exists w', do_request r w = Hangs w').
Proof. intros FR A NZ O L. destruct (request_eq FR A) as (_ & F & _). rewrite (F O NZ). unfold failing. now apply leave_any. Qed.
(** a product that does not fit, and a text of INT_MAX characters, count as no memory *)
Theorem C131_too_much w : (forall nmemb size, (SIZE_MAX < N.of_nat (nmemb * size))%N -> do_request (Calloc nmemb size) w = failing (lit "xcalloc") (asked w)) /\
  (forall is args t st, Forall wf_item is -> expands supported 0 is args t st -> (INT_MAX <= Z.of_nat (length t))%Z ->
     do_request (Asprintf (renders is) args) w = failing (lit "xvasprintf") (asked w)).
Proof.
  split.
  - intros nmemb size L. cbn [do_request]. unfold xcalloc, calloc, from_libc, bindM, granted. rewrite (proj2 (N.leb_gt _ _) L).
    assert (NZ : negb (nmemb =? 0) && negb (size =? 0) = true).
    { destruct nmemb as [|k]; [cbn in L; unfold SIZE_MAX in L; lia|]. destruct size as [|j]; [rewrite Nat.mul_0_r in L; cbn in L; unfold SIZE_MAX in L; lia|]. reflexivity. }
    rewrite NZ. unfold ret, asked. destruct (oracle w) as [|[] o]; cbn [tl andb]; apply check_fail.
  - intros is args t st WF EX LT.
    assert (V : forall b : bool, rpl_vasprintf (fun n => if b then Some (repeat None n) else None) (renders is) args = Ok (None, (-1)%Z)).
    { intros b. etransitivity; [apply (@C93_vasprintf_partial (fun n => if b then Some (repeat None n) else None) is args t st); [|exact WF|exact EX]|].
      - intros n m. destruct b; [|discriminate]. intros E; injection E as <-. apply repeat_length.
      - rewrite (proj2 (Z.leb_le _ _) LT). reflexivity. }
    cbn [do_request]. unfold xvasprintf, vasprintf, bindM, granted, asked.
    destruct (oracle w) as [|[] o]; cbn [tl]; first [rewrite (V true)|rewrite (V false)]; unfold ret; cbv beta iota; change ((-1 =? -1)%Z) with true; cbv beta iota;
    (match goal with |- context [CheckResult leave None ?f true ?x] => pose proof (check_fail f x) as CF; rewrite CF end); unfold failing; apply leave_bind.
Qed.
(** registering a function *)
Theorem C131_register f w : fresh w -> locked w = false -> hd true (oracle w) = true ->
  exists w', RegisterCleanupFunction leave f w = Cont tt w' /\ functions w' = f :: functions w /\ locked w' = false /\ trace w' = trace w.
Proof.
  intros FR L O. unfold RegisterCleanupFunction, bindM, lock. rewrite L. unfold xmalloc, malloc, from_libc, bindM, granted. cbn [oracle].
  destruct (oracle w) as [|b o]; [|cbn in O; subst b]; (eexists; split; [reflexivity|]); auto.
Qed.
(** without memory it does not end the process: the mutex it holds is the one DoCleanupAndExit waits for *)
Theorem C131_register_refuted f w : locked w = false -> hd true (oracle w) = false -> exists w', RegisterCleanupFunction leave f w = Hangs w'.
Proof.
  intros L O. unfold RegisterCleanupFunction, bindM, lock. rewrite L. unfold xmalloc, malloc, from_libc, bindM, granted. cbn [oracle].
  destruct (oracle w) as [|b o]; [discriminate O|cbn in O; subst b]. eexists. reflexivity.
Qed.
End Program.
Print Assumptions C131_never_null.
Print Assumptions C131_no_bytes.
Print Assumptions C131_granted.
Print Assumptions C131_no_memory.
Print Assumptions C131_does_not_return.
Print Assumptions C131_too_much.
Print Assumptions C131_register.
Print Assumptions C131_register_refuted.

(** two cleanup functions; the first request is granted, the second is not *)
Definition two (f : nat) : list action := match f with 1 => [Work 10; Work 11] | _ => [Work 20] end.
Definition here : world := mkWorld [true; false] (fun _ => None) 0 [2; 1] false [].
Example C131_instance : fresh here /\ (forall f, In f (functions here) -> quiet two f) /\ asks (heap here) (Strdup (block (lit "ab"))) (map Some (lit "ab" ++ [NUL])) /\
  match do_request two 0 (Strdup (block (lit "ab"))) here with
  | Cont (Some 0) w => asks (heap w) (Realloc (Some 0) 2) (map Some (lit "ab")) /\
      match do_request two 0 (Realloc (Some 0) 2) w with
      | Exited status w' => status = 255%Z /\ trace w' = [Stderr (lit "xrealloc"); Stderr OOM; Started 2; Worked 20; Started 1; Worked 10; Worked 11]
      | _ => False
      end
  | _ => False
  end.
Proof.
  split; [intros q _; reflexivity|]. split.
  { intros f [<-|[<-|[]]] a; cbn; intuition (subst; eauto). }
  split. { apply asks_strdup. split; [unfold is_cstr, NUL; cbn; intuition discriminate|exists []; reflexivity]. }
  set (r := do_request two 0 (Strdup (block (lit "ab"))) here). vm_compute in r. subst r. cbv beta iota.
  split; [apply (asks_realloc _ 0 (old := map Some (lit "ab" ++ [NUL])) 2); reflexivity|]. vm_compute. auto.
Qed.
(** a cleanup function that itself runs out of memory: the process neither goes on nor ends *)
Theorem C131_cleanup_refuted : exists body w, fresh w /\ locked w = false /\ functions w = [1] /\ oracle w = [false; false] /\
  match do_request body 0 (Malloc 8) w with
  | Hangs w' => trace w' = [Stderr (lit "xmalloc"); Stderr OOM; Started 1; Stderr (lit "xmalloc"); Stderr OOM]
  | _ => False
  end.
Proof.
  exists (fun _ => [Allocate 100; Work 1]), (mkWorld [false; false] (fun _ => None) 0 [1] false []).
  split; [intros q _; reflexivity|]. do 3 (split; [reflexivity|]). vm_compute. reflexivity.
Qed.
Print Assumptions C131_cleanup_refuted.
