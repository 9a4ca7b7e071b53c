(** C116, C117: getaddrinfo, freeaddrinfo and getnameinfo. *)
From Verif Require Import Prelude PreludeFacts Str StrFacts Libc LibcFacts MemSpec InetModel InetSpec InetProofs InetProofs6 PropsInet NumSpec NumProofs EnvProofs AddrinfoModel.
From Coq Require Import Permutation.
Set Implicit Arguments.

(** ** the heap *)
Definition owns (m : heap) (l : list nat) : Prop :=
  Permutation (live m) l /\ NoDup (live m) /\ Forall (fun x => x < next m) (live m).
Lemma owns_perm m l l' : Permutation l l' -> owns m l -> owns m l'.
Proof. intros P [A [B C]]. split; [eapply Permutation_trans; eauto|auto]. Qed.
Lemma malloc_spec m l : owns m l ->
  (exists m', malloc m = (m', None) /\ owns m' l /\ In false (oks m)) \/
  (exists m' b, malloc m = (m', Some b) /\ owns m' (b :: l) /\ (In false (oks m') -> In false (oks m))).
Proof.
  intros [A [B C]]. unfold malloc. destruct (oks m) as [|[] t] eqn:E.
  - right. eexists _, _. split; [reflexivity|]. cbn [tl oks]. split; [|auto]. split; [constructor; exact A|]. split; cbn [live next].
    + constructor; [|exact B]. intros I. rewrite Forall_forall in C. apply C in I. lia.
    + constructor; [lia|]. eapply Forall_impl; [|exact C]. cbn. intros; lia.
  - right. eexists _, _. split; [reflexivity|]. cbn [tl oks]. split; [|right; auto]. split; [constructor; exact A|]. split; cbn [live next].
    + constructor; [|exact B]. intros I. rewrite Forall_forall in C. apply C in I. lia.
    + constructor; [lia|]. eapply Forall_impl; [|exact C]. cbn. intros; lia.
  - left. eexists. split; [reflexivity|]. split; [|left; reflexivity]. split; [exact A|]. split; assumption.
Qed.
Lemma filter_out b (l : list nat) : ~ In b l -> filter (fun x => negb (b =? x)) l = l.
Proof.
  intros N. induction l as [|x l IH]; [reflexivity|]. cbn [filter]. destruct (Nat.eqb_spec b x); [subst; exfalso; apply N; left; reflexivity|].
  cbn [negb]. f_equal. apply IH. intros I. apply N. right. exact I.
Qed.
Lemma free_spec m b l : owns m (b :: l) -> exists m', free m b = Ok m' /\ owns m' l /\ oks m' = oks m.
Proof.
  intros [A [B C]]. unfold free.
  assert (I : In b (live m)) by (eapply Permutation_in; [apply Permutation_sym; exact A|left; reflexivity]).
  replace (existsb (Nat.eqb b) (live m)) with true by (symmetry; apply existsb_exists; exists b; split; [exact I|apply Nat.eqb_refl]).
  eexists. split; [reflexivity|]. split; [|reflexivity]. split; [|split]; cbn [live next].
  - assert (ND : NoDup (b :: l)) by (eapply Permutation_NoDup; eauto). inversion ND as [|? ? NI ND']; subst.
    assert (P : forall x y, Permutation x y -> Permutation (filter (fun x => negb (b =? x)) x) (filter (fun x => negb (b =? x)) y)).
    { clear. induction 1; cbn [filter]; auto.
      - destruct (negb (b =? x)); auto.
      - destruct (negb (b =? x)), (negb (b =? y)); auto. apply perm_swap.
      - eapply Permutation_trans; eauto. }
    apply P in A. cbn [filter] in A. rewrite Nat.eqb_refl in A. cbn [negb] in A. rewrite (filter_out _ _ NI) in A. exact A.
  - apply NoDup_filter. exact B.
  - rewrite Forall_forall in *. intros x IX. apply filter_In in IX as [IX _]. auto.
Qed.

(** the blocks of an entry *)
Definition blocks (e : entry) : list nat := match e_canon e with Some (b, _) => [b] | None => [] end ++ [e_sin e; e_ai e].
Definition all_blocks (l : list entry) : list nat := concat (map blocks l).

Lemma freeaddrinfo_spec l : forall m r, owns m (all_blocks l ++ r) -> exists m', freeaddrinfo m l = Ok m' /\ owns m' r /\ oks m' = oks m.
Proof.
  induction l as [|e l IH]; intros m r O; cbn [freeaddrinfo].
  - exists m. auto.
  - unfold all_blocks in O. cbn [map concat] in O. fold (all_blocks l) in O. rewrite <- app_assoc in O. unfold blocks in O.
    assert (X : exists m1, (match e_canon e with Some (b, _) => free m b | None => Ok m end) = Ok m1 /\
      owns m1 (e_sin e :: e_ai e :: all_blocks l ++ r) /\ oks m1 = oks m).
    { destruct (e_canon e) as [[b n]|]; [|exists m; auto]. cbn [app] in O. apply (free_spec O). }
    destruct X as [m1 [E1 [O1 K1]]]. rewrite E1. cbn [bind].
    destruct (free_spec O1) as [m2 [E2 [O2 K2]]]. rewrite E2. cbn [bind].
    destruct (free_spec O2) as [m3 [E3 [O3 K3]]]. rewrite E3. cbn [bind].
    destruct (IH m3 r O3) as [m4 [E4 [O4 K4]]]. exists m4. split; [exact E4|]. split; [exact O4|congruence].
Qed.

Lemma alloc_entry_spec m h ip port l : owns m l ->
  (exists m', alloc_entry m h ip port = Ok (m', None) /\ owns m' l /\ In false (oks m)) \/
  (exists m' ai ps, let e := mkEntry ai ps (socktype h) (protocol h) ip port None in
     alloc_entry m h ip port = Ok (m', Some e) /\ owns m' (blocks e ++ l) /\ (In false (oks m') -> In false (oks m))).
Proof.
  intros O. unfold alloc_entry. destruct (malloc_spec O) as [[m1 [E1 [O1 F1]]]|[m1 [ai [E1 [O1 K1]]]]]; rewrite E1.
  - left. exists m1. auto.
  - destruct (malloc_spec O1) as [[m2 [E2 [O2 F2]]]|[m2 [ps [E2 [O2 K2]]]]]; rewrite E2.
    + destruct (free_spec O2) as [m3 [E3 [O3 K3]]]. rewrite E3. cbn [bind]. left. exists m3. auto.
    + right. exists m2, ai, ps. split; [reflexivity|]. split; [exact O2|auto].
Qed.

Definition plain (h : hints) (port : N) (e : entry) : Prop :=
  e_socktype e = socktype h /\ e_protocol e = protocol h /\ e_port e = port.

Section R.
  Variable gethostbyname : list byte -> hostent + h_errno.
  Variable gethostbyaddr : list N -> hostent + h_errno.
  Variable gethostname : option (list byte).

  (** what a resolver's answer makes of a request for a name *)
  Definition resolves (hp : hostent + h_errno) (name : list byte) : Prop :=
    exists h, hp = inl h /\ h_name h = Some name /\ h_inet h = true.
  Lemma check_ok hp : check_hostent_err hp = None <-> exists n, resolves hp n.
  Proof.
    unfold resolves. destruct hp as [h|[]]; cbn.
    - destruct (h_name h) as [n|] eqn:E; destruct (h_inet h) eqn:I; cbn; split; try discriminate; intros H.
      + exists n, h. auto.
      + reflexivity.
      + destruct H as [? [? [? [? ?]]]]. congruence.
      + destruct H as [? [? [? [? ?]]]]. congruence.
      + destruct H as [? [? [? [? ?]]]]. congruence.
    - split; [discriminate|]. intros [? [? [? _]]]. discriminate.
    - split; [discriminate|]. intros [? [? [? _]]]. discriminate.
    - split; [discriminate|]. intros [? [? [? _]]]. discriminate.
    - split; [discriminate|]. intros [? [? [? _]]]. discriminate.
    - split; [discriminate|]. intros [? [? [? _]]]. discriminate.
  Qed.
  Lemma check_err_kind hp e : check_hostent_err hp = Some e -> e <> EAI_FAMILY /\ e <> EAI_MEMORY.
  Proof.
    destruct hp as [h|[]]; cbn; try (intros E; split; congruence). destruct (h_name h) as [n|]; [destruct (h_inet h)|]; cbn; intros E; split; congruence.
  Qed.
  Lemma host_name_eq hp n : resolves hp n -> host_name hp = n.
  Proof. intros [h [-> [E _]]]. cbn. rewrite E. reflexivity. Qed.

  Lemma canon_spec m l hp : owns m l ->
    (exists m' e, canon_name_from_hostent m hp = (m', inl e) /\ owns m' l /\
       (check_hostent_err hp = Some e \/ e = EAI_MEMORY /\ In false (oks m))) \/
    (exists m' b n, canon_name_from_hostent m hp = (m', inr (b, n)) /\ owns m' (b :: l) /\ resolves hp n).
  Proof.
    intros O. unfold canon_name_from_hostent. destruct (check_hostent_err hp) as [e|] eqn:C.
    - left. exists m, e. auto.
    - apply check_ok in C as [n R]. destruct (malloc_spec O) as [[m1 [E1 [O1 F1]]]|[m1 [b [E1 [O1 K1]]]]]; rewrite E1.
      + left. exists m1, EAI_MEMORY. auto.
      + right. exists m1, b, n. rewrite (host_name_eq R). auto.
  Qed.

  (** what the canonical name of a single address comes from *)
  Definition canon_source (ip : list N) : option (hostent + h_errno) :=
    if addr_eqb ip INADDR_LOOPBACK || addr_eqb ip INADDR_ANY
    then match gethostname with Some n => Some (gethostbyname (firstn HOST_NAME_MAX n)) | None => None end
    else Some (gethostbyaddr ip).

  Lemma single_spec m l service addr h : owns m l ->
    (exists m' e, getaddr_info_single_addr gethostbyname gethostbyaddr gethostname m service addr h = Ok (m', inl e) /\ owns m' l /\
       (e = EAI_MEMORY /\ In false (oks m) \/ numericserv h = false /\ canonname h = true /\
          match canon_source addr with None => e = EAI_FAIL | Some hp => check_hostent_err hp = Some e end)) \/
    (exists m' x, getaddr_info_single_addr gethostbyname gethostbyaddr gethostname m service addr h = Ok (m', inr [x]) /\
       owns m' (all_blocks [x] ++ l) /\ plain h (port_of service) x /\ e_addr x = addr /\
       (if negb (numericserv h) && canonname h
        then exists hp b n, canon_source addr = Some hp /\ resolves hp n /\ e_canon x = Some (b, n)
        else e_canon x = None)).
  Proof.
    intros O. unfold getaddr_info_single_addr.
    destruct (alloc_entry_spec h addr (port_of service) O) as [[m1 [E1 [O1 F1]]]|[m1 [ai [ps [E1 [O1 K1]]]]]]; rewrite E1; cbn [bind].
    - left. exists m1, EAI_MEMORY. auto.
    - destruct (negb (numericserv h) && canonname h) eqn:CN.
      2:{ right. eexists _, _. split; [reflexivity|]. split; [unfold all_blocks; cbn [map concat]; rewrite app_nil_r; exact O1|]. cbn. unfold plain. auto. }
      apply andb_true_iff in CN as [CN1 CN2]. apply negb_true_iff in CN1.
      assert (X : (exists m2 e, (if addr_eqb addr INADDR_LOOPBACK || addr_eqb addr INADDR_ANY
                         then get_my_canon_name gethostbyname gethostname m1 else get_canon_name_from_addr gethostbyaddr m1 addr) = (m2, inl e) /\
                    owns m2 (blocks (mkEntry ai ps (socktype h) (protocol h) addr (port_of service) None) ++ l) /\
                    (e = EAI_MEMORY /\ In false (oks m) \/ match canon_source addr with None => e = EAI_FAIL | Some hp => check_hostent_err hp = Some e end)) \/
                  (exists m2 b n hp, (if addr_eqb addr INADDR_LOOPBACK || addr_eqb addr INADDR_ANY
                         then get_my_canon_name gethostbyname gethostname m1 else get_canon_name_from_addr gethostbyaddr m1 addr) = (m2, inr (b, n)) /\
                    owns m2 (b :: blocks (mkEntry ai ps (socktype h) (protocol h) addr (port_of service) None) ++ l) /\
                    canon_source addr = Some hp /\ resolves hp n)).
      { unfold canon_source, get_my_canon_name, get_canon_name_from_addr.
        destruct (addr_eqb addr INADDR_LOOPBACK || addr_eqb addr INADDR_ANY).
        - destruct gethostname as [hn|].
          + destruct (@canon_spec _ _ (gethostbyname (firstn HOST_NAME_MAX hn)) O1) as [[m2 [e [E2 [O2 H2]]]]|[m2 [b [n [E2 [O2 H2]]]]]]; rewrite E2.
            * left. exists m2, e. split; [reflexivity|]. split; [exact O2|]. destruct H2 as [H2|[H2 H3]]; auto.
            * right. exists m2, b, n, (gethostbyname (firstn HOST_NAME_MAX hn)). auto.
          + left. exists m1, EAI_FAIL. auto.
        - destruct (@canon_spec _ _ (gethostbyaddr addr) O1) as [[m2 [e [E2 [O2 H2]]]]|[m2 [b [n [E2 [O2 H2]]]]]]; rewrite E2.
          + left. exists m2, e. split; [reflexivity|]. split; [exact O2|]. destruct H2 as [H2|[H2 H3]]; auto.
          + right. exists m2, b, n, (gethostbyaddr addr). auto. }
      destruct X as [[m2 [e [E2 [O2 H2]]]]|[m2 [b [n [hp [E2 [O2 [H2 R2]]]]]]]]; rewrite E2.
      + assert (O3 : owns m2 (all_blocks [mkEntry ai ps (socktype h) (protocol h) addr (port_of service) None] ++ l)).
        { unfold all_blocks. cbn [map concat]. rewrite app_nil_r. exact O2. }
        destruct (@freeaddrinfo_spec _ _ _ O3) as [m3 [E3 [O4 K4]]]. rewrite E3. cbn [bind]. left. exists m3, e. split; [reflexivity|]. split; [exact O4|].
        destruct H2 as [H2|H2]; auto.
      + right. eexists _, _. split; [reflexivity|]. split; [exact O2|]. cbn. unfold plain. split; [auto|]. split; [reflexivity|].
        exists hp, b, n. auto.
  Qed.

  Lemma all_blocks_app a b : all_blocks (a ++ b) = all_blocks a ++ all_blocks b.
  Proof. unfold all_blocks. rewrite map_app, concat_app. reflexivity. Qed.

  Lemma name_loop_spec h name port ips : forall m l listp, owns m (all_blocks listp ++ l) ->
    (exists m', name_loop m h name port ips listp = Ok (m', inl EAI_MEMORY) /\ owns m' l /\ In false (oks m)) \/
    (exists m' more, name_loop m h name port ips listp = Ok (m', inr (listp ++ more)) /\ owns m' (all_blocks (listp ++ more) ++ l) /\
       Forall (plain h port) more /\ map e_addr more = ips /\
       (listp = [] -> match more with [] => True | x :: r => (exists b, e_canon x = Some (b, name)) /\ Forall (fun e => e_canon e = None) r end) /\
       (listp <> [] -> Forall (fun e => e_canon e = None) more)).
  Proof.
    induction ips as [|ip ips IH]; intros m l listp O; cbn [name_loop].
    - right. exists m, []. rewrite app_nil_r. split; [reflexivity|]. split; [exact O|]. split; [constructor|]. split; [reflexivity|]. split; [intros; exact Logic.I|intros; constructor].
    - destruct (alloc_entry_spec h ip port O) as [[m1 [E1 [O1 F1]]]|[m1 [ai [ps [E1 [O1 K1]]]]]]; rewrite E1; cbn [bind].
      + destruct (@freeaddrinfo_spec _ _ _ O1) as [m2 [E2 [O2 K2]]]. rewrite E2. cbn [bind]. left. exists m2. auto.
      + set (x := mkEntry ai ps (socktype h) (protocol h) ip port None) in *. destruct listp as [|y listp].
        * cbn [all_blocks map concat app] in O1. destruct (malloc_spec O1) as [[m2 [E2 [O2 F2]]]|[m2 [b [E2 [O2 K2]]]]]; rewrite E2.
          -- assert (O3 : owns m2 (all_blocks [x] ++ l)) by (unfold all_blocks; cbn [map concat]; rewrite app_nil_r; exact O2).
             destruct (@freeaddrinfo_spec _ _ _ O3) as [m3 [E3 [O4 K4]]]. rewrite E3. cbn [bind]. left. exists m3. auto.
          -- assert (O3 : owns m2 (all_blocks [with_canon x (b, name)] ++ l)) by exact O2.
             destruct (IH m2 l [with_canon x (b, name)] O3) as [[m3 [E3 [O4 F4]]]|[m3 [more [E3 [O4 [P4 [A4 [_ C4]]]]]]]].
             ++ left. exists m3. auto.
             ++ right. exists m3, (with_canon x (b, name) :: more). split; [exact E3|]. split; [exact O4|].
                split; [constructor; [cbn; unfold plain; auto|exact P4]|]. split; [cbn; f_equal; exact A4|]. split.
                ** intros _. split; [exists b; reflexivity|]. apply C4. discriminate.
                ** intros N. congruence.
        * assert (O2 : owns m1 (all_blocks ((y :: listp) ++ [x]) ++ l)).
          { eapply owns_perm; [|exact O1]. rewrite all_blocks_app. replace (all_blocks [x]) with (blocks x) by (unfold all_blocks; cbn [map concat]; rewrite app_nil_r; reflexivity).
            rewrite <- app_assoc. apply Permutation_app_swap_app. }
          destruct (IH m1 l ((y :: listp) ++ [x]) O2) as [[m3 [E3 [O4 F4]]]|[m3 [more [E3 [O4 [P4 [A4 [_ C4]]]]]]]].
          -- left. exists m3. auto.
          -- right. exists m3, (x :: more). change (y :: listp ++ [x]) with ((y :: listp) ++ [x]). rewrite <- app_assoc in E3, O4.
             split; [exact E3|]. split; [exact O4|]. split; [constructor; [cbn; unfold plain; auto|exact P4]|].
             split; [cbn; f_equal; exact A4|]. split; [discriminate|]. intros _. constructor; [reflexivity|]. apply C4. destruct listp; discriminate.
  Qed.

  Notation getaddrinfo := (getaddrinfo gethostbyname gethostbyaddr gethostname).

  (** the hints that count: the default ones without hints, a stream socket without a type *)
  Definition effective (hintp : option hints) (h : hints) : Prop :=
    match hintp with
    | None => h = mkHints false false false false F_INET 1 0
    | Some h0 => passive h = passive h0 /\ canonname h = canonname h0 /\ numerichost h = numerichost h0 /\ numericserv h = numericserv h0 /\
                 family_ h = family_ h0 /\ protocol h = protocol h0 /\ socktype h = (if (socktype h0 =? 0)%N then 1%N else socktype h0)
    end.
  (** the addresses the arguments ask for *)
  Definition asked (h : hints) (node : option (list byte)) (ips : list (list N)) : Prop :=
    match node with
    | None => ips = [if passive h then [0; 0; 0; 0]%N else [127; 0; 0; 1]%N]
    | Some [] => ips = [[0; 0; 0; 0]%N]
    | Some s => if numerichost h then exists o, quad s o /\ ips = [o]
                else exists he, gethostbyname s = inl he /\ ips = h_addr_list he
    end.
  (** the canonical names of the entries: for a name that was looked up the official name, with the first entry; for a single
      address only if asked for, and not with AI_NUMERICSERV: the name the resolver has for this host or the address *)
  Definition named (h : hints) (node : option (list byte)) (l : list entry) : Prop :=
    match l with
    | [] => True
    | x :: r =>
        Forall (fun e => e_canon e = None) r /\
        match node with
        | Some (c :: s) => if numerichost h then
                             if negb (numericserv h) && canonname h
                             then exists hp b n, canon_source (e_addr x) = Some hp /\ resolves hp n /\ e_canon x = Some (b, n)
                             else e_canon x = None
                           else exists b n, resolves (gethostbyname (c :: s)) n /\ e_canon x = Some (b, n)
        | _ => if negb (numericserv h) && canonname h
               then exists hp b n, canon_source (e_addr x) = Some hp /\ resolves hp n /\ e_canon x = Some (b, n)
               else e_canon x = None
        end
    end.

  (** why a call fails *)
  Definition refused (m : heap) (h : hints) (node service : option (list byte)) (e : eai) : Prop :=
    match e with
    | EAI_FAMILY => family_ h = F_other
    | EAI_MEMORY => In false (oks m)
    | _ => (e = EAI_NONAME /\ node = None /\ service = None) \/
           (e = EAI_FAIL /\ numerichost h = true /\ exists s, node = Some s /\ forall o, ~ quad s o) \/
           (exists s, node = Some s /\ numerichost h = false /\ check_hostent_err (gethostbyname s) = Some e) \/
           (numericserv h = false /\ canonname h = true /\ exists ips ip, asked h node ips /\ In ip ips /\
              match canon_source ip with None => e = EAI_FAIL | Some hp => check_hostent_err hp = Some e end)
    end.

  Lemma single_result m l service addr h node : owns m l -> node <> None \/ service <> None ->
    asked h node [addr] -> (forall c s, node = Some (c :: s) -> numerichost h = true) ->
    exists m' r, getaddr_info_single_addr gethostbyname gethostbyaddr gethostname m service addr h = Ok (m', r) /\
      match r with
      | inl e => owns m' l /\ refused m h node service e
      | inr es => owns m' (all_blocks es ++ l) /\ Forall (plain h (port_of service)) es /\ asked h node (map e_addr es) /\ named h node es
      end.
  Proof.
    intros O NN A NH. destruct (@single_spec m l service addr h O) as [[m1 [e [E1 [O1 H1]]]]|[m1 [x [E1 [O1 [P1 [A1 C1]]]]]]].
    - exists m1, (inl e). split; [exact E1|]. split; [exact O1|]. destruct H1 as [[-> F]|[H1 [H2 H3]]]; [exact F|].
      assert (X : (numericserv h = false /\ canonname h = true /\ exists ips ip, asked h node ips /\ In ip ips /\
              match canon_source ip with None => e = EAI_FAIL | Some hp => check_hostent_err hp = Some e end)).
      { split; [exact H1|]. split; [exact H2|]. exists [addr], addr. split; [exact A|]. split; [left; reflexivity|exact H3]. }
      assert (NF : e = EAI_FAMILY \/ e = EAI_MEMORY -> False).
      { intros N. destruct (canon_source addr) as [hp|].
        - destruct hp as [he|[]]; cbn in H3; try (destruct N; congruence). destruct (h_name he); [destruct (h_inet he)|]; cbn in H3; destruct N; congruence.
        - destruct N; congruence. }
      destruct e; cbn; auto; exfalso; auto.
    - exists m1, (inr [x]). split; [exact E1|]. split; [exact O1|]. split; [constructor; [exact P1|constructor]|].
      split; [cbn [map]; rewrite A1; exact A|]. cbn. split; [constructor|]. rewrite A1. destruct node as [[|c s]|]; try exact C1.
      rewrite (NH c s eq_refl). exact C1.
  Qed.

  (** a call fails only for one of the reasons, and then leaves the heap as it was; otherwise the entries are those asked for, and
      the heap has their blocks more than before *)
  Theorem C116_getaddrinfo m l node service hintp : owns m l ->
    (forall s, node = Some s -> is_cstr s) ->
    exists h m' r, effective hintp h /\ getaddrinfo m node service hintp = Ok (m', r) /\
      match r with
      | inl e => owns m' l /\ refused m h node service e
      | inr es => owns m' (all_blocks es ++ l) /\ Forall (plain h (port_of service)) es /\ asked h node (map e_addr es) /\ named h node es
      end.
  Proof.
    intros O CS. unfold AddrinfoModel.getaddrinfo.
    set (h0 := match hintp with None => _ | Some h => h end).
    set (h := if (socktype h0 =? 0)%N then mkHints (passive h0) (canonname h0) (numerichost h0) (numericserv h0) (family_ h0) SOCK_STREAM (protocol h0) else h0).
    assert (EF : effective hintp h).
    { unfold effective. destruct hintp as [hh|].
      - subst h h0. destruct (socktype hh =? 0)%N; cbn; auto 10.
      - reflexivity. }
    assert (FA : family_ h = family_ h0) by (subst h; destruct (socktype h0 =? 0)%N; reflexivity).
    clearbody h. exists h.
    assert (X : exists m' r, match node, service with
        | None, None => Ok (m, inl EAI_NONAME)
        | Some [], _ => getaddr_info_single_addr gethostbyname gethostbyaddr gethostname m service INADDR_ANY h
        | Some s, _ =>
            if numerichost h then
              let* ' (ip, r) := inet_pton AF_INET s [0; 0; 0; 0]%N in
              match r with
              | inr true => getaddr_info_single_addr gethostbyname gethostbyaddr gethostname m service ip h
              | _ => Ok (m, inl EAI_FAIL)
              end
            else getaddr_info_name gethostbyname m s service h
        | None, _ =>
            if passive h then getaddr_info_single_addr gethostbyname gethostbyaddr gethostname m service INADDR_ANY h
            else getaddr_info_single_addr gethostbyname gethostbyaddr gethostname m service INADDR_LOOPBACK h
        end = Ok (m', r) /\
        match r with
        | inl e => owns m' l /\ refused m h node service e
        | inr es => owns m' (all_blocks es ++ l) /\ Forall (plain h (port_of service)) es /\ asked h node (map e_addr es) /\ named h node es
        end).
    { clear FA EF. destruct node as [[|c s]|].
      - apply single_result; auto; try discriminate; try (left; discriminate). reflexivity.
      - destruct (numerichost h) eqn:NH.
        + destruct (@C103_pton (c :: s) [0; 0; 0; 0]%N (CS _ eq_refl) ltac:(cbn; lia)) as [[o [Q E]]|[NQ E]]; rewrite E; cbn [bind skipn].
          * rewrite app_nil_r. apply single_result; auto; [left; discriminate|]. cbn. rewrite NH. exists o. auto.
          * exists m, (inl EAI_FAIL). split; [reflexivity|]. split; [exact O|]. cbn. right. left. split; [reflexivity|]. split; [exact NH|]. eauto.
        + unfold getaddr_info_name. destruct (check_hostent_err (gethostbyname (c :: s))) as [e|] eqn:CH.
          * exists m, (inl e). split; [reflexivity|]. split; [exact O|].
            assert (Y : exists s0, Some (c :: s) = Some s0 /\ numerichost h = false /\ check_hostent_err (gethostbyname s0) = Some e) by (exists (c :: s); auto).
            destruct (check_err_kind _ CH) as [K1 K2]. destruct e; cbn; auto; congruence.
          * apply check_ok in CH as [n R]. destruct R as [he [EH [HN HI]]]. 
            assert (R : resolves (gethostbyname (c :: s)) n) by (exists he; auto).
            rewrite (host_name_eq R), EH.
            destruct (@name_loop_spec h n (port_of service) (h_addr_list he) m l [] O) as [[m1 [E1 [O1 F1]]]|[m1 [more [E1 [O1 [P1 [A1 [C1 _]]]]]]]]; rewrite E1.
            -- exists m1, (inl EAI_MEMORY). auto.
            -- exists m1, (inr more). split; [reflexivity|]. split; [exact O1|]. split; [exact P1|]. split.
               ++ cbn. rewrite NH. exists he. auto.
               ++ specialize (C1 eq_refl). unfold named. destruct more as [|x r]; [exact Logic.I|]. destruct C1 as [[b CB] CR].
                  split; [exact CR|]. rewrite NH. exists b, n. auto.
      - destruct service as [sv|].
        + destruct (passive h) eqn:PA; (apply single_result; auto; [right; discriminate|cbn; rewrite PA; reflexivity|discriminate]).
        + exists m, (inl EAI_NONAME). split; [reflexivity|]. split; [exact O|]. cbn. auto. }
    destruct X as [m' [r [E H]]]. destruct (family_ h0) eqn:FH.
    - exists m', r. split; [exact EF|]. split; [exact E|exact H].
    - exists m', r. split; [exact EF|]. split; [exact E|exact H].
    - exists m, (inl EAI_FAMILY). split; [exact EF|]. split; [reflexivity|]. split; [exact O|exact FA].
  Qed.
  (** an unsupported family is always refused *)
  Theorem C116_always_refused m node service h :
    family_ h = F_other -> getaddrinfo m node service (Some h) = Ok (m, inl EAI_FAMILY).
  Proof. intros E. unfold AddrinfoModel.getaddrinfo. rewrite E. reflexivity. Qed.
  (** freeaddrinfo of a result frees exactly its blocks, each once *)
  Theorem C116_free m l node service hintp m' es : owns m l -> (forall s, node = Some s -> is_cstr s) ->
    getaddrinfo m node service hintp = Ok (m', inr es) ->
    exists m2, freeaddrinfo m' es = Ok m2 /\ Permutation (live m2) l.
  Proof.
    intros O CS E. destruct (@C116_getaddrinfo m l node service hintp O CS) as [h [m1 [r [_ [E1 H]]]]].
    rewrite E in E1. injection E1 as <- <-. destruct H as [O1 _]. destruct (@freeaddrinfo_spec _ _ _ O1) as [m2 [E2 [[P _] _]]]. eauto.
  Qed.
End R.
Print Assumptions C116_getaddrinfo.
Print Assumptions C116_always_refused.
Print Assumptions C116_free.

(** the port is the number the service is, if it is one *)
Theorem C116_port : port_of None = 0%N /\
  (forall s v rest, reads s v rest -> (0 <= v < 65536)%Z -> Z.of_N (port_of (Some s)) = v).
Proof.
  split; [reflexivity|]. intros s v rest R V. unfold port_of. rewrite (strtol_reads R).
  replace (v >? LONG_MAX)%Z with false by (unfold LONG_MAX; symmetry; rewrite Z.gtb_ltb; apply Z.ltb_ge; lia).
  replace (v <? LONG_MIN)%Z with false by (unfold LONG_MIN; symmetry; apply Z.ltb_ge; lia).
  cbn [fst]. rewrite Z.mod_small by lia. rewrite Z2N.id by lia. reflexivity.
Qed.
Print Assumptions C116_port.

Definition no_host (T : Type) (x : T) : hostent + h_errno := inr HOST_NOT_FOUND.
(** names of services and numbers that are no port are not refused; a host without addresses gives success and no entry *)
Theorem C116_service_refuted :
  let m := mkHeap [] 0 [] in
  let a := getaddrinfo (@no_host _) (@no_host _) None m (Some (lit "1.2.3.4")) in
  let h := Some (mkHints false false true false F_INET 1 0) in
  (exists m' x, a (Some (lit "http")) h = Ok (m', inr [x]) /\ e_port x = 0%N) /\
  (exists m' x, a (Some (lit "65616")) h = Ok (m', inr [x]) /\ e_port x = 80%N) /\
  (exists g, getaddrinfo g (@no_host _) None m (Some (lit "h")) None None = Ok (m, inr []) ).
Proof.
  cbv zeta. split; [|split].
  - eexists _, _. vm_compute. auto.
  - eexists _, _. vm_compute. auto.
  - exists (fun _ => inl (mkHost (Some (lit "h")) true [])). reflexivity.
Qed.
(** two addresses, the third allocation failing or none *)
Example C116_nonvacuous :
  let g s := if bytes_eqb s (lit "www") then inl (mkHost (Some (lit "www.example.com")) true [[10; 0; 0; 1]; [10; 0; 0; 2]]%N) else inr TRY_AGAIN in
  let a := getaddrinfo g (@no_host _) (Some (lit "www")) in
  (exists m x y, a (mkHeap [7] 8 []) (Some (lit "www")) (Some (lit "80")) None = Ok (m, inr [x; y]) /\
     e_addr x = [10; 0; 0; 1]%N /\ e_addr y = [10; 0; 0; 2]%N /\ e_port y = 80%N /\ live m = [12; 11; 10; 9; 8; 7] /\ e_canon x = Some (10, lit "www.example.com")) /\
  (exists m, a (mkHeap [7] 8 [true; true; true; true; false]) (Some (lit "www")) None None = Ok (m, inl EAI_MEMORY) /\ live m = [7]) /\
  (exists m, a (mkHeap [7] 8 [true; true; false]) (Some (lit "www")) None None = Ok (m, inl EAI_MEMORY) /\ live m = [7]) /\
  (exists m x, a (mkHeap [7] 8 []) None (Some (lit "80")) (Some (mkHints false true false false F_UNSPEC 0 0)) = Ok (m, inr [x]) /\
     e_addr x = [127; 0; 0; 1]%N /\ e_canon x = Some (10, lit "www.example.com")) /\
  a (mkHeap [7] 8 []) (Some (lit "ftp")) None None = Ok (mkHeap [7] 8 [], inl EAI_AGAIN) /\ owns (mkHeap [7] 8 []) [7].
Proof.
  cbv zeta. split; [|split; [|split; [|split; [|split]]]].
  - eexists _, _, _. vm_compute. repeat split.
  - eexists. vm_compute. repeat split.
  - eexists. vm_compute. repeat split.
  - eexists _, _. vm_compute. repeat split.
  - reflexivity.
  - split; [apply Permutation_refl|]. split; cbn; repeat constructor; auto.
Qed.

(** ** getnameinfo *)
Lemma msnprintf_holds m size text : is_cstr text -> size <= length m -> 0 < size ->
  exists m', msnprintf m 0 size text = Ok m' /\ holds m' (firstn (size - 1) text) /\ same_from size m m'.
Proof.
  intros C L P. unfold msnprintf. destruct size as [|k]; [lia|]. replace (S k - 1) with k by lia.
  set (t := firstn k text). assert (LT : length t <= k) by (subst t; rewrite firstn_length; lia).
  assert (CT : is_cstr t). { intros I. apply C. rewrite <- (firstn_skipn k text). apply in_app_iff. left. exact I. }
  rewrite block_eq. rewrite acopy_Ok by (try (rewrite app_length, map_length; cbn [length]); lia).
  eexists. split; [reflexivity|]. cbn [firstn skipn app Nat.add].
  rewrite firstn_all2 by (rewrite app_length, map_length; cbn [length]; lia). split; [split; [exact CT|]|split].
  - exists (skipn (S (length t)) m). rewrite <- app_assoc. reflexivity.
  - rewrite !app_length, map_length, skipn_length. cbn [length]. lia.
  - rewrite skipn_app_ge by (rewrite app_length, map_length; cbn [length]; lia). rewrite skipn_skipn, app_length, map_length. cbn [length].
    f_equal. lia.
Qed.
Lemma same_from_trans n a b c : same_from n a b -> same_from n b c -> same_from n a c.
Proof. intros [A B] [C D]. split; congruence. Qed.

(** a text that must fit: what the buffer is then *)
Definition printed (size : nat) (m : cells byte) (t : list byte) (r : cells byte * option eai) : Prop :=
  same_from size m (fst r) /\
  (snd r = None /\ length t < size /\ holds (fst r) t \/ snd r = Some EAI_MEMORY /\ size <= length t).

Lemma print_spec size m t : is_cstr t -> size <= length m ->
  exists r, (let* m := msnprintf m 0 size t in if size <=? length t then Ok (m, Some EAI_MEMORY) else Ok (m, None)) = Ok r /\ printed size m t r.
Proof.
  intros C L. destruct (Nat.eq_dec size 0) as [->|NZ].
  - cbn. eexists. split; [reflexivity|]. split; [split; reflexivity|]. right. split; [reflexivity|lia].
  - destruct (@msnprintf_holds m size t C L ltac:(lia)) as [m' [E [H S]]]. rewrite E. cbn [bind].
    destruct (Nat.leb_spec size (length t)) as [LE|GT]; (eexists; split; [reflexivity|]); (split; [exact S|]); cbn.
    + right. auto.
    + left. split; [reflexivity|]. split; [exact GT|]. rewrite firstn_all2 in H by lia. exact H.
Qed.

Section N_.
  Variable gethostbyaddr : list N -> hostent + h_errno.
  Variable services : N -> bool -> option (list byte).
  Hypothesis host_names : forall a h n, gethostbyaddr a = inl h -> h_name h = Some n -> is_cstr n.
  Hypothesis service_names : forall p u n, services p u = Some n -> is_cstr n.

  (** the text for the host: the dotted quad or the name, without what follows its first dot if asked; [full] is what must fit the buffer *)
  Inductive host_text (sa : sockaddr) (f : ni_flags) : list byte -> list byte -> Prop :=
  | ht_numeric t : short_quad t (sin_addr sa) ->
      ni_numerichost f = true \/ (ni_namereqd f = false /\ forall n, ~ resolves (gethostbyaddr (sin_addr sa)) n) -> host_text sa f t t
  | ht_name n : ni_numerichost f = false -> resolves (gethostbyaddr (sin_addr sa)) n -> ni_nofqdn f = false \/ ~ In "."%char n -> host_text sa f n n
  | ht_short a b : ni_numerichost f = false -> resolves (gethostbyaddr (sin_addr sa)) (a ++ "."%char :: b) -> ni_nofqdn f = true -> ~ In "."%char a ->
      host_text sa f (a ++ "."%char :: b) a.
  (** what became of the buffer: the text, or not enough room for the full one, or no name where one is required *)
  Definition host_done (sa : sockaddr) (f : ni_flags) (size : nat) (m m' : cells byte) (e : option eai) : Prop :=
    same_from size m m' /\
    match e with
    | None => exists full t, host_text sa f full t /\ length full < size /\ holds m' t
    | Some EAI_MEMORY => exists full t, host_text sa f full t /\ size <= length full
    | Some e => ni_numerichost f = false /\ ni_namereqd f = true /\ m' = m /\ check_hostent_err (gethostbyaddr (sin_addr sa)) = Some e
    end.
  Definition octets (a : list N) : Prop := exists x y z w, a = [x; y; z; w] /\ (x <= 255 /\ y <= 255 /\ z <= 255 /\ w <= 255)%N.

  Theorem C117_host sa f m size : octets (sin_addr sa) -> size <= length m ->
    exists m' e, gethostnameinfo gethostbyaddr sa m size f = Ok (m', e) /\ host_done sa f size m m' e.
  Proof.
    intros [x [y [z [w [A [X [Y [Z W]]]]]]]] L. unfold gethostnameinfo.
    destruct (@dots_quad x y z w X Y Z W) as [Q [_ CQ]].
    assert (IN : inet_ntoa (sin_addr sa) = dots x y z w) by (rewrite A; reflexivity).
    assert (NUM : (ni_numerichost f = true \/ (ni_namereqd f = false /\ forall n, ~ resolves (gethostbyaddr (sin_addr sa)) n)) ->
      exists m' e, (let p := inet_ntoa (sin_addr sa) in
        let* node := msnprintf m 0 size p in
        if size <=? length p then Ok (node, Some EAI_MEMORY) else Ok (node, None)) = Ok (m', e) /\ host_done sa f size m m' e).
    { intros H. rewrite IN. cbv zeta. destruct (@print_spec size m (dots x y z w) CQ L) as [[m' e] [E [S P]]]. cbn in S, P.
      exists m', e. split; [exact E|]. split; [exact S|].
      assert (HT : host_text sa f (dots x y z w) (dots x y z w)) by (apply ht_numeric; [rewrite A; exact Q|exact H]).
      destruct P as [[-> [P1 P2]]|[-> P1]]; eauto. }
    cbv zeta in NUM |- *. destruct (ni_numerichost f) eqn:NH; cbn [negb]; [apply NUM; auto|].
    destruct (check_hostent_err (gethostbyaddr (sin_addr sa))) as [e|] eqn:CH.
    - destruct (ni_namereqd f) eqn:NR.
      + exists m, (Some e). split; [reflexivity|]. split; [split; reflexivity|]. destruct (check_err_kind _ CH) as [K1 K2].
        destruct e; try congruence; auto.
      + apply NUM. right. split; [reflexivity|]. intros n R. assert (CN : check_hostent_err (gethostbyaddr (sin_addr sa)) = None) by (apply check_ok; eauto). congruence.
    - apply check_ok in CH as [n R]. rewrite (host_name_eq R).
      assert (CN : is_cstr n) by (destruct R as [h [E1 [E2 _]]]; eapply host_names; eauto).
      destruct (Nat.eq_dec size 0) as [Z0|NZ].
      { subst size. cbn. exists m, (Some EAI_MEMORY). split; [reflexivity|]. split; [split; reflexivity|].
        destruct (in_dec Ascii.ascii_dec "."%char n) as [I|NI]; [|exists n, n; split; [apply ht_name; auto|lia]].
        destruct (ni_nofqdn f) eqn:NF; [|exists n, n; split; [apply ht_name; auto|lia]].
        pose proof (@strchr_cases n "."%char CN ltac:(discriminate)) as SC. destruct (strchr n "."%char) as [i|]; [|tauto].
        destruct SC as [a [b [-> [_ NI]]]]. exists (a ++ "."%char :: b), a. split; [apply ht_short; auto|lia]. }
      destruct (@msnprintf_holds m size n CN L ltac:(lia)) as [m1 [E1 [H1 S1]]]. rewrite E1. cbn [bind].
      destruct (Nat.leb_spec size (length n)) as [LE|GT].
      + exists m1, (Some EAI_MEMORY). split; [reflexivity|]. split; [exact S1|].
        pose proof (@strchr_cases n "."%char CN ltac:(discriminate)) as SC. destruct (strchr n "."%char) as [i|].
        * destruct (ni_nofqdn f) eqn:NF; [|exists n, n; split; [apply ht_name; auto|lia]].
          destruct SC as [a [b [-> [_ NI]]]]. exists (a ++ "."%char :: b), a. split; [apply ht_short; auto|lia].
        * exists n, n. split; [apply ht_name; auto|lia].
      + rewrite firstn_all2 in H1 by lia. destruct (ni_nofqdn f) eqn:NF.
        * rewrite (proj2 (mstr_holds m1 n) H1). cbn [bind].
          pose proof (@strchr_cases n "."%char CN ltac:(discriminate)) as SC. destruct (strchr n "."%char) as [i|].
          -- destruct SC as [a [b [-> [LA NI]]]]. destruct H1 as [_ [r ->]]. rewrite map_app, <- app_assoc. cbn [map app].
             subst i. rewrite <- (map_length Some a). rewrite EnvProofs.aset_at. cbn [bind].
             eexists _, _. split; [reflexivity|]. split.
             ++ eapply same_from_trans; [exact S1|]. rewrite map_app, <- app_assoc. cbn [map app]. split.
                ** rewrite !app_length. reflexivity.
                ** rewrite app_length in GT. cbn [length] in GT. rewrite !skipn_app_ge by (rewrite map_length; lia). rewrite map_length.
                   destruct (size - length a) as [|k] eqn:SZ; [lia|]. reflexivity.
             ++ exists (a ++ "."%char :: b), a. split; [apply ht_short; auto|]. split; [exact GT|]. split; [|eexists; reflexivity].
                intros I. apply CN. apply in_app_iff. auto.
          -- eexists _, _. split; [reflexivity|]. split; [exact S1|]. exists n, n. split; [apply ht_name; auto|]. auto.
        * eexists _, _. split; [reflexivity|]. split; [exact S1|]. exists n, n. split; [apply ht_name; auto|]. auto.
  Qed.

  (** the text for the service: the number of the port or a name.  The name is that of the port with its two bytes swapped. *)
  Inductive service_text (sa : sockaddr) (f : ni_flags) : list byte -> Prop :=
  | st_number : ni_numericserv f = true \/ services (swap16 (sin_port sa)) (ni_dgram f) = None -> service_text sa f (udec (sin_port sa))
  | st_name n : ni_numericserv f = false -> services (swap16 (sin_port sa)) (ni_dgram f) = Some n -> service_text sa f n.
  Theorem C117_service sa f m size : size <= length m ->
    exists t r, getservicenameinfo services sa m size f = Ok r /\ service_text sa f t /\ printed size m t r.
  Proof.
    intros L. unfold getservicenameinfo, getservbyport. cbv zeta.
    destruct (@print_spec size m (udec (sin_port sa)) (udec_cstr (sin_port sa)) L) as [r0 [E0 P0]].
    destruct (ni_numericserv f) eqn:NS; cbn [negb].
    - exists (udec (sin_port sa)), r0. split; [exact E0|]. split; [constructor; auto|exact P0].
    - destruct (services (swap16 (sin_port sa)) (ni_dgram f)) as [n|] eqn:SV.
      + destruct (@print_spec size m n (@service_names _ _ _ SV) L) as [r1 [E1 P1]]. exists n, r1. split; [exact E1|]. split; [constructor; auto|exact P1].
      + exists (udec (sin_port sa)), r0. split; [exact E0|]. split; [constructor; auto|exact P0].
  Qed.

  (** bad arguments are refused and change nothing *)
  Theorem C117_arguments sa salen node nodelen service servicelen f :
    sa = None \/ node = None /\ service = None \/ (exists x, sa = Some x /\ sa_inet x = false) \/ salen < 16 ->
    getnameinfo gethostbyaddr services sa salen node nodelen service servicelen f = Ok (node, service, Some EAI_FAIL).
  Proof.
    intros H. unfold getnameinfo. destruct sa as [x|]; [|reflexivity].
    destruct (match node, service with None, None => true | _, _ => false end) eqn:B; [reflexivity|].
    destruct (sa_inet x) eqn:SI; cbn [negb]; [|reflexivity]. destruct (Nat.ltb_spec salen 16) as [LT|GE]; [reflexivity|].
    destruct H as [H|[[-> ->]|[[y [Y N]]|H]]]; try discriminate; try lia. congruence.
  Qed.

  (** otherwise the host is put into [node], and unless that failed the service into [service]; nothing behind the given
      sizes changes *)
  Theorem C117_getnameinfo sa salen (node : option (cells byte)) nodelen (service : option (cells byte)) servicelen f :
    sa_inet sa = true -> 16 <= salen -> node <> None \/ service <> None -> octets (sin_addr sa) ->
    (forall m : cells byte, node = Some m -> nodelen <= length m) -> (forall m : cells byte, service = Some m -> servicelen <= length m) ->
    exists node' service' e, getnameinfo gethostbyaddr services (Some sa) salen node nodelen service servicelen f = Ok (node', service', e) /\
    exists e1,
      match node with
      | Some m => exists m', node' = Some m' /\ host_done sa f nodelen m m' e1
      | None => node' = None /\ e1 = None
      end /\
      match e1, service with
      | Some _, _ => service' = service /\ e = e1
      | None, None => service' = None /\ e = None
      | None, Some m => exists t m', service' = Some m' /\ service_text sa f t /\ printed servicelen m t (m', e)
      end.
  Proof.
    intros SI SL NN OC LN LS. unfold getnameinfo.
    replace (match node, service with None, None => true | _, _ => false end) with false by (destruct node, service; try reflexivity; destruct NN; congruence).
    rewrite SI. cbn [negb]. replace (salen <? 16) with false by (symmetry; apply Nat.ltb_ge; exact SL).
    match goal with |- context [bind ?t _] => assert (X : exists node' e1, t = Ok (node', e1) /\
      match node with
      | Some m => exists m', node' = Some m' /\ host_done sa f nodelen m m' e1
      | None => node' = None /\ e1 = None
      end) end.
    { destruct node as [m|]; [|exists None, None; auto]. destruct (@C117_host sa f m nodelen OC (LN m eq_refl)) as [m' [e1 [E H]]]. rewrite E. cbn [bind].
      exists (Some m'), e1. split; [reflexivity|]. exists m'. auto. }
    destruct X as [node' [e1 [E H]]]. rewrite E. cbn [bind]. destruct e1 as [e1|].
    - exists node', service, (Some e1). split; [reflexivity|]. exists (Some e1). auto.
    - destruct service as [m|].
      + destruct (@C117_service sa f m servicelen (LS m eq_refl)) as [t [[m' e] [E2 [T P]]]]. rewrite E2. cbn [bind].
        exists node', (Some m'), e. split; [reflexivity|]. exists None. split; [exact H|]. exists t, m'. auto.
      + exists node', None, None. split; [reflexivity|]. exists None. auto.
  Qed.
End N_.
Print Assumptions C117_host.
Print Assumptions C117_service.
Print Assumptions C117_arguments.
Print Assumptions C117_getnameinfo.

Definition http (p : N) (udp : bool) : option (list byte) := if (p =? 80)%N && negb udp then Some (lit "http") else None.
Definition text_of (r : res (option (cells byte) * option (cells byte) * option eai)) : option (res (list byte) * res (list byte)) :=
  match r with Ok (Some n, Some s, None) => Some (mstr n, mstr s) | _ => None end.
(** the name of the service of port 80 is given for port 20480 and not for port 80 *)
Theorem C117_service_name_refuted :
  let f := mkNi true false false false false in
  let g p := text_of (getnameinfo (@no_host _) http (Some (mkSock true [10; 0; 0; 1]%N p)) 16 (Some (repeat None 20)) 20 (Some (repeat None 20)) 20 f) in
  g 80%N = Some (Ok (lit "10.0.0.1"), Ok (lit "80")) /\ g 20480%N = Some (Ok (lit "10.0.0.1"), Ok (lit "http")).
Proof. vm_compute. auto. Qed.
Example C117_nonvacuous :
  let g a := if list_eq_dec N.eq_dec a [10; 0; 0; 1]%N then inl (mkHost (Some (lit "www.example.com")) true []) else inr HOST_NOT_FOUND in
  let r a f n := getnameinfo g http (Some (mkSock true a 443%N)) 16 (Some (repeat None n)) n (Some (repeat None 8)) 8 f in
  text_of (r [10; 0; 0; 1]%N (mkNi false false true true false) 16) = Some (Ok (lit "www"), Ok (lit "443")) /\
  text_of (r [10; 0; 0; 1]%N (mkNi false false false true false) 16) = Some (Ok (lit "www.example.com"), Ok (lit "443")) /\
  (exists n s, r [10; 0; 0; 1]%N (mkNi false false false true false) 15 = Ok (n, s, Some EAI_MEMORY)) /\
  text_of (r [10; 0; 0; 2]%N (mkNi false false false true false) 16) = Some (Ok (lit "10.0.0.2"), Ok (lit "443")) /\
  r [10; 0; 0; 2]%N (mkNi false true false true false) 1 = Ok (Some [None], Some (repeat None 8), Some EAI_NONAME) /\ octets [10; 0; 0; 2]%N.
Proof.
  cbv zeta. split; [vm_compute; reflexivity|]. split; [vm_compute; reflexivity|]. split; [eexists _, _; vm_compute; reflexivity|].
  split; [vm_compute; reflexivity|]. split; [vm_compute; reflexivity|]. exists 10%N, 0%N, 0%N, 2%N. split; [reflexivity|lia].
Qed.
Print Assumptions C117_service_name_refuted.
