(** C43: comparing addresses. *)
From Verif Require Import Prelude PreludeFacts Str Libc IpModel.
Set Implicit Arguments.
Local Open Scope N_scope.

(** the numbers of an address, most significant first, and the shape every address made by
    the library has *)
Definition numbers (a : IPAddress) : list N := match a with IP4 a => octets a | IP6 a => sixteen a end.
Definition shaped (a : IPAddress) : Prop := match a with IP4 a => length (octets a) = 4%nat | IP6 a => length (sixteen a) = 8%nat end.
Definition same_family (a b : IPAddress) : Prop := match a, b with IP4 _, IP4 _ | IP6 _, IP6 _ => True | _, _ => False end.
(** the first number that differs is smaller *)
Definition below (x y : list N) : Prop := exists i, firstn i x = firstn i y /\ (i < length x)%nat /\ nth i x 0 < nth i y 0.

Lemma same_loop_spec k : forall i a b, length a = (i + k)%nat -> length b = (i + k)%nat ->
  same_loop k i a b = Ok (if list_eq_dec N.eq_dec (skipn i a) (skipn i b) then true else false).
Proof.
  induction k as [|k IH]; intros i a b La Lb.
  - cbn. rewrite !skipn_all2 by lia. destruct (list_eq_dec N.eq_dec [] []); congruence.
  - cbn [same_loop]. unfold nget. rewrite (nth_error_nth' a 0) by lia. rewrite (nth_error_nth' b 0) by lia. cbn [bind].
    rewrite (@skipn_cons_nth N a i 0), (@skipn_cons_nth N b i 0) by lia.
    destruct (N.eqb_spec (nth i a 0) (nth i b 0)) as [E|E].
    + rewrite IH by lia. rewrite E. destruct (list_eq_dec N.eq_dec (skipn (S i) a) _) as [E1|E1], (list_eq_dec N.eq_dec (nth i b 0 :: _) _) as [E2|E2]; try reflexivity; [congruence|injection E2; congruence].
    + destruct (list_eq_dec N.eq_dec _ _) as [E2|E2]; [injection E2; congruence|reflexivity].
Qed.
(** Two addresses of one family are equal exactly when all their numbers are; ports do not count. *)
Theorem C43_equal a b : shaped a -> shaped b -> same_family a b ->
  IPAddressIsEqual (Some a) (Some b) = Ok (if list_eq_dec N.eq_dec (numbers a) (numbers b) then 1 else 0)%Z.
Proof.
  destruct a as [a|a], b as [b|b]; intros A B F; try destruct F; cbn [shaped] in *; unfold IPAddressIsEqual; rewrite same_loop_spec by (cbn [plus]; assumption); cbn [bind skipn numbers];
    destruct (list_eq_dec _ _ _); reflexivity.
Qed.
(** so equality is reflexive, symmetric and transitive *)
Theorem C43_equivalence a b c : shaped a -> shaped b -> shaped c -> same_family a b -> same_family b c ->
  IPAddressIsEqual (Some a) (Some a) = Ok 1%Z /\
  IPAddressIsEqual (Some a) (Some b) = IPAddressIsEqual (Some b) (Some a) /\
  (IPAddressIsEqual (Some a) (Some b) = Ok 1%Z -> IPAddressIsEqual (Some b) (Some c) = Ok 1%Z -> IPAddressIsEqual (Some a) (Some c) = Ok 1%Z).
Proof.
  intros A B C F1 F2. assert (F3 : same_family a c) by (destruct a, b, c; cbn in *; tauto). assert (F4 : same_family b a) by (destruct a, b; cbn in *; tauto). assert (F5 : same_family a a) by (destruct a; exact Logic.I).
  rewrite !C43_equal by assumption. split; [destruct (list_eq_dec _ _ _); congruence|]. split.
  - destruct (list_eq_dec _ _ _), (list_eq_dec _ _ _); congruence.
  - destruct (list_eq_dec N.eq_dec (numbers a) (numbers b)) as [E|]; [rewrite E|discriminate]. destruct (list_eq_dec N.eq_dec (numbers b) (numbers c)); [reflexivity|discriminate].
Qed.

Fixpoint lessb (x y : list N) : bool := match x, y with a :: x, b :: y => if b <? a then false else if a <? b then true else lessb x y | _, _ => false end.
Lemma less_loop_spec k : forall i a b, length a = (i + k)%nat -> length b = (i + k)%nat -> less_loop k i a b = Ok (lessb (skipn i a) (skipn i b)).
Proof.
  induction k as [|k IH]; intros i a b La Lb.
  - cbn. rewrite !skipn_all2 by lia. reflexivity.
  - cbn [less_loop]. unfold nget. rewrite (nth_error_nth' a 0) by lia. rewrite (nth_error_nth' b 0) by lia. cbn [bind].
    rewrite (@skipn_cons_nth N a i 0), (@skipn_cons_nth N b i 0) by lia. cbn [lessb].
    destruct (_ <? _); [reflexivity|]. destruct (_ <? _); [reflexivity|]. apply IH; lia.
Qed.
Lemma lessb_below x : forall y, length x = length y -> (lessb x y = true <-> below x y).
Proof.
  induction x as [|a x IH]; intros [|b y] L; try discriminate L.
  - split; [discriminate|]. intros [i [_ [K _]]]. cbn in K. lia.
  - injection L as L. cbn [lessb]. destruct (N.ltb_spec b a) as [H|H].
    + split; [discriminate|]. intros [i [E [K1 K2]]]. destruct i as [|i]; [cbn in K2; lia|]. cbn in E. injection E as -> _. lia.
    + destruct (N.ltb_spec a b) as [H1|H1].
      * split; [|reflexivity]. intros _. exists 0%nat. split; [reflexivity|]. split; [cbn; lia|exact H1].
      * assert (a = b) by lia. subst b. rewrite IH by exact L. split.
        -- intros [i [E [K1 K2]]]. exists (S i). split; [cbn; congruence|]. split; [cbn; lia|exact K2].
        -- intros [i [E [K1 K2]]]. destruct i as [|i]; [cbn in K2; lia|]. exists i. split; [cbn in E; congruence|]. split; [cbn in K1; lia|exact K2].
Qed.
(** One address is less than another when it is IPv4 and the other IPv6, or they have one
    family and the first number that differs is smaller. *)
Theorem C43_less a b : shaped a -> shaped b -> exists r, IPAddressCompareLess (Some a) (Some b) = Ok r /\
  (r = true <-> match a, b with IP4 _, IP6 _ => True | IP6 _, IP4 _ => False | _, _ => below (numbers a) (numbers b) end).
Proof.
  destruct a as [a|a], b as [b|b]; intros A B; cbn [shaped numbers] in *; unfold IPAddressCompareLess.
  - eexists. split; [apply less_loop_spec; assumption|]. cbn [skipn]. apply lessb_below. congruence.
  - exists true. split; [reflexivity|tauto].
  - exists false. split; [reflexivity|]. split; [discriminate|tauto].
  - eexists. split; [apply less_loop_spec; assumption|]. cbn [skipn]. apply lessb_below. congruence.
Qed.

Lemma lessb_total x : forall y, length x = length y -> (lessb x y = true /\ lessb y x = false /\ x <> y) \/ (lessb x y = false /\ lessb y x = true /\ x <> y) \/ (lessb x y = false /\ lessb y x = false /\ x = y).
Proof.
  induction x as [|a x IH]; intros [|b y] L; try discriminate L; [right; right; auto|]. injection L as L. cbn [lessb].
  destruct (N.ltb_spec b a) as [H|H], (N.ltb_spec a b) as [H1|H1]; try lia.
  - right; left. split; [reflexivity|]. split; [reflexivity|]. injection 1; lia.
  - left. split; [reflexivity|]. split; [reflexivity|]. injection 1; lia.
  - assert (a = b) by lia. subst b. destruct (IH y L) as [[A [B C]]|[[A [B C]]|[A [B C]]]]; [left|right; left|right; right].
    + split; [exact A|]. split; [exact B|]. injection 1; exact C.
    + split; [exact A|]. split; [exact B|]. injection 1; exact C.
    + split; [exact A|]. split; [exact B|]. congruence.
Qed.
Lemma lessb_trans x : forall y z, lessb x y = true -> lessb y z = true -> lessb x z = true.
Proof.
  induction x as [|a x IH]; intros [|b y] [|c z]; cbn [lessb]; try discriminate.
  destruct (N.ltb_spec b a), (N.ltb_spec a b), (N.ltb_spec c b), (N.ltb_spec b c), (N.ltb_spec c a), (N.ltb_spec a c); try discriminate; try lia; try reflexivity. apply IH.
Qed.
(** It is a strict total order: never below itself, transitive, and of two addresses exactly
    one is below the other unless they are equal. *)
Theorem C43_order a b c : shaped a -> shaped b -> shaped c ->
  IPAddressCompareLess (Some a) (Some a) = Ok false /\
  (IPAddressCompareLess (Some a) (Some b) = Ok true -> IPAddressCompareLess (Some b) (Some c) = Ok true -> IPAddressCompareLess (Some a) (Some c) = Ok true) /\
  (IPAddressCompareLess (Some a) (Some b) = Ok true /\ IPAddressCompareLess (Some b) (Some a) = Ok false /\ IPAddressIsEqual (Some a) (Some b) <> Ok 1%Z \/
   IPAddressCompareLess (Some a) (Some b) = Ok false /\ IPAddressCompareLess (Some b) (Some a) = Ok true /\ IPAddressIsEqual (Some a) (Some b) <> Ok 1%Z \/
   IPAddressCompareLess (Some a) (Some b) = Ok false /\ IPAddressCompareLess (Some b) (Some a) = Ok false /\ IPAddressIsEqual (Some a) (Some b) = Ok 1%Z).
Proof.
  intros A B C.
  assert (W : forall x, shaped x -> IPAddressCompareLess (Some x) (Some x) = Ok false).
  { assert (V : forall l, lessb l l = false) by (induction l as [|n l IHl]; [reflexivity|cbn [lessb]; rewrite N.ltb_irrefl; exact IHl]).
    intros x X. destruct x as [x|x]; cbn [shaped] in X; unfold IPAddressCompareLess; rewrite less_loop_spec by assumption; rewrite V; reflexivity. }
  split; [apply W, A|]. split.
  - destruct a as [a|a], b as [b|b], c as [c|c]; cbn [shaped] in *; unfold IPAddressCompareLess; try discriminate; try (intros; reflexivity);
      rewrite !less_loop_spec by assumption; cbn [skipn]; intros [= H1] [= H2]; rewrite (lessb_trans _ _ _ H1 H2); reflexivity.
  - destruct a as [a|a], b as [b|b]; cbn [shaped] in *.
    + rewrite C43_equal by (auto; exact Logic.I). unfold IPAddressCompareLess. rewrite !less_loop_spec by assumption. cbn [skipn numbers].
      destruct (@lessb_total (octets a) (octets b)) as [[H1 [H2 H3]]|[[H1 [H2 H3]]|[H1 [H2 H3]]]]; [congruence|left|right; left|right; right]; rewrite H1, H2; split; auto; split; auto; destruct (list_eq_dec _ _ _); congruence.
    + left. split; [reflexivity|]. split; [reflexivity|]. discriminate.
    + right; left. split; [reflexivity|]. split; [reflexivity|]. discriminate.
    + rewrite C43_equal by (auto; exact Logic.I). unfold IPAddressCompareLess. rewrite !less_loop_spec by assumption. cbn [skipn numbers].
      destruct (@lessb_total (sixteen a) (sixteen b)) as [[H1 [H2 H3]]|[[H1 [H2 H3]]|[H1 [H2 H3]]]]; [congruence|left|right; left|right; right]; rewrite H1, H2; split; auto; split; auto; destruct (list_eq_dec _ _ _); congruence.
Qed.
Theorem C43_example : let a := IP4 (mkIP4 [10; 0; 0; 9] 0) in let b := IP4 (mkIP4 [10; 0; 1; 0] 80) in
  shaped a /\ shaped b /\ IPAddressCompareLess (Some a) (Some b) = Ok true /\ IPAddressIsEqual (Some a) (Some b) = Ok 0%Z /\ below (numbers a) (numbers b).
Proof. cbn zeta. repeat (split; [reflexivity|]). exists 2%nat. split; [reflexivity|]. cbn. split; lia. Qed.
(** with a null address, less-than is not an order: each is below the other *)
Theorem C43_null a : IPAddressCompareLess None (Some a) = Ok true /\ IPAddressCompareLess (Some a) None = Ok true /\ IPAddressIsEqual None (Some a) = Ok (-1)%Z.
Proof. destruct a; repeat split. Qed.
