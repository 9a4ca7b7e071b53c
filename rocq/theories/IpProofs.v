(** Proofs about the IPv4 parser. *)
From Verif Require Import Prelude PreludeFacts Str StrFacts Libc LibcFacts IpModel IpSpec.
Set Implicit Arguments.
Local Open Scope N_scope.

Lemma nset_ok a i v : (i < length a)%nat -> nset a i v = Ok (upd a i v).
Proof. intros L. unfold nset. apply Nat.ltb_lt in L. rewrite L. reflexivity. Qed.

Definition fresh4 (k : nat) (d : IPV4Address) : st4 := mk4 0 0 0 0 0 false k d.
Definition reading4 (v : N) (n : nat) (h : bool) (k : nat) (d : IPV4Address) : st4 := mk4 v 0 0 0 n h k d.
Definition und (v : N) (ds : list byte) : N := fold_left (fun a c => 10 * a + digit_val c) ds v.
Lemma und_ge ds : forall v, v <= und v ds.
Proof. induction ds as [|c ds IH]; intros v; [cbn; lia|]. change (und v (c :: ds)) with (und (10 * v + digit_val c) ds). specialize (IH (10 * v + digit_val c)). lia. Qed.
Lemma digit_code c : isdigit c = true -> 48 <= code c <= 57.
Proof. unfold isdigit, in_range. rewrite andb_true_iff, !N.leb_le. tauto. Qed.
Lemma Char2Dec_digit v c : isdigit c = true -> Char2Dec v c = 10 * v + digit_val c.
Proof. intros D. apply digit_code in D. unfold Char2Dec, digit_val. lia. Qed.
Lemma digit_marks c : isdigit c = true -> beq c "."%char = false /\ beq c ":"%char = false.
Proof. destruct c as [[] [] [] [] [] [] [] []]; vm_compute; intros H; first [discriminate H | auto]. Qed.

Lemma step4_digit k v n h d c : (k <= 3)%nat -> isdigit c = true -> step4 (reading4 v n h k d) c =
  if 255 <? 10 * v + digit_val c then Ok None else Ok (Some (reading4 (10 * v + digit_val c) (S n) true k d)).
Proof.
  intros K D. destruct (digit_marks c D) as [M1 M2]. unfold step4, reading4. cbn [oct prt periods ports chars has_digit state dst]. rewrite M1, M2.
  unfold switch4. cbn [oct prt periods ports chars has_digit state dst]. rewrite D, Char2Dec_digit by exact D.
  destruct k as [|[|[|[|k]]]]; try lia; cbn [bind oct prt periods ports chars has_digit state dst]; destruct (255 <? _); reflexivity.
Qed.
Lemma loop4_digits k d ds rest : (k <= 3)%nat -> forall v n h, (forall c, In c ds -> isdigit c = true) -> v <= 255 ->
  loop4 (reading4 v n h k d) (ds ++ rest) =
  if 255 <? und v ds then Ok None else loop4 (reading4 (und v ds) (n + length ds) (match ds with [] => h | _ => true end) k d) rest.
Proof.
  intros K. induction ds as [|c ds IH]; intros v n h D V.
  - cbn [und fold_left app length]. rewrite Nat.add_0_r. replace (255 <? v) with false by (symmetry; apply N.ltb_ge; exact V). reflexivity.
  - cbn [app loop4]. rewrite step4_digit by (auto; apply D; left; reflexivity). cbn [und fold_left length].
    change (fold_left _ ds _) with (und (10 * v + digit_val c) ds). pose proof (und_ge ds (10 * v + digit_val c)) as G.
    destruct (N.ltb_spec 255 (10 * v + digit_val c)) as [L|L]; cbn [bind].
    + replace (255 <? und _ _) with true by (symmetry; apply N.ltb_lt; lia). reflexivity.
    + rewrite IH by (auto; intros x Hx; apply D; right; exact Hx). destruct (255 <? und _ _); [reflexivity|].
      replace (S n + length ds)%nat with (n + S (length ds))%nat by lia. destruct ds; reflexivity.
Qed.

Definition put4 (d : IPV4Address) (k : nat) (v : N) : IPV4Address := mkIP4 (upd (octets d) k v) (port4 d).
Definition mark (k : nat) : byte := if (k <? 3)%nat then "."%char else ":"%char.
Lemma step4_other k v n h d c : (k <= 3)%nat -> v <= 255 -> length (octets d) = 4%nat -> isdigit c = false ->
  step4 (reading4 v n h k d) c =
  Ok (if h then Some (if beq c (mark k) then fresh4 (if (k <? 3)%nat then S k else 5) (put4 d k v) else fresh4 7 d) else None).
Proof.
  intros K V L D. unfold step4, reading4. cbn [oct prt periods ports chars has_digit state dst].
  unfold switch4. cbn [oct prt periods ports chars has_digit state dst]. rewrite D.
  assert (V1 : 255 <? v = false) by (apply N.ltb_ge; exact V).
  assert (U : u8 v = v) by (unfold u8; apply N.mod_small; change (2 ^ 8) with 256; lia).
  assert (P : beq c "."%char = true -> beq c ":"%char = false) by (rewrite beq_true; intros ->; reflexivity).
  destruct k as [|[|[|[|k]]]]; try lia; cbn [mark Nat.ltb Nat.leb];
    unfold mark; cbn [Nat.ltb Nat.leb];
    (destruct (beq c ".") eqn:E1; [rewrite (P eq_refl)|destruct (beq c ":") eqn:E2]);
    cbn [bind]; rewrite ?nset_ok by (rewrite L; lia); cbn [bind oct prt periods ports chars has_digit state dst]; rewrite ?V1; cbn [Nat.ltb Nat.leb];
    destruct h; rewrite ?U; reflexivity.
Qed.
Lemma loop4_err d s : loop4 (fresh4 7 d) s = match s with [] => Ok (Some (fresh4 7 d)) | _ => Ok None end.
Proof. destruct s as [|c s]; [reflexivity|]. reflexivity. Qed.

(** the port *)
Definition port4st (v : N) (n : nat) (d : IPV4Address) : st4 := mk4 0 v 0 0 n false 5 d.
Lemma step5_digit v n d c : isdigit c = true -> step4 (port4st v n d) c =
  if 65535 <? 10 * v + digit_val c then Ok None else Ok (Some (port4st (10 * v + digit_val c) (S n) d)).
Proof.
  intros D. destruct (digit_marks c D) as [M1 M2]. unfold step4, port4st. cbn [oct prt periods ports chars has_digit state dst]. rewrite M1, M2.
  unfold switch4. cbn [oct prt periods ports chars has_digit state dst]. rewrite D, Char2Dec_digit by exact D.
  cbn [bind oct prt periods ports chars has_digit state dst]. change (255 <? 0) with false. cbn iota. destruct (65535 <? _); reflexivity.
Qed.
Lemma step5_other v n d c : v <= 65535 -> isdigit c = false -> step4 (port4st v n d) c = Ok None.
Proof.
  intros V D. unfold step4, port4st. cbn [oct prt periods ports chars has_digit state dst].
  unfold switch4. cbn [oct prt periods ports chars has_digit state dst]. rewrite D.
  cbn [bind oct prt periods ports chars has_digit state dst]. change (255 <? 0) with false. cbn iota. destruct (65535 <? v); [reflexivity|].
  destruct (1 <? _)%nat; [reflexivity|]. destruct (1 <? _)%nat; reflexivity.
Qed.
Lemma loop5 d s : forall v n, v <= 65535 ->
  (forall c, In c s -> isdigit c = true) /\ und v s <= 65535 /\ loop4 (port4st v n d) s = Ok (Some (port4st (und v s) (n + length s) d)) \/
  ~ ((forall c, In c s -> isdigit c = true) /\ und v s <= 65535) /\ loop4 (port4st v n d) s = Ok None.
Proof.
  induction s as [|c s IH]; intros v n V.
  - left. split; [intros c []|]. split; [exact V|]. cbn. rewrite Nat.add_0_r. reflexivity.
  - cbn [loop4]. destruct (isdigit c) eqn:D.
    + rewrite step5_digit by exact D. destruct (N.ltb_spec 65535 (10 * v + digit_val c)) as [L|L]; cbn [bind].
      * right. split; [|reflexivity]. intros [_ K]. change (und v (c :: s)) with (und (10 * v + digit_val c) s) in K. pose proof (und_ge s (10 * v + digit_val c)). lia.
      * destruct (IH (10 * v + digit_val c) (S n) L) as [[A [B C]]|[A B]].
        -- left. split; [intros x [<-|Hx]; auto|]. split; [exact B|]. rewrite C. cbn [length]. replace (S n + length s)%nat with (n + S (length s))%nat by lia. reflexivity.
        -- right. split; [|exact B]. intros [K1 K2]. apply A. split; [intros x Hx; apply K1; right; exact Hx|exact K2].
    + right. rewrite step5_other by assumption. cbn [bind]. split; [|reflexivity]. intros [K _]. specialize (K c (or_introl eq_refl)). congruence.
Qed.

(** what the rest of the parse from octet [k] on accepts *)
Inductive parsed : nat -> IPV4Address -> list byte -> IPV4Address -> Prop :=
| P_dot k d ds v t a : (k < 3)%nat -> numeral 255 ds v -> parsed (S k) (put4 d k v) t a -> parsed k d (ds ++ "."%char :: t) a
| P_last d ds v : numeral 255 ds v -> parsed 3 d ds (put4 d 3 v)
| P_port d ds v p pv : numeral 255 ds v -> numeral 65535 p pv -> parsed 3 d (ds ++ ":"%char :: p) (mkIP4 (upd (octets d) 3 v) pv)
| P_stray k d ds v x : (k <= 3)%nat -> numeral 255 ds v -> isdigit x = false -> x <> mark k -> parsed k d (ds ++ [x]) d.

Definition finish4 (r : option st4) : res (option IPV4Address) :=
  match r with
  | None => Ok None
  | Some s =>
      if (state s =? 0)%nat || (state s =? 1)%nat || (state s =? 2)%nat then Ok None
      else
        let* a := if (state s =? 3)%nat then
            if (chars s =? 0)%nat then Ok None else let* o := nset (octets (dst s)) 3 (u8 (oct s)) in Ok (Some (mkIP4 o (port4 (dst s))))
          else Ok (Some (dst s)) in
        match a with
        | None => Ok None
        | Some a =>
            let* a := if (state s =? 5)%nat then
                if (chars s =? 0)%nat then Ok None else Ok (Some (mkIP4 (octets a) (u16 (prt s))))
              else Ok (Some a) in
            if (state s =? 6)%nat then Ok None else Ok a
        end
  end.
Definition run4 k d s := bind (loop4 (fresh4 k d) s) finish4.


Lemma span_decomp (p : byte -> bool) s : exists ds rest, s = ds ++ rest /\ (forall c, In c ds -> p c = true) /\
  match rest with [] => True | c :: _ => p c = false end.
Proof.
  induction s as [|c s IH]; [exists [], []; split; [reflexivity|split; [intros c []|exact Logic.I]]|].
  destruct (p c) eqn:E.
  - destruct IH as [ds [rest [H [D R]]]]. exists (c :: ds), rest. rewrite H. split; [reflexivity|]. split; [intros x [<-|Hx]; auto|exact R].
  - exists [], (c :: s). split; [reflexivity|]. split; [intros x []|exact E].
Qed.
Lemma und0 ds : und 0 ds = undec ds.
Proof. reflexivity. Qed.
(** digits followed by something else are read in one way only *)
Lemma digits_unique (ds ds' r r' : list byte) : (forall c, In c ds -> isdigit c = true) -> (forall c, In c ds' -> isdigit c = true) ->
  match r with [] => True | c :: _ => isdigit c = false end -> match r' with [] => True | c :: _ => isdigit c = false end ->
  ds ++ r = ds' ++ r' -> ds = ds' /\ r = r'.
Proof.
  revert ds'. induction ds as [|c ds IH]; intros ds' D D' R R' E.
  - destruct ds' as [|c' ds']; [split; [reflexivity|exact E]|]. cbn in E. subst r. specialize (D' c' (or_introl eq_refl)). congruence.
  - destruct ds' as [|c' ds'].
    + cbn in E. subst r'. specialize (D c (or_introl eq_refl)). congruence.
    + cbn in E. injection E as -> E. destruct (IH ds') as [-> ->]; auto; intros x Hx; [apply D|apply D']; right; exact Hx.
Qed.
Lemma finish_bad k d n v : (k <= 2)%nat -> finish4 (Some (reading4 v n true k d)) = Ok None.
Proof. intros K. destruct k as [|[|[|k]]]; try lia; reflexivity. Qed.
Lemma parsed_inv k d ds rest a : (k <= 3)%nat -> (forall c, In c ds -> isdigit c = true) -> match rest with [] => True | c :: _ => isdigit c = false end ->
  (parsed k d (ds ++ rest) a <-> numeral 255 ds (undec ds) /\
    ((k < 3)%nat /\ (exists t, rest = "."%char :: t /\ parsed (S k) (put4 d k (undec ds)) t a) \/
     k = 3%nat /\ rest = [] /\ a = put4 d 3 (undec ds) \/
     k = 3%nat /\ (exists p pv, rest = ":"%char :: p /\ numeral 65535 p pv /\ a = mkIP4 (upd (octets d) 3 (undec ds)) pv) \/
     exists x, rest = [x] /\ x <> mark k /\ a = d)).
Proof.
  intros K D R. split.
  - intros P. remember (ds ++ rest) as s eqn:E. destruct P as [k d ds' v t a Lt Nu P|d ds' v Nu|d ds' v p pv Nu Np|k d ds' v x Lk Nu Dx Mx].
    + destruct (digits_unique ds' ds ("."%char :: t) rest) as [-> <-]; auto; try apply Nu. pose proof Nu as [_ [_ [-> _]]]. split; [exact Nu|].
      left. split; [exact Lt|]. exists t. auto.
    + rewrite <- (app_nil_r ds') in E. destruct (digits_unique ds' ds [] rest) as [-> <-]; auto; try apply Nu. pose proof Nu as [_ [_ [-> _]]]. split; [exact Nu|]. right; left. auto.
    + destruct (digits_unique ds' ds (":"%char :: p) rest) as [-> <-]; auto; try apply Nu. pose proof Nu as [_ [_ [-> _]]]. split; [exact Nu|].
      right; right; left. split; [reflexivity|]. exists p, pv. auto.
    + destruct (digits_unique ds' ds [x] rest) as [-> <-]; auto; try apply Nu. pose proof Nu as [_ [_ [-> _]]]. split; [exact Nu|].
      right; right; right. exists x. auto.
  - intros [Nu [[Lt [t [-> P]]]|[[-> [-> ->]]|[[-> [p [pv [-> [Np ->]]]]]|[x [-> [Mx ->]]]]]]].
    + eapply P_dot; eassumption.
    + rewrite app_nil_r. apply P_last, Nu.
    + eapply P_port; eassumption.
    + eapply P_stray; eassumption.
Qed.
Lemma run4_spec k d s : (k <= 3)%nat -> length (octets d) = 4%nat ->
  exists r, run4 k d s = Ok r /\ forall a, r = Some a <-> parsed k d s a.
Proof.
  intros K L. assert (G : exists n, (4 - k <= n)%nat) by (exists 4%nat; lia). destruct G as [n G]. revert k d s K L G.
  induction n as [|n IH]; intros k d s K L G; [lia|].
  destruct (span_decomp isdigit s) as [ds [rest [-> [D R]]]].
  pose proof (fun a => parsed_inv d ds rest a K D R) as Q.
  unfold run4. change (fresh4 k d) with (reading4 0 0 false k d). rewrite loop4_digits by (auto; lia). rewrite und0.
  destruct (N.ltb_spec 255 (undec ds)) as [B|B].
  { exists None. split; [reflexivity|]. intros a. split; [discriminate|]. intros P. apply Q in P. destruct P as [[_ [_ [_ C]]] _]. lia. }
  assert (Z : ds = [] \/ numeral 255 ds (undec ds) /\ match ds with [] => false | _ => true end = true).
  { destruct ds as [|c ds]; [left; reflexivity|right]. split; [|reflexivity]. split; [discriminate|]. split; [exact D|]. split; [reflexivity|exact B]. }
  destruct Z as [->|[Nu Hh]].
  { (* no digit *)
    exists None. split; [|intros a; split; [discriminate|intros P; apply Q in P; destruct P as [[C _] _]; congruence]].
    destruct rest as [|c rest].
    - cbn [loop4 bind]. destruct k as [|[|[|[|k]]]]; try lia; reflexivity.
    - cbn [loop4]. rewrite step4_other by assumption. reflexivity. }
  rewrite Hh. cbn [Nat.add]. destruct rest as [|c t].
  - cbn [loop4 bind]. destruct (Nat.eq_dec k 3) as [->|Nk].
    + exists (Some (put4 d 3 (undec ds))). split.
      * unfold finish4, reading4. cbn [state chars octets dst oct port4 prt Nat.eqb orb]. destruct Nu as [C _]. destruct ds as [|c0 ds]; [congruence|]. cbn [length Nat.eqb].
        rewrite nset_ok by lia. cbn [bind]. unfold u8. rewrite N.mod_small by (change (2 ^ 8) with 256; lia). reflexivity.
      * intros a. rewrite Q. split.
        -- injection 1 as <-. split; [exact Nu|]. right; left. auto.
        -- intros [_ [[C _]|[[_ [_ ->]]|[[_ [p [pv [C _]]]]|[x [C _]]]]]]; [lia|reflexivity|discriminate|discriminate].
    + exists None. split; [apply finish_bad; lia|]. intros a. rewrite Q. split; [discriminate|].
      intros [_ [[_ [t [C _]]]|[[C _]|[[C _]|[x [C _]]]]]]; [discriminate|congruence|congruence|discriminate].
  - cbn [loop4]. rewrite step4_other by assumption. cbn [bind]. destruct (beq c (mark k)) eqn:M.
    + apply beq_true in M. destruct (Nat.ltb_spec k 3) as [Lk|Lk].
      * destruct (IH (S k) (put4 d k (undec ds)) t) as [r [E1 E2]]; [lia|cbn [put4 octets]; rewrite length_upd; exact L|lia|].
        exists r. split; [exact E1|]. intros a. rewrite E2, Q. subst c. unfold mark in *. apply Nat.ltb_lt in Lk. rewrite Lk in *. apply Nat.ltb_lt in Lk. split.
        -- intros P. split; [exact Nu|]. left. split; [exact Lk|]. exists t. auto.
        -- intros [_ [[_ [t' [C P]]]|[[C _]|[[C _]|[x [C [Mx _]]]]]]]; [injection C as ->; exact P|lia|lia|congruence].
      * assert (k = 3%nat) by lia. subst k. cbn [mark Nat.ltb Nat.leb] in M. subst c.
        change (fresh4 5 (put4 d 3 (undec ds))) with (port4st 0 0 (put4 d 3 (undec ds))).
        destruct (@loop5 (put4 d 3 (undec ds)) t 0 0%nat) as [[A1 [A2 A3]]|[A1 A2]]; [lia| |].
        -- rewrite A3. cbn [bind Nat.add]. destruct t as [|c0 t].
           ++ exists None. split; [reflexivity|]. intros a. rewrite Q. split; [discriminate|].
              intros [_ [[C _]|[[_ [C _]]|[[_ [p [pv [C [Np _]]]]]|[x [C [Mx _]]]]]]]; [lia|discriminate| |].
              ** injection C as <-. destruct Np as [Np _]. congruence.
              ** injection C as <-. exfalso; apply Mx; reflexivity.
           ++ exists (Some (mkIP4 (upd (octets d) 3 (undec ds)) (undec (c0 :: t)))). split.
              ** unfold finish4, port4st. cbn [state chars octets dst oct port4 prt Nat.eqb orb length bind put4].
                 unfold u16. rewrite N.mod_small; [reflexivity|]. rewrite !und0 in *. change (2 ^ 16) with 65536. change 65536 with (N.succ 65535). apply N.lt_succ_r. exact A2.
              ** intros a. rewrite Q. split.
                 --- injection 1 as <-. split; [exact Nu|]. right; right; left. split; [reflexivity|]. exists (c0 :: t), (undec (c0 :: t)). split; [reflexivity|]. split; [|reflexivity].
                     split; [discriminate|]. split; [exact A1|]. split; [reflexivity|exact A2].
                 --- intros [_ [[C _]|[[_ [C _]]|[[_ [p [pv [C [Np ->]]]]]|[x [C [Mx _]]]]]]]; [lia|discriminate| |congruence].
                     injection C as <-. destruct Np as [_ [_ [-> _]]]. reflexivity.
        -- rewrite A2. exists None. split; [reflexivity|]. intros a. rewrite Q. split; [discriminate|].
           intros [_ [[C _]|[[_ [C _]]|[[_ [p [pv [C [Np _]]]]]|[x [C [Mx _]]]]]]]; [lia|discriminate| |].
           ++ exfalso. apply A1. injection C as <-. destruct Np as [_ [Np1 [-> Np2]]]. split; [exact Np1|exact Np2].
           ++ injection C as <-. exfalso; apply Mx; reflexivity.
    + apply beq_false in M. destruct t as [|c0 t].
      * rewrite loop4_err. exists (Some d). split; [reflexivity|]. intros a. rewrite Q. split.
        -- injection 1 as <-. split; [exact Nu|]. right; right; right. exists c. auto.
        -- intros [_ [[Lt [t [C _]]]|[[_ [C _]]|[[-> [p [pv [C _]]]]|[x [C [Mx ->]]]]]]]; [|discriminate| |reflexivity].
           ++ exfalso. apply M. injection C as -> _. unfold mark. apply Nat.ltb_lt in Lt. rewrite Lt. reflexivity.
           ++ exfalso. apply M. injection C as -> _. reflexivity.
      * rewrite loop4_err. exists None. split; [reflexivity|]. intros a. rewrite Q. split; [discriminate|].
        intros [_ [[Lt [t' [C _]]]|[[_ [C _]]|[[-> [p [pv [C _]]]]|[x [C _]]]]]]; [|discriminate| |discriminate].
        -- exfalso. apply M. injection C as -> _. unfold mark. apply Nat.ltb_lt in Lt. rewrite Lt. reflexivity.
        -- exfalso. apply M. injection C as -> _. reflexivity.
Qed.
