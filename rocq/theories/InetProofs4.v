(** inet_pton6: soundness of the whole, and completeness. *)
From Verif Require Import Prelude PreludeFacts Str StrFacts Libc LibcFacts IpModel IpSpec InetModel InetSpec InetProofs InetProofs2 InetProofs3.
Set Implicit Arguments.
Local Open Scope N_scope.

Lemma start6 src : hd NUL src <> ":"%char -> state6 [] [] (mkP6 (repeat 0 16) 0 None src false 0) [] src [] [] [].
Proof.
  intros H. unfold state6. cbn [x_tp x_tmp x_colonp x_curtok x_saw x_val length app]. split; [constructor|]. split; [constructor|]. split; [reflexivity|]. split; [lia|]. split; [reflexivity|]. split; [reflexivity|]. split; [apply hexnum_nil|]. split; [lia|]. split; [reflexivity|].
  split; [reflexivity|]. split; [reflexivity|auto].
Qed.
(** behind the colons at the start *)
Definition began (src : list byte) : p6 := mkP6 (repeat 0 16) 0 (Some 0%nat) src false 0.
Lemma began6 src : state6 [] [] (began src) (lit "::") src [] [] [].
Proof.
  unfold state6, began. cbn [x_tp x_tmp x_colonp x_curtok x_saw x_val length app]. split; [constructor|]. split; [constructor|]. split; [reflexivity|]. split; [lia|]. split; [reflexivity|]. split; [reflexivity|]. split; [apply hexnum_nil|]. split; [lia|]. split; [reflexivity|].
  split; reflexivity.
Qed.
Lemma began_loop src : fst_loop (mkP6 (repeat 0 16) 0 None (":"%char :: src) false 0) (":"%char :: src) = fst_loop (began src) src.
Proof. unfold fst_loop. rewrite xd_loop. reflexivity. Qed.

Lemma rest6_of src m r : fst_loop (mkP6 (repeat 0 16) 0 None src false 0) src = Ok r ->
  forall text, match r with Some (tmp, tp, cp) => result6 tmp tp cp text | None => True end -> (16 <= length m)%nat ->
  rest6 src m = Ok None \/ exists vs, lenient6 text vs /\ rest6 src m = Ok (Some (bytes_of vs ++ skipn 16 m)).
Proof.
  intros E text R L. unfold rest6. rewrite E. cbn [bind]. destruct r as [[[tmp tp] cp]|]; [|auto].
  destruct (result6_lenient R) as (tmp' & tp' & E' & L' & V). cbv zeta in E' |- *. rewrite E'. cbn [bind]. destruct (Nat.eqb_spec tp' 16) as [T|]; [|auto].
  destruct (V T) as (vs & LV & ->). cbn [negb]. right. exists vs. split; [exact LV|]. rewrite acopy_Ok by lia. cbn [bind skipn firstn app Nat.add]. now rewrite firstn_all2 by lia.
Qed.
Lemma pton6_sound src m : is_cstr src -> (16 <= length m)%nat ->
  inet_pton6 src m = Ok None \/ exists vs, lenient6 src vs /\ inet_pton6 src m = Ok (Some (bytes_of vs ++ skipn 16 m)).
Proof.
  intros CS L. rewrite pton6_eq.
  assert (PLAIN : hd NUL src <> ":"%char -> rest6 src m = Ok None \/ exists vs, lenient6 src vs /\ rest6 src m = Ok (Some (bytes_of vs ++ skipn 16 m))).
  { intros H. destruct (loop6_sound (start6 src H) CS) as (r & E & R). exact (rest6_of src m E _ R L). }
  destruct src as [|c rest]; [apply PLAIN; discriminate|].
  destruct (beq c ":") eqn:BC; [|apply PLAIN; cbn; intros ->; discriminate BC].
  apply beq_true in BC as ->. destruct rest as [|c' rest]; [auto|]. destruct (beq c' ":") eqn:BC; [|auto]. apply beq_true in BC as ->.
  destruct (cstr_cons CS) as [_ CS1]. destruct (cstr_cons CS1) as [_ CS2].
  destruct (loop6_sound (began6 rest) CS2) as (r & E & R). rewrite <- began_loop in E. exact (rest6_of _ m E _ R L).
Qed.

(** ** completeness *)
(** reading a group *)
Lemma read_group ds : forall pre pvs s done g post qvs cur rest, state6 pre pvs s done (g ++ rest) post qvs cur ->
  Forall2 hexof g ds -> fold_left (fun a d => 16 * a + N.of_nat d) ds (x_val s) <= 65535 ->
  exists s', pton6_loop s (g ++ rest) = pton6_loop s' rest /\ state6 pre pvs s' (done ++ g) rest post qvs (cur ++ g) /\ x_colonp s' = x_colonp s /\
    x_val s' = fold_left (fun a d => 16 * a + N.of_nat d) ds (x_val s).
Proof.
  induction ds as [|d ds IH]; intros pre pvs s done g post qvs cur rest ST F LE; inversion F as [|c ? g' ? H F']; subst.
  - exists s. rewrite !app_nil_r. auto.
  - cbn [fold_left] in LE. cbn [app] in *. destruct (state6_digit ST H) as (s1 & E1 & S1 & C1 & V1); [pose proof (fold_ge ds (16 * x_val s + N.of_nat d)); lia|].
    rewrite <- V1 in LE. destruct (IH _ _ _ _ _ _ _ _ _ S1 F' LE) as (s2 & E2 & S2 & C2 & V2).
    exists s2. split; [congruence|]. replace (done ++ c :: g') with ((done ++ [c]) ++ g') by now rewrite <- app_assoc. replace (cur ++ c :: g') with ((cur ++ [c]) ++ g') by now rewrite <- app_assoc.
    split; [exact S2|]. split; [congruence|]. cbn [fold_left]. congruence.
Qed.
Lemma read_long pre pvs s done g v post qvs rest : state6 pre pvs s done (g ++ rest) post qvs [] -> x_val s = 0 -> long_group g v ->
  exists s', pton6_loop s (g ++ rest) = pton6_loop s' rest /\ state6 pre pvs s' (done ++ g) rest post qvs g /\ x_colonp s' = x_colonp s /\ x_val s' = v.
Proof.
  intros ST V0 (w & W & [LG (ds & F & E)] & LE). destruct (@read_group ds pre pvs s done g post qvs [] rest ST F) as (s' & E' & S' & C' & V').
  - rewrite V0, <- E. exact LE.
  - exists s'. cbn [app] in S'. split; [exact E'|]. split; [exact S'|]. split; [exact C'|]. rewrite V', V0. auto.
Qed.

(** the result for text with the words given *)
Definition reads (s : p6) (src : list byte) (vs : list N) : Prop :=
  exists tp, fst_loop s src = Ok (Some (bytes_of vs ++ zs (16 - 2 * length vs), tp, x_colonp s)) /\ tp = (2 * length vs)%nat.
(** all words of a state *)
Lemma reads_step s src s' src' vs : pton6_loop s src = pton6_loop s' src' -> x_colonp s' = x_colonp s -> reads s' src' vs -> reads s src vs.
Proof. intros E C (tp & R & T). exists tp. split; [|exact T]. unfold fst_loop in *. rewrite E. rewrite R. now rewrite C. Qed.

Lemma reads_end pre pvs s done post qvs : state6 pre pvs s done [] post qvs [] -> reads s [] (pvs ++ qvs).
Proof.
  intros ST. st6 ST. unfold reads, fst_loop. cbn [pton6_loop bind]. unfold finish. rewrite SW. cbn [length Nat.eqb negb bind]. rewrite TM, TP. rewrite app_length. eexists; split; reflexivity.
Qed.
Lemma reads_last pre pvs s done post qvs cur : state6 pre pvs s done [] post qvs cur -> cur <> [] -> (x_tp s + 2 <= 16)%nat -> reads s [] ((pvs ++ qvs) ++ [x_val s]).
Proof.
  intros ST NE L. st6 ST. unfold reads, fst_loop. cbn [pton6_loop bind]. unfold finish. rewrite SW. destruct cur as [|c cur]; [congruence|]. cbn [length Nat.eqb negb].
  destruct (Nat.ltb_spec 16 (x_tp s + 2)); [lia|]. assert (LB : x_tp s = length (bytes_of (pvs ++ qvs))) by (rewrite bytes_of_length, app_length; exact TP).
  rewrite TM, (@put_word_at (bytes_of (pvs ++ qvs)) (16 - x_tp s) (x_val s) (x_tp s) LB VL) by lia. cbn [bind].
  eexists. rewrite (bytes_of_app (pvs ++ qvs)), <- (app_assoc (bytes_of (pvs ++ qvs))). rewrite !app_length. cbn [length]. split; [|reflexivity]. do 4 f_equal; [|lia].
  cbn [bytes_of flat_map app]. do 4 f_equal. lia.
Qed.

(** the digits of a decimal number up to 255 are a group as well *)
Definition near (x h : N) : Prop := (x = 0 -> h = 0) /\ (x <= 9 -> h <= x) /\ (x <= 99 -> 10 * h <= 16 * x) /\ (x <= 255 -> 100 * h <= 256 * x).
Lemma decimal_hex c : isdigit c = true -> exists d, hexof c d /\ N.of_nat d = digit_val c /\ (d <= 9)%nat.
Proof.
  intros DC. unfold hexof. destruct c as [[] [] [] [] [] [] [] []]; try discriminate DC;
  match goal with |- exists d, (_ /\ (?c = _ \/ _)) /\ _ => let n := eval vm_compute in (N.to_nat (digit_val c)) in exists n; split; [split; [lia|left; reflexivity]|split; [reflexivity|lia]] end.
Qed.
Lemma dec_mono l : forall x, x <= fold_left (fun a c => 10 * a + digit_val c) l x.
Proof. induction l as [|c l IH]; intros x; cbn [fold_left]; [lia|]. specialize (IH (10 * x + digit_val c)). lia. Qed.
Lemma near_group l : (forall c, In c l -> isdigit c = true) -> forall x h, near x h -> fold_left (fun a c => 10 * a + digit_val c) l x <= 255 ->
  exists ds, Forall2 hexof l ds /\ fold_left (fun a d => 16 * a + N.of_nat d) ds h <= 65535.
Proof.
  induction l as [|c l IH]; intros D x h (N0 & N1 & N2 & N3) LE.
  - exists []. split; [constructor|]. cbn [fold_left] in *. lia.
  - cbn [fold_left] in LE. destruct (@decimal_hex c) as (d & HD & DV & D9); [apply D; now left|].
    pose proof (dec_mono l (10 * x + digit_val c)) as M1.
    destruct (IH (fun c I => D c (or_intror I)) (10 * x + digit_val c) (16 * h + N.of_nat d)) as (ds & F & B); [|exact LE|].
    + unfold near. rewrite <- DV in *. lia.
    + exists (d :: ds). split; [constructor; assumption|exact B].
Qed.
Lemma numeral_hex ds v : numeral 255 ds v -> exists l, Forall2 hexof ds l /\ fold_left (fun a d => 16 * a + N.of_nat d) l 0 <= 65535.
Proof.
  intros H. destruct (numeral_digits H) as (_ & D & _ & LE). apply (@near_group _ D 0 0); [unfold near; lia|exact LE].
Qed.
Lemma reads_quad pre pvs s done post qvs q a b c d : state6 pre pvs s done q post qvs [] -> x_val s = 0 -> quad q [a; b; c; d] -> (x_tp s + 4 <= 16)%nat ->
  reads s q ((pvs ++ qvs) ++ [256 * a + b; 256 * c + d]).
Proof.
  intros ST V0 Q L. pose proof Q as (da & db & dc & dd & va & vb & vc & vd & NA & NB & NC & ND & EQ & VV). injection VV as <- <- <- <-.
  destruct (numeral_hex NA) as (l & F & LE). rewrite <- V0 in LE.
  change (lit "." ++ db ++ lit "." ++ dc ++ lit "." ++ dd) with ("."%char :: db ++ lit "." ++ dc ++ lit "." ++ dd) in EQ. set (tail := db ++ lit "." ++ dc ++ lit "." ++ dd) in EQ.
  rewrite EQ in ST |- *. destruct (@read_group l pre pvs s done da post qvs [] ("."%char :: tail) ST F LE) as (s' & E & S' & C' & V'). cbn [app] in S'.
  apply (@reads_step _ _ s' ("."%char :: tail) _ E C'). assert (TPE : x_tp s' = x_tp s) by (st6 S'; destruct ST as (_ & _ & X & _); congruence). st6 S'.
  unfold reads, fst_loop. rewrite xd_loop. change (xd "."%char) with (@None nat). cbn iota. change (beq "." ":") with false. change (beq "." ".") with true. cbn [andb]. cbn iota.
  destruct (Nat.leb_spec (x_tp s' + 4) 16) as [L4|]; [|lia]. rewrite CT, <- EQ.
  assert (LB : x_tp s' = length (bytes_of (pvs ++ qvs))) by (rewrite bytes_of_length, app_length; exact TP).
  rewrite (@pton4_complete q [a; b; c; d] (x_tmp s') (x_tp s') Q) by (rewrite TM, app_length, zs_length; lia). cbn [bind]. unfold finish. cbn [x_saw x_tmp x_tp x_colonp bind].
  eexists. split; [|reflexivity]. destruct (quad_small Q) as [_ FS]. repeat match goal with H : Forall _ (_ :: _) |- _ => inversion H; clear H; subst end.
  rewrite TM, firstn_app_le, skipn_app_ge by lia. rewrite firstn_all2 by lia. rewrite zs_skip, (bytes_of_app (pvs ++ qvs)), words_of_quad by assumption. rewrite <- app_assoc.
  rewrite !app_length. cbn [length]. rewrite app_length in LB || idtac. do 4 f_equal; [|lia]. do 3 f_equal. lia.
Qed.
