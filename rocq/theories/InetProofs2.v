(** inet_pton6: exactly the texts of [lenient6]. *)
From Verif Require Import Prelude PreludeFacts Str StrFacts Libc LibcFacts IpModel IpSpec InetModel InetSpec InetProofs.
Set Implicit Arguments.
Local Open Scope N_scope.

(** ** hexadecimal digits and groups *)
Definition xd (c : byte) : option nat := match strchr xdigits_l c with Some p => Some p | None => strchr xdigits_u c end.
Definition hexof (c : byte) (d : nat) : Prop := (d < 16)%nat /\ (c = nth d hexdigits NUL \/ c = nth d upper_hexdigits NUL).
Lemma xd_hexof c : c <> NUL -> match xd c with Some d => hexof c d | None => True end.
Proof. intros N. unfold hexof. destruct c as [[] [] [] [] [] [] [] []]; cbn; try exact Logic.I; try (split; [lia|tauto]). now contradiction N. Qed.
Lemma hexof_xd c d : hexof c d -> xd c = Some d.
Proof. intros [L H]. do 16 (destruct d as [|d]; [destruct H as [->| ->]; reflexivity|]). lia. Qed.
Lemma hexof_nul c d : hexof c d -> c <> NUL.
Proof. intros [L H] ->. do 16 (destruct d as [|d]; [destruct H as [H|H]; discriminate H|]). lia. Qed.
Lemma hexof_punct c d : hexof c d -> c <> ":"%char /\ c <> "."%char.
Proof. intros [L H]. do 16 (destruct d as [|d]; [destruct H as [->| ->]; split; discriminate|]). lia. Qed.
Lemma lor_digit v d : (d < 16)%nat -> N.lor (N.shiftl v 4) (N.of_nat d) = 16 * v + N.of_nat d.
Proof. intros L. rewrite (N.add_comm). destruct v as [|p]; do 16 (destruct d as [|d]; [reflexivity|]); lia. Qed.

Lemma hexnum_snoc w g v c d : hexnum w g v -> hexof c d -> hexnum (S w) (g ++ [c]) (16 * v + N.of_nat d).
Proof.
  intros [L (ds & F & ->)] H. split; [rewrite app_length; cbn; lia|]. exists (ds ++ [d]). split; [apply Forall2_app; [exact F|constructor; [exact H|constructor]]|].
  rewrite fold_left_app. reflexivity.
Qed.
Lemma hexnum_nil : hexnum 0 [] 0. Proof. split; [reflexivity|]. exists []. split; [constructor|reflexivity]. Qed.
Lemma long_length g v : long_group g v -> g <> []. Proof. intros (w & L & [LG _] & _) ->. cbn in LG. lia. Qed.
Lemma fold_ge ds : forall a, a <= fold_left (fun a d => 16 * a + N.of_nat d) ds a.
Proof. induction ds as [|d ds IH]; intros a; cbn [fold_left]; [lia|]. specialize (IH (16 * a + N.of_nat d)). lia. Qed.
Lemma hex_long g v : hex_group g v -> long_group g v.
Proof.
  intros (w & L & [LG (ds & F & ->)]). exists w. split; [lia|]. split; [split; [exact LG|exists ds; auto]|].
  assert (LD : length ds = w) by (rewrite <- LG; symmetry; clear - F; induction F; cbn; congruence).
  assert (B : Forall (fun d => (d < 16)%nat) ds) by (clear - F; induction F as [|c d g ds [H _] F IH]; constructor; auto).
  clear - L LD B. destruct ds as [|a [|b [|c [|d [|]]]]]; cbn [length] in LD; try lia; cbn [fold_left];
  repeat match goal with H : Forall _ (_ :: _) |- _ => inversion H; clear H; subst end; lia.
Qed.

(** ** the bytes of words *)
Lemma bytes_of_app a b : bytes_of (a ++ b) = bytes_of a ++ bytes_of b. Proof. apply flat_map_app. Qed.
Lemma bytes_of_length a : length (bytes_of a) = (2 * length a)%nat.
Proof. induction a as [|x a IH]; [reflexivity|]. cbn [bytes_of flat_map app length]. fold (bytes_of a). rewrite IH. lia. Qed.
Lemma bytes_of_zeros n : bytes_of (repeat 0 n) = zs (2 * n).
Proof. induction n as [|n IH]; [reflexivity|]. replace (2 * S n)%nat with (S (S (2 * n))) by lia. cbn [repeat bytes_of flat_map zs]. fold (bytes_of (repeat 0 n)). rewrite IH. reflexivity. Qed.
Lemma zs_SS n : (2 <= n)%nat -> zs n = 0 :: 0 :: zs (n - 2).
Proof. intros L. destruct n as [|[|n]]; try lia. cbn. now rewrite Nat.sub_0_r. Qed.
Lemma zs_app a b : zs (a + b) = zs a ++ zs b. Proof. apply repeat_app. Qed.
Lemma zs_length n : length (zs n) = n. Proof. apply repeat_length. Qed.

Lemma put_word_at a n v i : i = length a -> v <= 65535 -> (2 <= n)%nat -> put_word (a ++ zs n) i v = Ok (a ++ [v / 256; v mod 256] ++ zs (n - 2)).
Proof.
  intros -> V L. unfold put_word. rewrite (zs_SS L), nset_at by reflexivity. cbn [bind].
  replace (a ++ N.land (u8 (N.shiftr v 8)) 255 :: 0 :: zs (n - 2)) with ((a ++ [N.land (u8 (N.shiftr v 8)) 255]) ++ 0 :: zs (n - 2)) by now rewrite <- app_assoc.
  rewrite nset_at by (rewrite app_length; cbn; lia). rewrite <- app_assoc. cbn [app].
  change 255 with (N.ones 8). rewrite !N.land_ones. change (2 ^ 8) with 256. rewrite N.shiftr_div_pow2. change (2 ^ 8) with 256. unfold u8. change (2 ^ 8) with 256.
  rewrite !N.mod_mod by lia. rewrite (N.mod_small (v / 256)) by (apply N.div_lt_upper_bound; lia). reflexivity.
Qed.

(** ** the texts *)
Definition coloned (gs : list (list byte)) : list byte := flat_map (fun g => g ++ lit ":") gs.
Lemma coloned_app a b : coloned (a ++ b) = coloned a ++ coloned b. Proof. apply flat_map_app. Qed.
Lemma coloned_colons gs g : coloned gs ++ g = colons (gs ++ [g]).
Proof.
  induction gs as [|h gs IH]; [reflexivity|]. unfold coloned in *. cbn [flat_map app]. rewrite <- !app_assoc. unfold colons in *.
  change (h ++ lit ":" ++ flat_map (fun g0 => g0 ++ lit ":") gs ++ g = join [":"%char] (h :: gs ++ [g])). rewrite IH. destruct (gs ++ [g]) eqn:K; [destruct gs; discriminate K|]. reflexivity.
Qed.
Lemma coloned_ends gs : gs <> [] -> coloned gs = colons gs ++ lit ":".
Proof.
  intros NE. destruct (exists_last NE) as (a & g & ->). rewrite coloned_app, <- coloned_colons. unfold coloned. cbn [flat_map]. now rewrite app_nil_r, <- app_assoc.
Qed.
Lemma coloned_snoc gs g : coloned (gs ++ [g]) = coloned gs ++ g ++ lit ":".
Proof. rewrite coloned_app. unfold coloned at 2. cbn [flat_map]. now rewrite app_nil_r. Qed.
Definition opened (pre : list (list byte)) : list byte := match pre with [] => lit "::" | _ => coloned pre ++ lit ":" end.
Lemma opened_compressed pre post : opened pre ++ colons post = compressed pre post.
Proof.
  unfold opened, compressed. destruct pre as [|g pre]; [reflexivity|]. rewrite coloned_ends by discriminate. rewrite <- !app_assoc. reflexivity.
Qed.

(** ** the loop *)
Section Loop.
  Variables (pre : list (list byte)) (pvs : list N).
  Definition state6 (s : p6) (done src : list byte) (post : list (list byte)) (qvs : list N) (cur : list byte) : Prop :=
    Forall2 long_group pre pvs /\ Forall2 long_group post qvs /\ x_tp s = (2 * (length pvs + length qvs))%nat /\ (x_tp s <= 16)%nat /\
    x_tmp s = bytes_of (pvs ++ qvs) ++ zs (16 - x_tp s) /\ x_curtok s = cur ++ src /\ hexnum (length cur) cur (x_val s) /\ x_val s <= 65535 /\
    x_saw s = negb (length cur =? 0)%nat /\
    match x_colonp s with
    | None => post = [] /\ done = coloned pre ++ cur /\ (pre = [] -> cur = [] -> hd NUL src <> ":"%char)
    | Some c => c = (2 * length pvs)%nat /\ done = opened pre ++ coloned post ++ cur
    end.
End Loop.
Ltac st6 ST := destruct ST as (FP & FQ & TP & T16 & TM & CT & HX & VL & SW & CP).

Lemma xd_loop s c src : pton6_loop s (c :: src) =
  match xd c with
  | Some pch =>
      let val := N.lor (N.shiftl (x_val s) 4) (N.of_nat pch) in
      if 65535 <? val then Ok None
      else pton6_loop (mkP6 (x_tmp s) (x_tp s) (x_colonp s) (x_curtok s) true val) src
  | None =>
      if beq c ":"%char then
        if negb (x_saw s) then
          match x_colonp s with
          | Some _ => Ok None
          | None => pton6_loop (mkP6 (x_tmp s) (x_tp s) (Some (x_tp s)) src (x_saw s) (x_val s)) src
          end
        else if (16 <? x_tp s + 2)%nat then Ok None
        else
          let* tmp := put_word (x_tmp s) (x_tp s) (x_val s) in
          pton6_loop (mkP6 tmp (x_tp s + 2) (x_colonp s) src false 0) src
      else if beq c "."%char && (x_tp s + 4 <=? 16)%nat then
        let* r := inet_pton4 (x_curtok s) (x_tmp s) (x_tp s) in
        match r with
        | Some tmp => Ok (Some (mkP6 tmp (x_tp s + 4) (x_colonp s) (x_curtok s) false (x_val s)))
        | None => Ok None
        end
      else Ok None
  end.
Proof. reflexivity. Qed.

Lemma state6_digit pre pvs s done c src post qvs cur d : state6 pre pvs s done (c :: src) post qvs cur -> hexof c d -> 16 * x_val s + N.of_nat d <= 65535 ->
  exists s', pton6_loop s (c :: src) = pton6_loop s' src /\ state6 pre pvs s' (done ++ [c]) src post qvs (cur ++ [c]) /\ x_colonp s' = x_colonp s /\ x_val s' = 16 * x_val s + N.of_nat d.
Proof.
  intros ST H LE. st6 ST. rewrite xd_loop, (hexof_xd H). cbv zeta. rewrite lor_digit by apply H. replace (65535 <? 16 * x_val s + N.of_nat d) with false by (symmetry; apply N.ltb_ge; exact LE).
  eexists; split; [reflexivity|]. split; [|split; reflexivity]. unfold state6. cbn [x_tp x_tmp x_colonp x_curtok x_saw x_val].
  do 5 (split; [assumption|]). split; [rewrite CT, <- app_assoc; reflexivity|]. split; [rewrite app_length, Nat.add_1_r; apply hexnum_snoc; assumption|].
  split; [exact LE|]. split; [rewrite app_length; cbn; rewrite Nat.add_1_r; reflexivity|].
  destruct (x_colonp s); [|destruct CP as (-> & -> & CP); split; [reflexivity|]; split; [now rewrite <- app_assoc|intros _ K; destruct cur; discriminate K]].
  destruct CP as [-> ->]. split; [reflexivity|]. now rewrite <- !app_assoc.
Qed.
(** a colon behind a group *)
Lemma state6_colon pre pvs s done src post qvs cur : state6 pre pvs s done (":"%char :: src) post qvs cur -> cur <> [] -> (x_tp s + 2 <= 16)%nat ->
  exists s', pton6_loop s (":"%char :: src) = pton6_loop s' src /\ x_colonp s' = x_colonp s /\ x_val s' = 0 /\
    match x_colonp s with
    | None => state6 (pre ++ [cur]) (pvs ++ [x_val s]) s' (done ++ lit ":") src [] [] []
    | Some _ => state6 pre pvs s' (done ++ lit ":") src (post ++ [cur]) (qvs ++ [x_val s]) []
    end.
Proof.
  intros ST NE L. assert (SAW : x_saw s = true) by (destruct cur; [congruence|apply ST]). st6 ST. rewrite xd_loop. change (xd ":"%char) with (@None nat). cbn iota. change (beq ":" ":") with true. cbn iota.
  rewrite SAW. cbn [negb]. destruct (Nat.ltb_spec 16 (x_tp s + 2)); [lia|].
  assert (LB : x_tp s = length (bytes_of (pvs ++ qvs))) by (rewrite bytes_of_length, app_length; exact TP).
  rewrite TM, (@put_word_at (bytes_of (pvs ++ qvs)) (16 - x_tp s) (x_val s) (x_tp s) LB VL) by lia. cbn [bind].
  assert (LG : long_group cur (x_val s)) by (exists (length cur); split; [destruct cur; [congruence|cbn; lia]|auto]).
  eexists; split; [reflexivity|]. cbn [x_colonp x_val]. split; [reflexivity|]. split; [reflexivity|].
  assert (TT : bytes_of (pvs ++ qvs) ++ [x_val s / 256; x_val s mod 256] ++ zs (16 - x_tp s - 2) = bytes_of ((pvs ++ qvs) ++ [x_val s]) ++ zs (16 - (x_tp s + 2)))
    by (rewrite (bytes_of_app (pvs ++ qvs) [x_val s]), <- (app_assoc (bytes_of (pvs ++ qvs))); replace (16 - (x_tp s + 2))%nat with (16 - x_tp s - 2)%nat by lia; reflexivity).
  rewrite TT. clear TT. destruct (x_colonp s).
  - destruct CP as [-> ->]. unfold state6. cbn [x_tp x_tmp x_colonp x_curtok x_saw x_val]. split; [exact FP|]. split; [apply Forall2_app; [exact FQ|constructor; [exact LG|constructor]]|].
    rewrite app_length. cbn [length]. split; [lia|]. split; [lia|]. split; [now rewrite app_assoc|]. split; [reflexivity|]. split; [apply hexnum_nil|]. split; [lia|]. split; [reflexivity|].
    split; [reflexivity|]. rewrite coloned_snoc, !app_nil_r, <- !app_assoc. reflexivity.
  - destruct CP as (-> & -> & CP). inversion FQ; subst qvs. rewrite app_nil_r. unfold state6. cbn [x_tp x_tmp x_colonp x_curtok x_saw x_val]. split; [apply Forall2_app; [exact FP|constructor; [exact LG|constructor]]|]. split; [constructor|].
    rewrite !app_length. cbn [length] in *. split; [lia|]. split; [lia|]. split; [now rewrite app_nil_r|]. split; [reflexivity|]. split; [apply hexnum_nil|]. split; [lia|]. split; [reflexivity|].
    split; [reflexivity|]. rewrite coloned_snoc, !app_nil_r, <- !app_assoc. split; [reflexivity|]. intros K. destruct pre; discriminate K.
Qed.
(** a colon behind a colon *)
Lemma state6_double pre pvs s done src : state6 pre pvs s done (":"%char :: src) [] [] [] -> x_colonp s = None ->
  exists s', pton6_loop s (":"%char :: src) = pton6_loop s' src /\ x_colonp s' = Some (2 * length pvs)%nat /\ x_val s' = 0 /\ state6 pre pvs s' (done ++ lit ":") src [] [] [].
Proof.
  intros ST CN. st6 ST. rewrite xd_loop. change (xd ":"%char) with (@None nat). cbn iota. change (beq ":" ":") with true. cbn iota. rewrite SW. cbn [length Nat.eqb negb].
  rewrite CN in *. destruct CP as (_ & -> & CP). assert (V0 : x_val s = 0). { destruct HX as [_ (ds & F & ->)]. now inversion F. }
  eexists; split; [reflexivity|]. cbn [x_colonp x_val length] in *. split; [f_equal; lia|]. split; [exact V0|]. unfold state6. cbn [x_tp x_tmp x_colonp x_curtok x_saw x_val].
  do 5 (split; [assumption|]). split; [reflexivity|]. split; [exact HX|]. split; [exact VL|]. split; [reflexivity|]. split; [cbn [length] in *; lia|].
  unfold opened. rewrite app_nil_r. destruct pre as [|g pre]; [exfalso; apply CP; reflexivity|]. now rewrite app_nil_r.
Qed.

(** ** after the loop *)
(** what is in tmp, and the text it comes from *)
Definition result6 (tmp : list N) (tp : nat) (colonp : option nat) (text : list byte) : Prop :=
  exists pre pvs gs vs t, tp = (2 * (length pvs + length vs))%nat /\ (tp <= 16)%nat /\ tmp = bytes_of (pvs ++ vs) ++ zs (16 - tp) /\
    words long_group gs vs /\ ending gs t /\
    match colonp with
    | None => pre = [] /\ pvs = [] /\ text = colons gs ++ t
    | Some c => c = (2 * length pvs)%nat /\ Forall2 long_group pre pvs /\ text = compressed pre gs ++ t
    end.
(** the end of the text: the last group *)
Definition finish (s : p6) : res (option (list N * nat)) :=
  if x_saw s then
    if (16 <? x_tp s + 2)%nat then Ok None
    else let* tmp := put_word (x_tmp s) (x_tp s) (x_val s) in Ok (Some (tmp, (x_tp s + 2)%nat))
  else Ok (Some (x_tmp s, x_tp s)).

Lemma words_forall2 G gs vs : Forall2 G gs vs -> words G gs vs.
Proof. induction 1; constructor; auto. Qed.
Lemma words_app G gs vs hs ws : Forall2 G gs vs -> words G hs ws -> words G (gs ++ hs) (vs ++ ws).
Proof. induction 1; cbn [app]; [auto|]. intros W. constructor; auto. Qed.
Lemma forall2_len A B (P : A -> B -> Prop) l m : Forall2 P l m -> length l = length m.
Proof. induction 1; cbn [length]; congruence. Qed.
Lemma forall2_last gs vs : Forall2 long_group gs vs -> gs <> [] -> exists v, long_group (last gs []) v.
Proof. induction 1 as [|g v gs vs G F IH]; [congruence|]. intros _. destruct gs as [|h gs]; [exists v; exact G|]. apply IH. discriminate. Qed.

Lemma finish_spec pre pvs s done post qvs cur : state6 pre pvs s done [] post qvs cur ->
  exists r, finish s = Ok r /\ match r with Some (tmp, tp) => result6 tmp tp (x_colonp s) done | None => True end.
Proof.
  intros ST. st6 ST. unfold finish. rewrite SW. destruct cur as [|c cur].
  - cbn [length Nat.eqb negb]. eexists; split; [reflexivity|]. destruct (x_colonp s) as [c|].
    + destruct CP as [-> ->]. rewrite app_nil_r. exists pre, pvs, post, qvs, (match post with [] => [] | _ => lit ":" end). split; [exact TP|]. split; [exact T16|]. split; [exact TM|]. split; [apply words_forall2, FQ|].
      split; [|split; [reflexivity|split; [exact FP|]]].
      * destruct post as [|g post]; [left; reflexivity|]. right. split; [reflexivity|]. destruct (forall2_last FQ) as [v V]; [discriminate|]. eauto.
      * rewrite <- opened_compressed, <- app_assoc. f_equal. destruct post as [|g post]; [reflexivity|]. apply coloned_ends. discriminate.
    + destruct CP as (-> & -> & CP). rewrite app_nil_r. inversion FQ; subst qvs. rewrite app_nil_r in TM. exists [], [], pre, pvs, (match pre with [] => [] | _ => lit ":" end). cbn [length] in *.
      split; [lia|]. split; [exact T16|]. split; [exact TM|]. split; [apply words_forall2, FP|]. split; [|split; [reflexivity|split; [reflexivity|]]].
      * destruct pre as [|g pre]; [left; reflexivity|]. right. split; [reflexivity|]. destruct (forall2_last FP) as [v V]; [discriminate|]. eauto.
      * destruct pre as [|g pre]; [reflexivity|]. apply coloned_ends. discriminate.
  - cbn [length Nat.eqb negb]. destruct (Nat.ltb_spec 16 (x_tp s + 2)); [eexists; split; [reflexivity|exact Logic.I]|].
    assert (LB : x_tp s = length (bytes_of (pvs ++ qvs))) by (rewrite bytes_of_length, app_length; exact TP).
    rewrite TM, (@put_word_at (bytes_of (pvs ++ qvs)) (16 - x_tp s) (x_val s) (x_tp s) LB VL) by lia. cbn [bind]. eexists; split; [reflexivity|]. cbv beta iota.
    assert (LG : long_group (c :: cur) (x_val s)) by (exists (length (c :: cur)); split; [cbn; lia|auto]). 
    assert (TT : bytes_of (pvs ++ qvs) ++ [x_val s / 256; x_val s mod 256] ++ zs (16 - x_tp s - 2) = bytes_of ((pvs ++ qvs) ++ [x_val s]) ++ zs (16 - (x_tp s + 2)))
      by (rewrite (bytes_of_app (pvs ++ qvs) [x_val s]), <- (app_assoc (bytes_of (pvs ++ qvs))); replace (16 - (x_tp s + 2))%nat with (16 - x_tp s - 2)%nat by lia; reflexivity).
    rewrite TT. clear TT. destruct (x_colonp s) as [k|].
    + destruct CP as [-> ->]. exists pre, pvs, (post ++ [c :: cur]), (qvs ++ [x_val s]), []. rewrite app_length. cbn [length]. split; [lia|]. split; [lia|]. split; [now rewrite app_assoc|].
      split; [apply words_app; [exact FQ|]; apply words_group; [exact LG|constructor]|]. split; [left; reflexivity|]. split; [reflexivity|]. split; [exact FP|].
      rewrite app_nil_r, <- opened_compressed, <- coloned_colons. reflexivity.
    + destruct CP as (-> & -> & CP). inversion FQ; subst qvs. exists [], [], (pre ++ [c :: cur]), (pvs ++ [x_val s]), []. rewrite app_length. cbn [length] in *. split; [lia|]. split; [lia|]. split; [now rewrite app_nil_r|].
      split; [apply words_app; [exact FP|]; apply words_group; [exact LG|constructor]|]. split; [left; reflexivity|]. split; [reflexivity|]. split; [reflexivity|].
      rewrite app_nil_r, <- coloned_colons. reflexivity.
Qed.
