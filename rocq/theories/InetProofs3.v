(** inet_pton6: the loop as a whole, the shift, and the result. *)
From Verif Require Import Prelude PreludeFacts Str StrFacts Libc LibcFacts IpModel IpSpec InetModel InetSpec InetProofs InetProofs2.
Set Implicit Arguments.
Local Open Scope N_scope.

Lemma zs_skip n k : skipn k (zs n) = zs (n - k).
Proof. unfold zs. revert k. induction n as [|n IH]; intros [|k]; cbn; auto. Qed.
Lemma words_of_quad a b c d : a <= 255 -> b <= 255 -> c <= 255 -> d <= 255 -> bytes_of [256 * a + b; 256 * c + d] = [a; b; c; d].
Proof.
  intros A B C D. cbn [bytes_of flat_map app]. rewrite !(N.mul_comm 256), !N.div_add_l, !(N.div_small _ 256), !N.add_0_r by lia.
  rewrite !(N.add_comm (_ * 256)), !N.mod_add, !N.mod_small by lia. reflexivity.
Qed.

(** the dotted quad at the end *)
Lemma quad_step pre pvs s done src post qvs cur : state6 pre pvs s done ("."%char :: src) post qvs cur -> is_cstr (cur ++ "."%char :: src) ->
  exists r, pton6_loop s ("."%char :: src) = Ok r /\
  match r with
  | Some s' => finish s' = Ok (Some (x_tmp s', x_tp s')) /\ x_colonp s' = x_colonp s /\ result6 (x_tmp s') (x_tp s') (x_colonp s') (done ++ "."%char :: src)
  | None => True
  end.
Proof.
  intros ST CS. st6 ST. rewrite xd_loop. change (xd "."%char) with (@None nat). cbn iota. change (beq "." ":") with false. change (beq "." ".") with true. cbn [andb]. cbn iota.
  destruct (Nat.leb_spec (x_tp s + 4) 16) as [L4|]; [|eexists; split; [reflexivity|exact Logic.I]].
  assert (LB : x_tp s = length (bytes_of (pvs ++ qvs))) by (rewrite bytes_of_length, app_length; exact TP).
  rewrite CT. destruct (@pton4_exact (cur ++ "."%char :: src) (x_tmp s) (x_tp s) CS) as [(o & Q & E)|[_ E]]; [rewrite TM, app_length, zs_length; lia| |].
  2:{ rewrite E. cbn [bind]. eexists; split; [reflexivity|exact Logic.I]. }
  rewrite E. cbn [bind]. eexists; split; [reflexivity|]. cbv iota beta. unfold finish. cbn [x_saw x_tmp x_tp x_colonp]. split; [reflexivity|]. split; [reflexivity|].
  destruct (quad_small Q) as [L F]. destruct o as [|a [|b [|c [|d [|]]]]]; try discriminate L. clear L.
  repeat match goal with H : Forall _ (_ :: _) |- _ => inversion H; clear H; subst end.
  set (ws := [256 * a + b; 256 * c + d]).
  assert (TT : firstn (x_tp s) (x_tmp s) ++ [a; b; c; d] ++ skipn (x_tp s + 4) (x_tmp s) = bytes_of ((pvs ++ qvs) ++ ws) ++ zs (16 - (x_tp s + 4))).
  { rewrite TM, firstn_app_le, skipn_app_ge by lia. rewrite firstn_all2 by lia. rewrite zs_skip, (bytes_of_app (pvs ++ qvs) ws), <- app_assoc. unfold ws. rewrite words_of_quad by assumption. f_equal. f_equal. f_equal. lia. }
  rewrite TT. clear TT. assert (WQ : words long_group [cur ++ "."%char :: src] ws) by (apply words_quad; exact Q).
  destruct (x_colonp s) as [k|].
  - destruct CP as [-> ->]. exists pre, pvs, (post ++ [cur ++ "."%char :: src]), (qvs ++ ws), []. rewrite app_length. cbn [length ws]. split; [unfold ws; cbn [length]; lia|]. split; [lia|]. split; [now rewrite app_assoc|].
    split; [apply words_app; auto|]. split; [left; reflexivity|]. split; [reflexivity|]. split; [exact FP|].
    rewrite app_nil_r, <- opened_compressed, <- coloned_colons, <- !app_assoc. reflexivity.
  - destruct CP as (-> & -> & CP). inversion FQ; subst qvs. exists [], [], (pre ++ [cur ++ "."%char :: src]), (pvs ++ ws), []. rewrite app_length. cbn [length] in *. split; [unfold ws; cbn [length]; lia|]. split; [lia|]. split; [now rewrite app_nil_r|].
    split; [apply words_app; auto|]. split; [left; reflexivity|]. split; [reflexivity|]. split; [reflexivity|].
    rewrite app_nil_r, <- coloned_colons, <- !app_assoc. reflexivity.
Qed.

Definition fst_loop (s : p6) (src : list byte) : res (option (list N * nat * option nat)) :=
  let* r := pton6_loop s src in
  match r with
  | None => Ok None
  | Some s => let* r := finish s in match r with None => Ok None | Some (tmp, tp) => Ok (Some (tmp, tp, x_colonp s)) end
  end.

Lemma loop6_sound src : forall pre pvs s done post qvs cur, state6 pre pvs s done src post qvs cur -> is_cstr (cur ++ src) ->
  exists r, fst_loop s src = Ok r /\ match r with Some (tmp, tp, cp) => result6 tmp tp cp (done ++ src) | None => True end.
Proof.
  unfold fst_loop. induction src as [|c src IH]; intros pre pvs s done post qvs cur ST CS.
  - cbn [pton6_loop bind]. destruct (finish_spec ST) as (r & E & R). rewrite E. cbn [bind]. rewrite app_nil_r. destruct r as [[tmp tp]|]; eexists; split; try reflexivity; exact R.
  - assert (CC : is_cstr (c :: src)) by (apply is_cstr_app in CS; apply CS). destruct (cstr_cons CC) as [NC CS'].
    assert (EX : done ++ c :: src = (done ++ [c]) ++ src) by now rewrite <- app_assoc. rewrite EX.
    assert (NONE : pton6_loop s (c :: src) = Ok None -> exists r, (let* r := pton6_loop s (c :: src) in match r with None => Ok None | Some s => let* r := finish s in match r with None => Ok None | Some (tmp, tp) => Ok (Some (tmp, tp, x_colonp s)) end end) = Ok r /\ match r with Some (tmp, tp, cp) => result6 tmp tp cp ((done ++ [c]) ++ src) | None => True end).
    { intros ->. cbn [bind]. eexists; split; [reflexivity|exact Logic.I]. }
    pose proof (xd_hexof NC) as XH. destruct (xd c) as [d|] eqn:XD.
    + destruct (N.le_gt_cases (16 * x_val s + N.of_nat d) 65535) as [LE|GT].
      * destruct (state6_digit ST XH LE) as (s' & E & ST' & CP' & _). rewrite E. apply (IH _ _ _ _ _ _ _ ST'). rewrite <- app_assoc. exact CS.
      * apply NONE. rewrite xd_loop, XD. cbv zeta. rewrite lor_digit by apply XH. apply N.ltb_lt in GT. now rewrite GT.
    + destruct (beq c ":") eqn:BC.
      * apply beq_true in BC as ->. destruct cur as [|c0 cur].
        -- destruct (x_colonp s) as [k|] eqn:CPE.
           ++ apply NONE. rewrite xd_loop, XD. change (beq ":" ":") with true. cbn iota. st6 ST. rewrite SW, CPE. reflexivity.
           ++ assert (PQ : post = [] /\ qvs = []). { st6 ST. rewrite CPE in CP. destruct CP as (-> & _). inversion FQ. auto. } destruct PQ as [-> ->].
              destruct (state6_double ST CPE) as (s' & E & _ & _ & ST'). rewrite E. apply (IH _ _ _ _ _ _ _ ST'). exact CS'.
        -- destruct (Nat.le_gt_cases (x_tp s + 2) 16) as [L|G].
           ++ destruct (state6_colon ST) as (s' & E & CP' & _ & ST'); [discriminate|exact L|]. rewrite E. destruct (x_colonp s); apply (IH _ _ _ _ _ _ _ ST'); exact CS'.
           ++ apply NONE. rewrite xd_loop, XD. change (beq ":" ":") with true. cbn iota. st6 ST. rewrite SW. cbn [length Nat.eqb negb]. apply Nat.ltb_lt in G. now rewrite G.
      * destruct (beq c ".") eqn:BD.
        -- apply beq_true in BD as ->. destruct (quad_step ST CS) as (r & E & R). destruct r as [s'|]; [|apply NONE; exact E].
           destruct R as (F & CP' & R). rewrite E. cbn [bind]. rewrite F. cbn [bind]. eexists; split; [reflexivity|]. cbv iota beta. rewrite <- app_assoc. exact R.
        -- apply NONE. rewrite xd_loop, XD, BC, BD. reflexivity.
Qed.

(** ** the shift *)
Lemma nth_snoc_get (p q : list N) x r i : i = length (p ++ q) -> nget (p ++ (q ++ [x]) ++ r) i = Ok x.
Proof. intros ->. replace (p ++ (q ++ [x]) ++ r) with ((p ++ q) ++ x :: r) by now rewrite <- !app_assoc. now apply nget_at. Qed.
Lemma shift_spec k p n : forall Q R j, length Q = k -> (length p + k + 1 + j + length R = 16)%nat -> (n = k + length R)%nat ->
  shift_loop k (S (length R)) (p ++ Q ++ zs (S j) ++ R) (length p) n = Ok (p ++ zs (S j) ++ Q ++ R).
Proof.
  induction k as [|k IH]; intros Q R j LQ L N.
  - destruct Q; [|discriminate LQ]. reflexivity.
  - assert (NE : Q <> []) by (intros ->; discriminate LQ). destruct (exists_last NE) as (q & x & ->). rewrite app_length in LQ. cbn [length] in LQ.
    cbn [shift_loop]. rewrite nth_snoc_get by (rewrite app_length; lia). cbn [bind].
    assert (Z : zs (S j) = zs j ++ [0]) by (unfold zs; rewrite <- repeat_cons; reflexivity).
    rewrite Z at 1. replace (p ++ (q ++ [x]) ++ (zs j ++ [0]) ++ R) with ((p ++ q ++ [x] ++ zs j) ++ 0 :: R) by (rewrite <- !app_assoc; reflexivity).
    rewrite nset_at by (rewrite !app_length, zs_length; cbn [length]; lia). cbn [bind].
    replace ((p ++ q ++ [x] ++ zs j) ++ x :: R) with ((p ++ q) ++ x :: zs j ++ x :: R) by (rewrite <- !app_assoc; reflexivity).
    rewrite nset_at by (rewrite app_length; lia). cbn [bind].
    replace ((p ++ q) ++ 0 :: zs j ++ x :: R) with (p ++ q ++ zs (S j) ++ x :: R) by (rewrite <- !app_assoc; reflexivity).
    change (S (S (length R))) with (S (length (x :: R))). rewrite IH; [rewrite <- !app_assoc; reflexivity|lia|cbn [length]; lia|cbn [length]; lia].
Qed.
(** with nothing to fill the bytes behind [::] are cleared *)
Lemma shift_full k p n : forall Q j, length Q = k -> (length p + k + j = 16)%nat -> (n = k + j)%nat ->
  shift_loop k (S j) (p ++ Q ++ zs j) (length p) n = Ok (p ++ zs (k + j)).
Proof.
  induction k as [|k IH]; intros Q j LQ L N.
  - destruct Q; [|discriminate LQ]. reflexivity.
  - assert (NE : Q <> []) by (intros ->; discriminate LQ). destruct (exists_last NE) as (q & x & ->). rewrite app_length in LQ. cbn [length] in LQ.
    cbn [shift_loop]. rewrite nth_snoc_get by (rewrite app_length; lia). cbn [bind].
    replace (p ++ (q ++ [x]) ++ zs j) with ((p ++ q) ++ x :: zs j) by (rewrite <- !app_assoc; reflexivity).
    rewrite nset_at by (rewrite app_length; lia). cbn [bind]. rewrite nset_at by (rewrite app_length; lia). cbn [bind].
    replace ((p ++ q) ++ 0 :: zs j) with (p ++ q ++ zs (S j)) by (rewrite <- !app_assoc; reflexivity).
    rewrite IH; [f_equal; f_equal; f_equal; lia|lia|lia|lia].
Qed.

Lemma result6_lenient tmp tp cp text : result6 tmp tp cp text ->
  exists tmp' tp', match cp with
                   | Some colonp => let n := (tp - colonp)%nat in let* tmp := shift_loop n 1 tmp colonp n in Ok (tmp, 16%nat)
                   | None => Ok (tmp, tp)
                   end = Ok (tmp', tp') /\ length tmp' = 16%nat /\ (tp' = 16%nat -> exists vs, lenient6 text vs /\ tmp' = bytes_of vs).
Proof.
  intros (pre & pvs & gs & vs & t & TP & L & -> & W & EN & CP). destruct cp as [c|].
  - destruct CP as (-> & FP & ->). cbv zeta. replace (tp - 2 * length pvs)%nat with (2 * length vs)%nat by lia.
    rewrite bytes_of_app, <- app_assoc. rewrite <- (bytes_of_length pvs), <- (bytes_of_length vs).
    destruct (Nat.eqb_spec (length pvs + length vs) 8) as [EQ|NE].
    + replace (16 - tp)%nat with 0%nat by lia. rewrite (@shift_full (length (bytes_of vs)) (bytes_of pvs) (length (bytes_of vs)) (bytes_of vs) 0 eq_refl) by (rewrite !bytes_of_length; lia).
      cbn [bind]. eexists _, _. split; [reflexivity|]. rewrite Nat.add_0_r. split; [rewrite app_length, zs_length, !bytes_of_length; lia|]. intros _.
      exists (pvs ++ repeat 0 (length vs)). split; [|rewrite bytes_of_app, bytes_of_zeros, bytes_of_length; reflexivity].
      right. exists pre, pvs, gs, vs, t. rewrite EQ, Nat.eqb_refl. auto 10.
    + replace (16 - tp)%nat with (S (2 * (8 - length pvs - length vs) - 1)) by lia.
      rewrite <- (app_nil_r (zs (S _))), (@shift_spec (length (bytes_of vs)) (bytes_of pvs) (length (bytes_of vs)) (bytes_of vs) [] _ eq_refl) by (rewrite ?bytes_of_length; cbn [length]; lia).
      cbn [bind]. rewrite app_nil_r. replace (S (2 * (8 - length pvs - length vs) - 1)) with (2 * (8 - length pvs - length vs))%nat by lia.
      eexists _, _. split; [reflexivity|]. split; [rewrite !app_length, zs_length, !bytes_of_length; lia|]. intros _.
      exists (expanded pvs vs). split; [|unfold expanded; rewrite !bytes_of_app, bytes_of_zeros; reflexivity].
      right. exists pre, pvs, gs, vs, t. destruct (Nat.eqb_spec (length pvs + length vs) 8); [contradiction|]. split; [exact FP|]. split; [exact W|]. split; [lia|]. auto.
  - destruct CP as (-> & -> & ->). eexists _, _. split; [reflexivity|]. cbn [app length] in *. split; [rewrite app_length, zs_length, bytes_of_length; lia|]. intros T16.
    exists vs. split; [|rewrite T16; cbn; now rewrite app_nil_r]. left. exists gs, t. split; [exact W|]. split; [lia|]. auto.
Qed.

(** ** the function *)
Definition rest6 (src : list byte) (m : list N) : res (option (list N)) :=
  let* r := fst_loop (mkP6 (repeat 0 16) 0 None src false 0) src in
  match r with
  | None => Ok None
  | Some (tmp, tp, cp) =>
      let* ' (tmp, tp) := match cp with
                          | Some colonp => let n := (tp - colonp)%nat in let* tmp := shift_loop n 1 tmp colonp n in Ok (tmp, 16%nat)
                          | None => Ok (tmp, tp)
                          end in
      if negb (tp =? 16)%nat then Ok None else let* m := acopy m 0 tmp 0 16 in Ok (Some m)
  end.
Lemma pton6_eq src m : inet_pton6 src m =
  match src with
  | c :: rest => if beq c ":"%char then match rest with c' :: _ => if beq c' ":"%char then rest6 rest m else Ok None | [] => Ok None end else rest6 src m
  | [] => rest6 src m
  end.
Proof.
  assert (K : forall src, rest6 src m =
    let* r := pton6_loop (mkP6 (repeat 0 16) 0 None src false 0) src in
    match r with
    | None => Ok None
    | Some s =>
        let* r :=
          if x_saw s then
            if (16 <? x_tp s + 2)%nat then Ok None
            else let* tmp := put_word (x_tmp s) (x_tp s) (x_val s) in Ok (Some (tmp, (x_tp s + 2)%nat))
          else Ok (Some (x_tmp s, x_tp s)) in
        match r with
        | None => Ok None
        | Some (tmp, tp) =>
            let* ' (tmp, tp) :=
              match x_colonp s with
              | Some colonp => let n := (tp - colonp)%nat in let* tmp := shift_loop n 1 tmp colonp n in Ok (tmp, 16%nat)
              | None => Ok (tmp, tp)
              end in
            if negb (tp =? 16)%nat then Ok None
            else let* m := acopy m 0 tmp 0 16 in Ok (Some m)
        end
    end).
  { intros s. unfold rest6, fst_loop, finish. destruct (pton6_loop _ s) as [[x|]| | |]; try reflexivity. cbn [bind].
    match goal with |- bind (bind ?A _) _ = _ => destruct A as [[[tmp tp]|]| | |]; reflexivity end. }
  unfold inet_pton6. destruct src as [|c rest]; [symmetry; apply K|]. destruct (beq c ":"); [|symmetry; apply K]. destruct rest as [|c' rest]; [reflexivity|]. destruct (beq c' ":"); [|reflexivity]. symmetry; apply K.
Qed.
