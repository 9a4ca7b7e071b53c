(** C123: StringHash.  C124: membership in lists of strings, TrimCSVLineCRLFStrict.  C125: StringEncodeBase64. *)
From Verif Require Import Prelude PreludeFacts Str StrFacts MemSpec Libc LibcFacts EditModel EditProofs EditProofs3 EnvProofs TextModel.
Set Implicit Arguments.

(** ** C123 *)
Definition unsigned_int (h : N) : Prop := (h < 2 ^ 32)%N.
Lemma u32_lt x : unsigned_int (u32 x).
Proof. apply N.mod_lt. discriminate. Qed.
Lemma u32_small x : unsigned_int x -> u32 x = x.
Proof. intros H. apply N.mod_small, H. Qed.
(** h += h << k multiplies by an odd number *)
Lemma spread k h : add32 h (shl h k) = u32 (h * (1 + 2 ^ k)).
Proof.
  unfold add32, shl, u32. rewrite N.add_mod_idemp_r by discriminate. rewrite N.shiftl_mul_pow2. f_equal. lia.
Qed.
Lemma odd_inj m inv x y : u32 (m * inv) = 1%N -> unsigned_int x -> unsigned_int y -> u32 (x * m) = u32 (y * m) -> x = y.
Proof.
  intros I X Y E. unfold u32 in *. assert (G : forall z, unsigned_int z -> ((z * m) mod 2 ^ 32 * inv mod 2 ^ 32 = z)%N).
  { intros z Z. rewrite N.mul_mod_idemp_l by discriminate. rewrite <- N.mul_assoc. rewrite <- N.mul_mod_idemp_r by discriminate. rewrite I, N.mul_1_r. apply N.mod_small, Z. }
  rewrite <- (G x X), <- (G y Y), E. reflexivity.
Qed.
Lemma xorshift_lt k h : unsigned_int h -> unsigned_int (N.lxor h (N.shiftr h k)).
Proof.
  unfold unsigned_int. intros H. destruct (N.eq_dec (N.lxor h (N.shiftr h k)) 0) as [->|NZ]; [lia|].
  apply N.log2_lt_pow2; [lia|]. eapply N.le_lt_trans; [apply N.log2_lxor|]. destruct (N.eq_dec h 0) as [->|HZ].
  - rewrite N.shiftr_0_l. reflexivity.
  - assert (L : (N.log2 h < 32)%N) by (apply N.log2_lt_pow2; [lia|exact H]). rewrite N.log2_shiftr. lia.
Qed.
Lemma xorshift_inj k x y : (0 < k)%N -> N.lxor x (N.shiftr x k) = N.lxor y (N.shiftr y k) -> x = y.
Proof.
  intros K E. assert (Z : N.lxor x y = N.shiftr (N.lxor x y) k).
  { rewrite N.shiftr_lxor. apply N.lxor_eq. rewrite N.lxor_assoc. rewrite <- (N.lxor_assoc y). rewrite (N.lxor_comm y), N.lxor_assoc, <- N.lxor_assoc.
    rewrite E. apply N.lxor_nilpotent. }
  assert (N.lxor x y = 0%N).
  { destruct (N.eq_dec (N.lxor x y) 0) as [|NZ]; [assumption|]. exfalso. rewrite N.shiftr_div_pow2 in Z.
    assert (L : (N.lxor x y / 2 ^ k < N.lxor x y)%N) by (apply N.div_lt; [lia|apply N.pow_gt_1; lia]). rewrite <- Z in L. lia. }
  apply N.lxor_eq. assumption.
Qed.
Lemma step_lt h c : unsigned_int (hash_step h c).
Proof. unfold hash_step. apply xorshift_lt, u32_lt. Qed.
Lemma mix_inj x y : unsigned_int x -> unsigned_int y -> 
  N.lxor (add32 x (shl x 10)) (N.shiftr (add32 x (shl x 10)) 6) = N.lxor (add32 y (shl y 10)) (N.shiftr (add32 y (shl y 10)) 6) -> x = y.
Proof. intros X Y E. apply xorshift_inj in E; [|lia]. rewrite !spread in E. apply (@odd_inj _ 3222273025 x y) in E; auto. Qed.
Lemma step_inj_h x y c : unsigned_int x -> unsigned_int y -> hash_step x c = hash_step y c -> x = y.
Proof.
  intros X Y E. unfold hash_step in E. apply mix_inj in E; try apply u32_lt. unfold add32, u32, unsigned_int in *.
  assert (C : (code c < 256)%N) by (destruct c as [[] [] [] [] [] [] [] []]; reflexivity).
  pose proof (N.div_mod (x + code c) (2 ^ 32)). pose proof (N.div_mod (y + code c) (2 ^ 32)).
  assert (((x + code c) / 2 ^ 32 <= 1)%N) by (apply N.lt_succ_r, N.div_lt_upper_bound; [discriminate|]; change (2 ^ 32 * N.succ 1)%N with (2 ^ 33)%N; change (2 ^ 33)%N with 8589934592%N; change (2 ^ 32)%N with 4294967296%N in *; lia).
  assert (((y + code c) / 2 ^ 32 <= 1)%N) by (apply N.lt_succ_r, N.div_lt_upper_bound; [discriminate|]; change (2 ^ 32 * N.succ 1)%N with (2 ^ 33)%N; change (2 ^ 33)%N with 8589934592%N; change (2 ^ 32)%N with 4294967296%N in *; lia).
  change (2 ^ 32)%N with 4294967296%N in *. lia.
Qed.
Lemma step_inj_c h c d : unsigned_int h -> hash_step h c = hash_step h d -> c = d.
Proof.
  intros X E. unfold hash_step in E. apply mix_inj in E; try apply u32_lt. unfold add32, u32, unsigned_int in *.
  assert (BB : forall b, (code b < 256)%N) by (intros b; destruct b as [[] [] [] [] [] [] [] []]; reflexivity).
  pose proof (BB c) as C. pose proof (BB d) as D.
  pose proof (N.div_mod (h + code c) (2 ^ 32)). pose proof (N.div_mod (h + code d) (2 ^ 32)).
  assert (Q : forall b, ((h + code b) / 2 ^ 32 <= 1)%N).
  { intros b. specialize (BB b). apply N.lt_succ_r, N.div_lt_upper_bound; [discriminate|]; change (2 ^ 32 * N.succ 1)%N with 8589934592%N; change (2 ^ 32)%N with 4294967296%N in *; lia. }
  pose proof (Q c). pose proof (Q d). change (2 ^ 32)%N with 4294967296%N in *.
  assert (EC : code c = code d) by lia. unfold code in EC. rewrite <- (ascii_N_embedding c), <- (ascii_N_embedding d), EC. reflexivity.
Qed.
Lemma fold_lt s : forall h, unsigned_int h -> unsigned_int (fold_left hash_step s h).
Proof. induction s as [|c s IH]; intros h H; [exact H|]. apply IH, step_lt. Qed.
Lemma fold_inj s : forall x y, unsigned_int x -> unsigned_int y -> fold_left hash_step s x = fold_left hash_step s y -> x = y.
Proof. induction s as [|c s IH]; intros x y X Y E; [exact E|]. cbn in E. apply IH in E; try apply step_lt. eapply step_inj_h; eauto. Qed.
Lemma final_inj x y : unsigned_int x -> unsigned_int y ->
  let f h := (let h := add32 h (shl h 3) in let h := N.lxor h (N.shiftr h 11) in add32 h (shl h 15)) in f x = f y -> x = y.
Proof.
  intros X Y f E. subst f. cbv beta zeta in E. rewrite (spread 15), (spread 15 (N.lxor _ _)) in E.
  apply (@odd_inj _ 1073709057) in E; [|reflexivity|apply xorshift_lt, u32_lt|apply xorshift_lt, u32_lt].
  apply xorshift_inj in E; [|lia]. rewrite !spread in E. apply (@odd_inj _ 954437177 x y) in E; auto.
Qed.
(** the result is an unsigned int *)
Theorem C123_range s seed : unsigned_int (StringHash s seed).
Proof. apply u32_lt. Qed.
(** different seeds never give a string the same hash *)
Theorem C123_seeds s x y : unsigned_int x -> unsigned_int y -> StringHash s x = StringHash s y -> x = y.
Proof. intros X Y E. apply final_inj in E; [|apply fold_lt, X|apply fold_lt, Y]. eapply fold_inj; eauto. Qed.
(** strings that differ in one character never have the same hash *)
Theorem C123_one_character a c d b seed : unsigned_int seed -> StringHash (a ++ c :: b) seed = StringHash (a ++ d :: b) seed -> c = d.
Proof.
  intros S E. apply final_inj in E; [|apply fold_lt, S|apply fold_lt, S]. rewrite !fold_left_app in E. cbn in E.
  apply fold_inj in E; try apply step_lt. eapply step_inj_c; [|exact E]. apply fold_lt, S.
Qed.
(** the hash of a concatenation is that of the rest from the state the first part leaves: it depends on the first part only through its hash *)
Theorem C123_prefix a a' b seed seed' : unsigned_int seed -> unsigned_int seed' -> StringHash a seed = StringHash a' seed' -> StringHash (a ++ b) seed = StringHash (a' ++ b) seed'.
Proof.
  intros S S' E. apply final_inj in E; [|apply fold_lt, S|apply fold_lt, S']. unfold StringHash. rewrite !fold_left_app, E. reflexivity.
Qed.
(** values of the published hash function (one-at-a-time) *)
Example C123_nonvacuous : StringHash (lit "a") 0 = 3392050242%N /\ StringHash (lit "The quick brown fox jumps over the lazy dog") 0 = 1369346549%N.
Proof. split; reflexivity. Qed.
Print Assumptions C123_range.
Print Assumptions C123_seeds.
Print Assumptions C123_one_character.
Print Assumptions C123_prefix.

(** ** C124 *)
Lemma is_in_spec same str l : forall done rest fuel, length l < fuel ->
  is_in_loop same fuel str (map Some (done ++ l) ++ None :: rest) (length done) = Ok (existsb (same str) l).
Proof.
  induction l as [|x l IH]; intros done rest fuel FU; (destruct fuel as [|fuel]; [cbn in FU; lia|]); cbn [is_in_loop].
  - rewrite app_nil_r, nth_error_app2 by (rewrite map_length; lia). rewrite map_length, Nat.sub_diag. reflexivity.
  - rewrite map_app, <- app_assoc, nth_error_app2 by (rewrite map_length; lia). rewrite map_length, Nat.sub_diag. cbn [map app nth_error existsb].
    destruct (same str x); [reflexivity|]. cbn [orb]. specialize (IH (done ++ [x]) rest fuel). rewrite <- app_assoc, app_length in IH. cbn [app length] in IH.
    replace (length done + 1) with (S (length done)) in IH by lia. rewrite map_app, <- app_assoc in IH. apply IH. cbn in FU. lia.
Qed.
(** whether the text is in the list that ends with the first NULL *)
Theorem C124_IsStrIn str l rest : exists b, IsStrIn str (map Some l ++ None :: rest) = Ok b /\ (b = true <-> In str l).
Proof.
  unfold IsStrIn. rewrite (@is_in_spec bytes_eqb str l [] rest) by (rewrite app_length, map_length; cbn; lia). eexists. split; [reflexivity|].
  rewrite existsb_exists. split; [intros [x [I B]]; apply bytes_eqb_eq in B; subst x; exact I|]. intros I. exists str. split; [exact I|apply bytes_eqb_refl].
Qed.
Theorem C124_IsStrCaseIn str l rest : exists b, IsStrCaseIn str (map Some l ++ None :: rest) = Ok b /\ (b = true <-> exists x, In x l /\ map tolower x = map tolower str).
Proof.
  unfold IsStrCaseIn. rewrite (@is_in_spec _ str l [] rest) by (rewrite app_length, map_length; cbn; lia). eexists. split; [reflexivity|].
  rewrite existsb_exists. split; intros [x [I B]]; exists x; (split; [exact I|]); [apply bytes_eqb_eq in B; auto|apply bytes_eqb_eq; auto].
Qed.
(** what TrimCSVLineCRLF leaves of a line (C30) *)
Definition trims (s t : list byte) : Prop := s = t ++ [CR; LF] \/ (s = t /\ forall u, s <> u ++ [CR; LF]).
Definition ascii7 (s : list byte) : Prop := Forall (fun b => (code b < 128)%N) s.
Lemma isspace_char_7 c : (code c < 128)%N -> isspace_char c = Ok (isspace c).
Proof. destruct c as [[] [] [] [] [] [] [] []]; intros H; try reflexivity; exfalso; revert H; vm_compute; discriminate. Qed.
(** A line of plain ASCII passes exactly if it is not empty, shorter than 4096, and neither begins with a blank nor has one before its
    end; otherwise an assert stops the program. *)
Theorem C124_TrimCSVLineCRLFStrict m s t : holds m s -> ascii7 s -> trims s t ->
  let good := s <> [] /\ (N.of_nat (length s) < 4096)%N /\ isspace (hd NUL s) = false /\ t <> [] /\ isspace (last t NUL) = false in
  (good -> exists m', TrimCSVLineCRLFStrict m = Ok (m', length t) /\ holds m' t) /\ (~ good -> TrimCSVLineCRLFStrict m = Abort).
Proof.
  intros H A T good. unfold TrimCSVLineCRLFStrict. rewrite (proj2 (mstr_holds _ _) H). cbn [bind].
  destruct s as [|c0 s0].
  { split; [intros [G _]; congruence|reflexivity]. }
  set (s := c0 :: s0) in *. change (0 <? length s) with true. cbn [massert].
  destruct (N.ltb_spec (N.of_nat (length s)) 4096) as [L|L]; cbn [massert].
  2:{ split; [intros [_ [G _]]; lia|reflexivity]. }
  assert (C0 : (code c0 < 128)%N) by (inversion A; assumption).
  assert (G0 : aget m 0 = Ok c0) by (destruct H as [_ [r ->]]; reflexivity). rewrite G0. cbn [bind]. rewrite (isspace_char_7 _ C0). cbn [bind].
  destruct (isspace c0) eqn:SP; cbn [negb massert].
  { split; [intros [_ [_ [G _]]]; cbn in G; congruence|reflexivity]. }
  assert (TR : exists m', TrimCSVLineCRLF m = Ok (m', length t) /\ holds m' t).
  { destruct T as [T|[T N]].
    - rewrite T in H. destruct (@TrimCSVLineCRLF_crlf _ _ H) as [m' [E [H' _]]]. eauto.
    - rewrite <- T. exists m. split; [apply (@TrimCSVLineCRLF_other _ _ H N)|exact H]. }
  destruct TR as [m' [E H']]. rewrite E. cbn [bind]. rewrite (proj2 (mstr_holds _ _) H'). cbn [bind]. rewrite Nat.eqb_refl. cbn [massert].
  assert (TS : forall x, In x t -> In x s). { intros x I. destruct T as [T|[T _]]; rewrite T; [apply in_app_iff; left|]; exact I. }
  destruct (Nat.ltb_spec 0 (length t)) as [LT|LT]; cbn [massert].
  2:{ split; [intros [_ [_ [_ [G _]]]]; destruct t; [congruence|cbn in LT; lia]|reflexivity]. }
  destruct (@exists_last _ t) as [u [z ET]]; [destruct t; [cbn in LT; lia|discriminate]|].
  assert (GL : aget m' (length t - 1) = Ok z).
  { destruct H' as [_ [r ->]]. rewrite ET, map_app, <- app_assoc, app_length. cbn [map app length]. replace (length u + 1 - 1) with (length (map Some u)) by (rewrite map_length; lia).
    unfold aget. rewrite nth_error_app2, Nat.sub_diag by lia. reflexivity. }
  assert (LZ : last t NUL = z) by (rewrite ET; apply last_last).
  assert (CZ : (code z < 128)%N). { unfold ascii7 in A. rewrite Forall_forall in A. apply A, TS. rewrite ET. apply in_app_iff. right. left. reflexivity. }
  rewrite GL. cbn [bind]. rewrite (isspace_char_7 _ CZ). cbn [bind]. destruct (isspace z) eqn:SZ; cbn [negb massert].
  { split; [intros [_ [_ [_ [_ G]]]]; congruence|reflexivity]. }
  assert (G1 : aget m' 0 = Ok c0).
  { destruct H' as [_ [r ->]]. destruct t as [|x t]; [cbn in LT; lia|]. replace x with c0; [reflexivity|]. destruct T as [T|[T _]]; cbn in T; injection T as T _; congruence. }
  rewrite G1. cbn [bind]. rewrite (isspace_char_7 _ C0). cbn [bind]. rewrite SP. cbn [negb massert].
  split; [intros _; exists m'; split; [reflexivity|exact H']|]. intros NG. exfalso. apply NG. repeat split; try assumption; try discriminate.
  - destruct t; [cbn in LT; lia|discriminate].
  - rewrite LZ. exact SZ.
Qed.
(** isspace() is given a negative char for the first byte of UTF-8 text *)
Theorem C124_high_byte_refuted : TrimCSVLineCRLFStrict (block (ascii_of_N 195 :: ascii_of_N 166 :: lit "x")) = UB.
Proof. reflexivity. Qed.
Example C124_nonvacuous : TrimCSVLineCRLFStrict (block (lit "a,b" ++ [CR; LF])) = Ok (map Some (lit "a,b") ++ [Some NUL; Some NUL; Some NUL], 3) /\
  IsStrIn (lit "b") [Some (lit "a"); Some (lit "b"); None] = Ok true /\ IsStrCaseIn (lit "B") [Some (lit "a"); None; Some (lit "b")] = Ok false.
Proof. repeat split. Qed.
Print Assumptions C124_IsStrIn.
Print Assumptions C124_IsStrCaseIn.
Print Assumptions C124_TrimCSVLineCRLFStrict.
Print Assumptions C124_high_byte_refuted.

(** ** C125 *)
Definition NL : byte := ascii_of_nat 10.
(** the value of a digit of base 64, by its place in the alphabet *)
Definition val64 (c : byte) : option N :=
  let n := code c in
  if ((65 <=? n) && (n <=? 90))%N then Some (n - 65)%N                  (* A-Z *)
  else if ((97 <=? n) && (n <=? 122))%N then Some (n - 71)%N            (* a-z *)
  else if ((48 <=? n) && (n <=? 57))%N then Some (n + 4)%N              (* 0-9 *)
  else if beq c "+"%char then Some 62%N else if beq c "/"%char then Some 63%N else None.
Definition byte_of (n : N) : byte := ascii_of_N n.
(** a reader of base 64 without line breaks *)
Fixpoint decode64 (t : list byte) : option (list byte) :=
  match t with
  | [] => Some []
  | a :: b :: c :: d :: rest =>
      match val64 a, val64 b, val64 c, val64 d with
      | Some x, Some y, Some z, Some w =>
          match decode64 rest with
          | Some l => Some (byte_of (x * 4 + y / 16) :: byte_of (y mod 16 * 16 + z / 4) :: byte_of (z mod 4 * 64 + w) :: l)
          | None => None
          end
      | Some x, Some y, Some z, None =>
          if beq d "="%char then match rest with [] => Some [byte_of (x * 4 + y / 16); byte_of (y mod 16 * 16 + z / 4)] | _ => None end else None
      | Some x, Some y, None, None =>
          if beq c "="%char && beq d "="%char then match rest with [] => Some [byte_of (x * 4 + y / 16)] | _ => None end else None
      | _, _, _, _ => None
      end
  | _ => None
  end.
Lemma digit64_ok n : (n < 64)%N -> val64 (digit64 n) = Some n /\ digit64 n <> NUL /\ digit64 n <> NL.
Proof.
  intros H. assert (C : forallb (fun k => let n := N.of_nat k in match val64 (digit64 n) with Some v => (v =? n)%N | None => false end && negb (beq (digit64 n) NUL) && negb (beq (digit64 n) NL)) (seq 0 64) = true) by (vm_compute; reflexivity).
  rewrite forallb_forall in C. specialize (C (N.to_nat n)). cbv zeta in C. rewrite N2Nat.id in C. specialize (C ltac:(apply in_seq; lia)).
  apply andb_prop in C as [C C3]. apply andb_prop in C as [C1 C2]. destruct (val64 (digit64 n)) as [v|]; [|discriminate]. apply N.eqb_eq in C1. subst v.
  split; [reflexivity|]. split; intros E; rewrite E in *; discriminate.
Qed.
Lemma code_lt b : (code b < 256)%N. Proof. destruct b as [[] [] [] [] [] [] [] []]; reflexivity. Qed.
Lemma byte_code b : byte_of (code b) = b. Proof. apply ascii_N_embedding. Qed.
Lemma part1 a r : (r < 65536)%N -> let n := (code a * 65536 + r)%N in (n / 262144 * 4 + n / 4096 mod 64 / 16 = code a)%N.
Proof. intros R n. subst n. zify. Z.div_mod_to_equations. lia. Qed.
Lemma part2 a b r : (r < 256)%N -> let n := (code a * 65536 + (code b * 256 + r))%N in (n / 4096 mod 64 mod 16 * 16 + n / 64 mod 64 / 4 = code b)%N.
Proof. intros R n. subst n. pose proof (code_lt a). pose proof (code_lt b). zify. Z.div_mod_to_equations. lia. Qed.
Lemma part3 a b c : let n := (code a * 65536 + (code b * 256 + code c))%N in (n / 64 mod 64 mod 4 * 64 + n mod 64 = code c)%N.
Proof. intros n. subst n. pose proof (code_lt a). pose proof (code_lt b). pose proof (code_lt c). zify. Z.div_mod_to_equations. lia. Qed.
Lemma top a r : (r < 65536)%N -> ((code a * 65536 + r) / 262144 < 64)%N.
Proof. intros R. pose proof (code_lt a). apply N.div_lt_upper_bound; lia. Qed.
Lemma dig n : val64 (digit64 (n mod 64)) = Some (n mod 64)%N.
Proof. apply digit64_ok, N.mod_lt. discriminate. Qed.
Lemma digtop a r : (r < 65536)%N -> val64 (digit64 ((code a * 65536 + r) / 262144)) = Some ((code a * 65536 + r) / 262144)%N.
Proof. intros R. apply digit64_ok, top, R. Qed.
Lemma enc3 a b c rest : encode64 (a :: b :: c :: rest) = let n := (code a * 65536 + (code b * 256 + code c))%N in
  digit64 (n / 262144) :: digit64 (n / 4096 mod 64) :: digit64 (n / 64 mod 64) :: digit64 (n mod 64) :: encode64 rest.
Proof. cbn [encode64]. rewrite <- N.add_assoc. reflexivity. Qed.
Lemma enc2 a b : encode64 [a; b] = let n := (code a * 65536 + (code b * 256 + 0))%N in
  [digit64 (n / 262144); digit64 (n / 4096 mod 64); digit64 (n / 64 mod 64); "="%char].
Proof. cbn [encode64]. rewrite N.add_0_r. reflexivity. Qed.
Lemma enc1 a : encode64 [a] = let n := (code a * 65536 + 0)%N in [digit64 (n / 262144); digit64 (n / 4096 mod 64); "="%char; "="%char].
Proof. cbn [encode64]. rewrite N.add_0_r. reflexivity. Qed.
Lemma triples (P : list byte -> Prop) : P [] -> (forall a, P [a]) -> (forall a b, P [a; b]) -> (forall a b c l, P l -> P (a :: b :: c :: l)) -> forall l, P l.
Proof.
  intros P0 P1 P2 P3 l. enough (G : forall n l, length l <= n -> P l) by (apply (G (length l)); lia).
  clear l. induction n as [|n IH]; intros l L; (destruct l as [|a [|b [|c l]]]; [exact P0|apply P1|apply P2|]); cbn in L; [lia|]. apply P3, IH. lia.
Qed.
Lemma decode_encode data : decode64 (encode64 data) = Some data.
Proof.
  induction data as [|a|a b|a b c rest IH] using triples.
  - reflexivity.
  - rewrite enc1. cbv zeta. cbn [decode64]. rewrite digtop, dig by lia. change (val64 "="%char) with (@None N). cbn [beq andb].
    rewrite (@part1 a 0) by lia. rewrite byte_code. reflexivity.
  - assert (R : (code b * 256 + 0 < 65536)%N) by (pose proof (code_lt b); lia).
    rewrite enc2. cbv zeta. cbn [decode64]. rewrite digtop, !dig by exact R. change (val64 "="%char) with (@None N).
    rewrite (@part1 a _ R), (@part2 a b 0) by lia. rewrite !byte_code. reflexivity.
  - assert (R : (code b * 256 + code c < 65536)%N) by (pose proof (code_lt b); pose proof (code_lt c); lia).
    rewrite enc3. cbv zeta. cbn [decode64]. rewrite digtop, !dig by exact R. rewrite IH.
    rewrite (@part1 a _ R), (@part2 a b _ (code_lt c)), part3, !byte_code. reflexivity.
Qed.
Lemma encode_length data : length (encode64 data) = 4 * ((length data + 2) / 3).
Proof.
  induction data as [|a|a b|a b c rest IH] using triples; try reflexivity.
  rewrite enc3. cbv zeta. cbn [length]. rewrite IH. replace (S (S (S (length rest))) + 2) with (length rest + 2 + 1 * 3) by lia. rewrite Nat.div_add by lia. lia.
Qed.
Lemma encode_plain data : Forall (fun c => c <> NUL /\ c <> NL) (encode64 data).
Proof.
  assert (EQ : "="%char <> NUL /\ "="%char <> NL) by (split; discriminate).
  assert (D : forall n, digit64 (n mod 64) <> NUL /\ digit64 (n mod 64) <> NL) by (intros n; apply digit64_ok, N.mod_lt; discriminate).
  assert (T : forall a r, (r < 65536)%N -> digit64 ((code a * 65536 + r) / 262144) <> NUL /\ digit64 ((code a * 65536 + r) / 262144) <> NL) by (intros a r R; apply digit64_ok, top, R).
  induction data as [|a|a b|a b c rest IH] using triples.
  - constructor.
  - rewrite enc1. cbv zeta. repeat constructor; try apply EQ; try apply D; apply T; lia.
  - pose proof (code_lt b). rewrite enc2. cbv zeta. repeat constructor; try apply EQ; try apply D; apply T; lia.
  - pose proof (code_lt b). pose proof (code_lt c). rewrite enc3. cbv zeta. repeat (constructor; [split; first [apply D|apply T; lia]|]). exact IH.
Qed.
(** the text cut into lines *)
Lemma lines64_spec : forall fuel text, length text <= fuel -> text <> [] ->
  exists ls z, concat (ls ++ [z]) = text /\ Forall (fun l => length l = 64) ls /\ 1 <= length z <= 64 /\ lines64 fuel text = join [NL] (ls ++ [z]) ++ [NL].
Proof.
  induction fuel as [|fuel IH]; intros text L N; [destruct text; [congruence|cbn in L; lia]|].
  assert (LP : 0 < length text) by (destruct text; [congruence|cbn; lia]).
  cbn [lines64]. replace (match text with [] => [] | _ :: _ => firstn 64 text ++ ascii_of_nat 10 :: lines64 fuel (skipn 64 text) end) with (firstn 64 text ++ NL :: lines64 fuel (skipn 64 text)) by (destruct text; [congruence|reflexivity]).
  destruct (Nat.le_gt_cases (length text) 64) as [S|S].
  - exists [], text. cbn [app concat join]. rewrite app_nil_r, firstn_all2, skipn_all2 by lia. repeat split; auto; try lia. destruct fuel; reflexivity.
  - destruct (IH (skipn 64 text)) as [ls [z [E [F [Z W]]]]]; [rewrite skipn_length; lia|intros E; apply (f_equal (@length _)) in E; rewrite skipn_length in E; cbn in E; lia|].
    exists (firstn 64 text :: ls), z. cbn [app concat]. rewrite E, firstn_skipn, W. repeat split; auto; try lia.
    + constructor; [rewrite firstn_length; lia|exact F].
    + destruct ls; cbn [app join]; rewrite <- !app_assoc; reflexivity.
Qed.
(** without the newlines *)
Definition unwrapped (t : list byte) : list byte := filter (fun c => negb (beq c NL)) t.
(** The result is a C string of lines of 64 characters (the last may be shorter, and has no newline), made of the digits and the padding of
    base 64; a reader of base 64 that skips the newlines gets the bytes back. *)
Theorem C125_StringEncodeBase64 data rest : data <> [] -> exists out ls z,
  StringEncodeBase64 (map Some data ++ rest) (length data) = Ok out /\
  out = block (join [NL] (ls ++ [z])) /\ is_cstr (join [NL] (ls ++ [z])) /\
  Forall (fun l => length l = 64) ls /\ 1 <= length z <= 64 /\
  concat (ls ++ [z]) = unwrapped (join [NL] (ls ++ [z])) /\
  length (concat (ls ++ [z])) = 4 * ((length data + 2) / 3) /\
  decode64 (unwrapped (join [NL] (ls ++ [z]))) = Some data.
Proof.
  intros N. unfold StringEncodeBase64. replace (length data =? 0) with false by (destruct data; [congruence|reflexivity]).
  rewrite firstn_app, map_length, Nat.sub_diag, firstn_O, app_nil_r, firstn_all2 by (rewrite map_length; lia).
  replace (existsb _ (map Some data)) with false by (clear; induction data; [reflexivity|assumption]).
  replace (length (map Some data ++ rest) <? length data) with false by (symmetry; apply Nat.ltb_ge; rewrite app_length, map_length; lia). cbn [orb].
  rewrite map_map, map_id. unfold bio_write.
  assert (EN : encode64 data <> []). { intros E. pose proof (encode_length data) as L. rewrite E in L. destruct data as [|? [|? [|? ?]]]; try congruence; discriminate. }
  destruct (@lines64_spec _ _ (Nat.le_refl _) EN) as [ls [z [E [F [Z W]]]]]. rewrite W. set (t := join [NL] (ls ++ [z])) in *.
  assert (U : concat (ls ++ [z]) = unwrapped t /\ is_cstr t).
  { pose proof (encode_plain data) as P. rewrite <- E in P. subst t. clear -P. generalize dependent (ls ++ [z]). clear ls z. intros ls P.
    induction ls as [|l [|m ls] IH]; [split; [reflexivity|intros []]| |].
    - cbn [concat join] in *. rewrite app_nil_r in *. split.
      + clear IH. unfold unwrapped. induction P as [|c l [_ C] P IH]; [reflexivity|]. cbn [filter]. destruct (beq_spec c NL); [congruence|]. cbn [negb]. f_equal. exact IH.
      + intros I. rewrite Forall_forall in P. apply P in I. tauto.
    - cbn [concat] in *. apply Forall_app in P as [P Q]. destruct (IH Q) as [I1 I2]. cbn [join] in *. split.
      + unfold unwrapped in *. rewrite !filter_app. rewrite <- I1. cbn [filter]. rewrite (beq_refl NL). cbn [negb app]. f_equal.
        clear -P. induction P as [|c l [_ C] P IH]; [reflexivity|]. cbn [filter]. destruct (beq_spec c NL); [congruence|]. cbn [negb]. f_equal. exact IH.
      + unfold is_cstr in *. rewrite !in_app_iff. rewrite Forall_forall in P. intros [I|[I|I]]; [apply P in I; tauto|destruct I as [I|[]]; discriminate|tauto]. }
  exists (block t), ls, z. destruct U as [U1 U2]. split; [|repeat split; auto; try lia].
  - rewrite app_length. cbn [length]. replace (length t + 1 - 1) with (length t) by lia.
    assert (AC : acopy (calloc (length t + 1)) 0 (map Some (t ++ [NL])) 0 (length t) = Ok (map Some t ++ [Some NUL])).
    { rewrite acopy_Ok by (unfold calloc; rewrite ?repeat_length, ?map_length, ?app_length; cbn; lia). cbn [firstn skipn app Nat.add]. f_equal.
      rewrite map_app, firstn_app, map_length, Nat.sub_diag, firstn_O, app_nil_r, firstn_all2 by (rewrite map_length; lia). f_equal.
      unfold calloc. rewrite repeat_app, skipn_app, repeat_length, Nat.sub_diag, skipn_all2 by (rewrite repeat_length; lia). reflexivity. }
    rewrite AC. cbn [bind]. replace (length t) with (length (map Some t)) by apply map_length. rewrite aset_at, block_eq. reflexivity.
  - rewrite E. apply encode_length.
  - fold t. rewrite <- U1, E. apply decode_encode.
Qed.
(** the empty text for no bytes *)
Theorem C125_empty str : StringEncodeBase64 str 0 = Ok (block []).
Proof. reflexivity. Qed.
(** different data, different texts *)
Theorem C125_injective a b ra rb out : StringEncodeBase64 (map Some a ++ ra) (length a) = Ok out -> StringEncodeBase64 (map Some b ++ rb) (length b) = Ok out -> a = b.
Proof.
  assert (BI : forall x y, block x = block y -> x = y).
  { intros x y E. unfold block in E. assert (MI : forall u v : list byte, map Some u = map Some v -> u = v) by (induction u as [|c u IH]; intros [|d v] E'; try discriminate; [reflexivity|]; injection E' as <- E'; f_equal; auto).
    apply MI, app_inj_tail in E. tauto. }
  assert (NE : forall c ls z, 1 <= length z -> block [] <> block (join [c] (ls ++ [z]))).
  { intros c ls z Z E. apply BI in E. destruct ls as [|l [|m ls]]; cbn [app join] in E; [rewrite <- E in Z; cbn in Z; lia| |]; destruct l; discriminate. }
  intros EA EB. destruct a as [|a0 a], b as [|b0 b]; [reflexivity| | |].
  - destruct (@C125_StringEncodeBase64 (b0 :: b) rb) as (o & ls & z & E & O & _ & _ & Z & _); [discriminate|]. rewrite E in EB. cbn in EA. exfalso.
    apply (@NE NL ls z); [lia|]. rewrite <- O. injection EA as EA. injection EB as EB. rewrite EB, <- EA. reflexivity.
  - destruct (@C125_StringEncodeBase64 (a0 :: a) ra) as (o & ls & z & E & O & _ & _ & Z & _); [discriminate|]. rewrite E in EA. cbn in EB. exfalso.
    apply (@NE NL ls z); [lia|]. rewrite <- O. injection EA as EA. injection EB as EB. rewrite EA, <- EB. reflexivity.
  - destruct (@C125_StringEncodeBase64 (a0 :: a) ra) as (o & ls & z & E & O & _ & _ & _ & _ & _ & D); [discriminate|].
    destruct (@C125_StringEncodeBase64 (b0 :: b) rb) as (o' & ls' & z' & E' & O' & _ & _ & _ & _ & _ & D'); [discriminate|].
    rewrite E in EA. rewrite E' in EB. injection EA as ->. injection EB as ->. rewrite O in O'. apply BI in O'. rewrite O' in D. rewrite D in D'. injection D' as <- <-. reflexivity.
Qed.
Example C125_nonvacuous : StringEncodeBase64 (block (lit "hello")) 5 = Ok (block (lit "aGVsbG8=")) /\ decode64 (lit "aGVsbG8=") = Some (lit "hello") /\
  decode64 (lit "aGVsbG8") = None /\ (exists out, StringEncodeBase64 (map Some (repeat "x"%char 49)) 49 = Ok out /\ holds out (concat (repeat (lit "eHh4") 16) ++ [NL] ++ lit "eA==")).
Proof.
  split; [reflexivity|]. split; [reflexivity|]. split; [reflexivity|]. eexists. split; [reflexivity|]. split; [unfold is_cstr, NUL; cbn; intuition discriminate|exists []; reflexivity].
Qed.
Print Assumptions C125_StringEncodeBase64.
Print Assumptions C125_empty.
Print Assumptions C125_injective.
