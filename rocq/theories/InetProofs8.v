(** Canonical texts are texts of the address. *)
From Verif Require Import Prelude PreludeFacts Str StrFacts Libc LibcFacts MemSpec IpModel IpSpec InetModel InetSpec InetProofs InetProofs2 InetProofs5 InetProofs6 InetProofs7 EditProofs PropsIp6.
Set Implicit Arguments.
Local Open Scope N_scope.

Lemma short_hex g v : short_group g v -> hex_group g v.
Proof.
  intros [(ds & NE & F & -> & V & LE) SH]. exists (length ds). split.
  - split; [destruct ds; [congruence|cbn; lia]|]. destruct (Nat.le_gt_cases (length ds) 4) as [|G]; [assumption|exfalso].
    destruct ds as [|d ds]; [congruence|]. cbn [length] in G. assert (D : (d < 16)%nat) by (inversion F; assumption). destruct d as [|d].
    + cbn [map nth hd hexdigits lit String.list_ascii_of_string] in SH. unfold short in SH. cbn [hd] in SH. specialize (SH eq_refl). assert (length ds = 0)%nat; [|lia]. apply (f_equal (@length byte)) in SH. cbn in SH. rewrite map_length in SH. lia.
    + cbn [fold_left] in V. pose proof (fold_low ds (16 * 0 + N.of_nat (S d))) as FL. rewrite <- V in FL.
      assert (P : 16 ^ 4 <= 16 ^ N.of_nat (length ds)) by (apply N.pow_le_mono_r; lia). change (16 ^ 4) with 65536 in P. nia.
  - split; [now rewrite map_length|]. exists ds. split; [|exact V]. clear - F. induction F; cbn [map]; constructor; auto.
Qed.
Lemma shorts_hex gs vs : Forall2 short_group gs vs -> Forall2 hex_group gs vs.
Proof. induction 1; constructor; auto. now apply short_hex. Qed.
Lemma hex_words gs vs : Forall2 hex_group gs vs -> words hex_group gs vs.
Proof. induction 1; [constructor|now apply words_group]. Qed.
Lemma zeros_repeat vs l : forall b, zeros_at vs b l -> firstn l (skipn b vs) = repeat 0 l.
Proof.
  intros b [L Z]. apply nth_ext with (d := 1) (d' := 1); [rewrite firstn_length, skipn_length, repeat_length; lia|]. intros i I. rewrite firstn_length, skipn_length in I.
  rewrite nth_firstn by lia. rewrite nth_skipn. rewrite Z by lia. rewrite nth_indep with (d' := 0) by (rewrite repeat_length; lia). now rewrite nth_repeat.
Qed.
Lemma zeros_split vs b l : zeros_at vs b l -> vs = firstn b vs ++ repeat 0 l ++ skipn (b + l) vs.
Proof. intros Z. rewrite <- (zeros_repeat Z), <- (firstn_skipn b vs) at 1. f_equal. rewrite <- (firstn_skipn l (skipn b vs)) at 1. f_equal. rewrite skipn_skipn. f_equal; lia. Qed.
Lemma half_join x : 256 * (x / 256) + x mod 256 = x.
Proof. symmetry. apply N.div_mod. lia. Qed.

Lemma canonical_text vs s : length vs = 8%nat -> canonical6 vs s -> text6 s vs.
Proof.
  intros L C. destruct C as [gs _ F|b l pre post (L2 & Z & _) _ _ F1 F2|q x y (L2 & Z & _) SK Q|q x y (L2 & Z & _) SK Q].
  - left. exists gs. split; [now apply hex_words, shorts_hex|]. auto.
  - right. pose proof Z as [ZL _]. exists pre, (firstn b vs), post, (skipn (b + l) vs). split; [now apply shorts_hex|]. split; [now apply hex_words, shorts_hex|].
    rewrite firstn_length, skipn_length. split; [lia|]. split; [reflexivity|]. unfold expanded. rewrite firstn_length, skipn_length. replace (8 - Nat.min b (length vs) - (length vs - (b + l)))%nat with l by lia. now apply zeros_split.
  - right. exists [], [], [q], [x; y]. split; [constructor|]. split; [rewrite <- (half_join x), <- (half_join y); apply words_quad; now apply short_quad_quad|]. split; [cbn; lia|]. split; [reflexivity|].
    rewrite (zeros_split Z). cbn [Nat.add firstn app]. rewrite SK. reflexivity.
  - right. exists [], [], [lit "ffff"; q], [65535; x; y]. split; [constructor|]. split.
    + apply words_group; [|rewrite <- (half_join x), <- (half_join y); apply words_quad; now apply short_quad_quad].
      exists 4%nat. split; [lia|]. split; [reflexivity|]. exists [15; 15; 15; 15]%nat. split; [|reflexivity]. repeat constructor; cbn; auto; lia.
    + split; [cbn; lia|]. split; [reflexivity|]. rewrite (zeros_split Z). cbn [Nat.add firstn app]. rewrite SK. reflexivity.
Qed.

(** every 16 bytes are the bytes of eight words *)
Fixpoint words_of (bs : list N) : list N := match bs with a :: b :: bs => 256 * a + b :: words_of bs | _ => [] end.
Lemma words_of_bytes n : forall bs, length bs = (2 * n)%nat -> Forall (fun v => v <= 255) bs ->
  bytes_of (words_of bs) = bs /\ length (words_of bs) = n /\ Forall (fun v => v <= 65535) (words_of bs).
Proof.
  induction n as [|n IH]; intros bs L F; [destruct bs; [cbn; auto|discriminate L]|]. destruct bs as [|a [|b bs]]; [cbn in L; lia|cbn in L; lia|].
  inversion F as [|? ? A F']; subst. inversion F' as [|? ? B F'']; subst. destruct (IH bs) as (E & LW & FW); [cbn in L; lia|assumption|]. cbn [words_of]. split; [|split; [cbn; lia|constructor; [lia|assumption]]].
  change (bytes_of (256 * a + b :: words_of bs)) with ((256 * a + b) / 256 :: (256 * a + b) mod 256 :: bytes_of (words_of bs)). rewrite E. f_equal; [|f_equal].
  - symmetry. apply (N.div_unique _ _ _ b); lia.
  - symmetry. apply (N.mod_unique _ _ a b); lia.
Qed.
Lemma words_of_bytes_of vs : Forall (fun v => v <= 65535) vs -> words_of (bytes_of vs) = vs.
Proof. induction 1 as [|v vs V F IH]; [reflexivity|]. cbn [bytes_of flat_map app words_of]. fold (bytes_of vs). rewrite half_join, IH. reflexivity. Qed.
Lemma bytes_of_inj vs ws : Forall (fun v => v <= 65535) vs -> Forall (fun v => v <= 65535) ws -> bytes_of vs = bytes_of ws -> vs = ws.
Proof. intros F G E. rewrite <- (words_of_bytes_of F), E. now apply words_of_bytes_of. Qed.
Lemma bytes_of_length vs : length (bytes_of vs) = (2 * length vs)%nat.
Proof. induction vs as [|v vs IH]; [reflexivity|]. cbn [bytes_of flat_map app length]. fold (bytes_of vs). lia. Qed.
Lemma bytes_of_small vs : Forall (fun v => v <= 65535) vs -> Forall (fun v => v <= 255) (bytes_of vs).
Proof. induction 1 as [|v vs V F IH]; [constructor|]. cbn [bytes_of flat_map app]. fold (bytes_of vs). destruct (half_bytes V). repeat constructor; auto. Qed.

Lemma canonical_length vs s : length vs = 8%nat -> Forall (fun v => v <= 65535) vs -> s = ftext6 vs (best_run vs) -> (length s <= 45)%nat.
Proof.
  intros L F ->. destruct (@format_spec vs [] (best_run vs) L F) with (k := 8%nat) (i := 0%nat) (done := @nil byte) (r := repeat (@None byte) 46) as (r & _ & _ & L2); [|reflexivity|reflexivity|cbn; lia|].
  - pose proof (best_run_spec vs L) as B. destruct (best_run vs) as [[b l]|]; [|exact Logic.I]. destruct B as (B1 & [B2 _] & _). lia.
  - unfold ftext6. cbn [app] in L2. rewrite app_length. destruct (match best_run vs with Some (b, l) => (b + l =? 8)%nat | None => false end); cbn [length lit String.list_ascii_of_string]; lia.
Qed.
Lemma cstr_app a b : is_cstr a -> is_cstr b -> is_cstr (a ++ b).
Proof. unfold is_cstr. intros A B I. apply in_app_or in I as [I|I]; auto. Qed.
Lemma colon_cstr : is_cstr (lit ":"). Proof. unfold is_cstr, NUL; cbn; intuition discriminate. Qed.
Lemma ftext_cstr vs best : length vs = 8%nat -> Forall (fun v => v <= 65535) vs -> forall k i, is_cstr (ftext k i vs best).
Proof.
  intros L F. induction k as [|k IH]; intros i; cbn [ftext]; [intros []|]. destruct (inside best i).
  - apply cstr_app; [destruct (begins best i); [apply colon_cstr|intros []]|apply IH].
  - apply cstr_app; [destruct (negb _); [apply colon_cstr|intros []]|]. destruct (embedded best _ i).
    + unfold last_dots. destruct (half_bytes (word_small L F 6)) as [A1 A2]. destruct (half_bytes (word_small L F 7)) as [A3 A4]. apply (dots_quad A1 A2 A3 A4).
    + apply cstr_app; [apply (uhex_short (word_small L F i))|apply IH].
Qed.
Lemma ftext6_cstr vs best : length vs = 8%nat -> Forall (fun v => v <= 65535) vs -> is_cstr (ftext6 vs best).
Proof. intros L F. unfold ftext6. apply cstr_app; [now apply ftext_cstr|]. destruct (match best with Some (b, l) => (b + l =? 8)%nat | None => false end); [apply colon_cstr|intros []]. Qed.
