(** A check that a template is well formed. *)
From Verif Require Import Prelude PreludeFacts Str StrFacts Libc LibcFacts JsonModel MustModel MustSpec MustProofs MustRender MustRun.
Set Implicit Arguments.
Local Open Scope char_scope.

Definition free_ofb (d s after : list byte) : bool := forallb (fun i => negb (prefixb d (skipn i (s ++ after)))) (seq 0 (length s)).
Lemma free_ofb_ok d s after : free_ofb d s after = true -> free_of d s after.
Proof. intros H i L. unfold free_ofb in H. rewrite forallb_forall in H. apply Bool.negb_true_iff. apply H. apply in_seq. lia. Qed.
Definition line_startb (before : list byte) : bool := match rev before with [] => true | c :: _ => beq c B_n end.
Lemma line_startb_ok before : line_startb before = true -> line_start before.
Proof.
  unfold line_startb, line_start. destruct (rev before) as [|c r] eqn:E; intros H.
  - left. rewrite <- (rev_involutive before), E. reflexivity.
  - right. apply beq_true in H. subst c. exists (rev r). rewrite <- (rev_involutive before), E. reflexivity.
Qed.
Lemma blanksb_ok s : forallb blankb s = true -> blanks s.
Proof. intros H. apply Forall_forall. intros c X. rewrite forallb_forall in H. apply blankb_spec, H, X. Qed.
Lemma trailingb_ok s : forallb (fun c => blankb c || beq c B_r) s = true -> trailing s.
Proof. intros H. apply Forall_forall. intros c X. rewrite forallb_forall in H. specialize (H c X). apply Bool.orb_true_iff in H as [H|H]; [left; apply blankb_spec, H|right; apply beq_true, H]. Qed.
Definition cstrb (s : list byte) : bool := forallb (fun c => negb (beq c NUL)) s.
Lemma cstrb_ok s : cstrb s = true -> is_cstr s.
Proof. intros H X. unfold cstrb in H. rewrite forallb_forall in H. specialize (H _ X). rewrite beq_refl in H. discriminate. Qed.
Definition inlineb (before after : list byte) : bool :=
  match scan_back (length before) before 0 with
  | None => true
  | Some _ => match scan_fwd (S (length after)) after 0 with Ok None => true | _ => false end
  end.
Lemma inlineb_ok before after : is_cstr after -> inlineb before after = true -> ~ alone_on_line before after.
Proof.
  intros C H [[b [l [EB [LS BL]]]] [tr [TR EA]]]. unfold inlineb in H. subst before.
  pose proof (@scan_back_own b l [] 0 LS BL (fun _ _ => eq_refl)) as SB. rewrite app_nil_r in SB. rewrite SB in H.
  destruct (@scan_fwd_cases (S (length after)) [] after C (Nat.lt_succ_diag_r _)) as [[tr' [T' [E1 E2]]]|[[tr' [r' [T' [E1 E2]]]]|[E2 N]]]; cbn [app length] in E2.
  - rewrite E2 in H. discriminate.
  - rewrite E2 in H. discriminate.
  - destruct (N tr TR) as [N1 N2]. destruct EA as [EA|[r EA]]; [exact (N1 EA)|exact (N2 r EA)].
Qed.
Definition layout_okb (before : list byte) (lay : layout) (after : list byte) : bool :=
  match lay with
  | Inline => inlineb before after
  | OwnLine ind tr nl => forallb blankb ind && forallb (fun c => blankb c || beq c B_r) tr && line_startb before && (nl || match after with [] => true | _ => false end)
  end.
Fixpoint pieces_okb (before : list byte) (ps : list piece) : bool :=
  match ps with
  | [] => true
  | p :: r =>
      match p with
      | PText s => free_ofb (lit "{{") s (shows r)
      | PVar _ => true
      | PTag lay _ => layout_okb before lay (shows r)
      end && pieces_okb (before ++ show p) r
  end.
Lemma pieces_okb_ok ps before : is_cstr (shows ps) -> pieces_okb before ps = true -> forall ps1 p ps2, ps = ps1 ++ p :: ps2 -> piece_ok (before ++ shows ps1) p (shows ps2).
Proof.
  revert before. induction ps as [|x ps IH]; intros before C H ps1 p ps2 E; [destruct ps1; discriminate|]. cbn [pieces_okb] in H. apply Bool.andb_true_iff in H as [H1 H2].
  rewrite shows_cons in C. apply is_cstr_app in C as [_ C]. destruct ps1 as [|y ps1]; cbn [app] in E; injection E as <- E.
  - subst ps2. change (shows []) with (@nil byte). rewrite app_nil_r. destruct x as [s|c|lay c]; cbn [piece_ok]; [apply free_ofb_ok, H1|exact Logic.I|].
    destruct lay as [|i tr nl]; cbn [layout_okb layout_ok] in *; [apply inlineb_ok; assumption|].
    apply Bool.andb_true_iff in H1 as [H1 HN]. apply Bool.andb_true_iff in H1 as [H1 HL]. apply Bool.andb_true_iff in H1 as [HI HT].
    split; [apply blanksb_ok, HI|]. split; [apply trailingb_ok, HT|]. split; [apply line_startb_ok, HL|]. destruct nl; [left; reflexivity|right]. destruct (shows ps); [reflexivity|discriminate].
  - rewrite shows_cons, app_assoc. apply IH; assumption.
Qed.
Definition trimmedb (s : list byte) : bool :=
  match s with [] => true | c :: _ => negb (blankb c) && match rev s with [] => true | d :: _ => negb (blankb d) end end.
Lemma trimmedb_ok s : trimmedb s = true -> trimmed s.
Proof.
  intros H a c b E [-> | ->] B; apply blankb_spec in B; subst s; cbn [trimmedb app] in H.
  - rewrite B in H. discriminate.
  - unfold trimmedb in H. destruct (a ++ [c]) as [|x r] eqn:E; [destruct a; discriminate|]. rewrite <- E, rev_app_distr in H. cbn [rev app] in H. rewrite B in H. cbn in H. rewrite Bool.andb_comm in H. discriminate.
Qed.
Definition label_okb (l : label) : bool := forallb blankb (pad_l l) && forallb blankb (pad_r l) && trimmedb (lname l).
Lemma label_okb_ok l : label_okb l = true -> label_ok l.
Proof. intros H. apply Bool.andb_true_iff in H as [H HT]. apply Bool.andb_true_iff in H as [HL HR]. split; [apply blanksb_ok, HL|]. split; [apply blanksb_ok, HR|apply trimmedb_ok, HT]. Qed.
Definition componentb (s : list byte) : bool := existsb (fun c => negb (beq c ".")) s.
Lemma componentb_ok s : componentb s = true -> has_component s.
Proof. intros H. apply existsb_exists in H as [c [I N]]. exists c. split; [exact I|]. apply beq_false, Bool.negb_true_iff, N. Qed.
Definition closedb (c : list byte) : bool := free_ofb (lit "}}") c (lit "}}").
Definition sigilb (c : byte) : bool := existsb (beq c) ["#"; "^"; "/"; "!"; "="; "{"; "&"; "%"; "$"].
Lemma sigilb_ok c : sigilb c = false -> ~ is_sigil c.
Proof. intros H X. apply Bool.not_true_iff_false in H. apply H. apply existsb_exists. exists c. split; [exact X|apply beq_refl]. Qed.
Fixpoint node_okb (n : node) : bool :=
  match n with
  | Text _ => true
  | Var k l =>
      label_okb l && (match lname l with [] => true | _ => bytes_eqb (lname l) ["."] || componentb (lname l) end) &&
      match k with
      | Escaped => closedb (inner l) && match inner l with c :: _ => negb (sigilb c) | [] => true end
      | Raw => forallb (fun c => negb (beq c "}")) (inner l)
      | _ => closedb (inner l)
      end
  | Comment _ s => closedb s
  | Section _ _ l body _ c => label_okb l && componentb (lname l) && closedb (inner l) && closedb c && forallb node_okb body
  end.
Lemma node_okb_ok n : node_okb n = true -> node_ok n.
Proof.
  induction n as [s|k l|lay s|inv lay l body lay2 c IH] using node_ind'; intros H.
  - exact Logic.I.
  - cbn [node_okb] in H. apply Bool.andb_true_iff in H as [H HK]. apply Bool.andb_true_iff in H as [HL HN]. split; [apply label_okb_ok, HL|]. split.
    + destruct (lname l) as [|x r]; [left; reflexivity|right]. apply Bool.orb_true_iff in HN as [HN|HN]; [left; apply bytes_eqb_eq, HN|right; apply componentb_ok, HN].
    + destruct k; try (apply free_ofb_ok, HK).
      * apply Bool.andb_true_iff in HK as [HC HS]. split; [apply free_ofb_ok, HC|]. intros x r E. rewrite E in HS. apply sigilb_ok, Bool.negb_true_iff, HS.
      * intros X. rewrite forallb_forall in HK. specialize (HK _ X). rewrite beq_refl in HK. discriminate.
  - apply free_ofb_ok, H.
  - cbn [node_okb] in H. apply Bool.andb_true_iff in H as [H HB]. apply Bool.andb_true_iff in H as [H HC]. apply Bool.andb_true_iff in H as [H HI]. apply Bool.andb_true_iff in H as [HL HN].
    apply node_ok_section. split; [apply label_okb_ok, HL|]. split; [apply componentb_ok, HN|]. split; [apply free_ofb_ok, HI|]. split; [apply free_ofb_ok, HC|].
    rewrite forallb_forall in HB. rewrite Forall_forall in *. intros x X. apply IH; auto.
Qed.
Definition template_okb (ns : list node) : bool := cstrb (print ns) && forallb node_okb ns && pieces_okb [] (flats ns).
Theorem template_okb_ok ns : template_okb ns = true -> template_ok ns.
Proof.
  intros H. apply Bool.andb_true_iff in H as [H HP]. apply Bool.andb_true_iff in H as [HC HN]. apply cstrb_ok in HC.
  split; [exact HC|]. split; [apply Forall_forall; intros n X; rewrite forallb_forall in HN; apply node_okb_ok, HN, X|]. apply (@pieces_okb_ok _ [] HC HP).
Qed.
