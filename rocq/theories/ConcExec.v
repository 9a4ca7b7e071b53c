(** An executable scheduler for the machine of ConcModel.v, to exhibit concrete schedules. *)
From Verif Require Import Prelude PreludeFacts ConcModel.
Set Implicit Arguments.

Section X.
Variables S L C Op R : Type.
Variable ceqb : C -> C -> bool.
Variable code : L -> cmd S L C R.
Variable entry : Op -> L.
Notation mst := (mstate S L C Op).

(** Call t op; Go t: thread t executes its next statement (or reacquires the mutex);
    Wake t t2: thread t signals and thread t2 is woken; Tmo t: the timed wait of t expires *)
Inductive choice := Call (t : nat) (op : Op) | Go (t : nat) | Wake (t t2 : nat) | Tmo (t : nat).
Definition exec1 (m : mst) (c : choice) : option (mst * list (event Op R)) :=
  match c with
  | Call t op => match nth_error (th m) t with
      | Some Idle => Some (mkM (sh m) (lk m) (upd (th m) t (Run op (entry op))), [ECall t op])
      | _ => None end
  | Go t => match nth_error (th m) t with
      | Some (Run op l) =>
        match code l with
        | CRet r => Some (mkM (sh m) (lk m) (upd (th m) t Idle), [ERet t r])
        | CLock l' => match lk m with None => Some (mkM (sh m) (Some t) (upd (th m) t (Run op l')), []) | _ => None end
        | CUnlock l' => Some (mkM (sh m) None (upd (th m) t (Run op l')), [])
        | CAct f k => match f (sh m) with Ok s' => Some (mkM s' (lk m) (upd (th m) t (Run op (k (sh m)))), []) | _ => None end
        | CSignal c l' => if existsb (sleeps_on ceqb c) (th m) then None else Some (mkM (sh m) (lk m) (upd (th m) t (Run op l')), [])
        | CBroadcast c l' => Some (mkM (sh m) (lk m) (map (wake ceqb c) (upd (th m) t (Run op l'))), [])
        | CWait c tm lo lt => Some (mkM (sh m) None (upd (th m) t (Sleep op c tm lo lt)), [])
        end
      | Some (Waking op c b l) => match lk m with None => Some (mkM (sh m) (Some t) (upd (th m) t (Run op l)), []) | _ => None end
      | _ => None end
  | Wake t t2 => match nth_error (th m) t, nth_error (th m) t2 with
      | Some (Run op l), Some x =>
        match code l with
        | CSignal c l' => if sleeps_on ceqb c x then Some (mkM (sh m) (lk m) (upd (upd (th m) t (Run op l')) t2 (wake ceqb c x)), []) else None
        | _ => None end
      | _, _ => None end
  | Tmo t => match nth_error (th m) t with
      | Some (Sleep op c true lo lt) => Some (mkM (sh m) (lk m) (upd (th m) t (Waking op c true lt)), [])
      | _ => None end
  end.
Lemma exec1_step m c m' e : exec1 m c = Some (m', e) -> step ceqb code entry m e m'.
Proof.
  destruct c as [t op|t|t t2|t]; simpl; destruct (nth_error (th m) t) as [[|op0 l|op0 c tm lo lt|op0 c b l]|] eqn:E; try discriminate.
  - intros H. injection H as <- <-. apply S_call. auto.
  - destruct (code l) eqn:Ec.
    + destruct (lk m) eqn:El; try discriminate. intros H. injection H as <- <-. eapply S_lock; eauto.
    + intros H. injection H as <- <-. eapply S_unlock; eauto.
    + destruct (f (sh m)) eqn:Ef; try discriminate. intros H. injection H as <- <-. eapply S_act; eauto.
    + destruct (existsb _ _) eqn:Ex; try discriminate. intros H. injection H as <- <-. eapply S_signal_none; eauto.
    + intros H. injection H as <- <-. eapply S_broadcast; eauto.
    + intros H. injection H as <- <-. eapply S_wait; eauto.
    + intros H. injection H as <- <-. eapply S_ret; eauto.
  - destruct (lk m) eqn:El; try discriminate. intros H. injection H as <- <-. eapply S_relock; eauto.
  - destruct (nth_error (th m) t2) as [x|] eqn:E2; try discriminate. destruct (code l) eqn:Ec; try discriminate.
    destruct (sleeps_on ceqb c x) eqn:Es; try discriminate. intros H. injection H as <- <-. eapply S_signal_one; eauto.
  - destruct tm; try discriminate. intros H. injection H as <- <-. eapply S_timeout; eauto.
Qed.
Fixpoint exec (m : mst) (cs : list choice) : option (mst * list (event Op R)) :=
  match cs with
  | [] => Some (m, [])
  | c :: cs => match exec1 m c with
      | Some (m1, e) => match exec m1 cs with Some (m2, h) => Some (m2, e ++ h) | None => None end
      | None => None end
  end.
Lemma steps_cons m e m1 h m2 : step ceqb code entry m e m1 -> steps ceqb code entry m1 h m2 -> steps ceqb code entry m (e ++ h) m2.
Proof.
  intros H H2. revert H. induction H2; intros Hs.
  - rewrite app_nil_r. change e with ([] ++ e). eapply steps_app; [constructor|auto].
  - rewrite app_assoc. eapply steps_app; [apply IHsteps; auto|auto].
Qed.
Lemma exec_steps : forall cs m m' h, exec m cs = Some (m', h) -> steps ceqb code entry m h m'.
Proof.
  induction cs as [|c cs IH]; intros m m' h; simpl.
  - intros H. injection H as <- <-. constructor.
  - destruct (exec1 m c) as [[m1 e]|] eqn:E1; try discriminate. destruct (exec m1 cs) as [[m2 h2]|] eqn:E2; try discriminate.
    intros H. injection H as <- <-. eapply steps_cons; eauto using exec1_step.
Qed.
End X.
Arguments Call {Op}. Arguments Go {Op}. Arguments Wake {Op}. Arguments Tmo {Op}.
