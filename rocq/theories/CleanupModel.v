(** Model of libutils/cleanup.c in the interleaving semantics of ConcModel.v: every CAct
    is one C statement, and other threads run between any two of them. *)
From Verif Require Import Prelude ConcModel.
Set Implicit Arguments.

Section Cleanup.
(** the registered functions; [reenters f]: calling f calls RegisterCleanupFunction or
    CallCleanupFunctions *)
Variable F : Type.
Variable reenters : F -> bool.

(** libutils/cleanup.c:29-33 CleanupList; the fields of fresh memory are indeterminate *)
Record cnode := mkCN { cfn : option F; cnext : option (option nat) }.
(** the heap of list nodes, the next unused address and cleanup_functions *)
Record cstate := mkCS { cheap : nat -> option cnode; cfresh : nat; chead : option nat }.
Definition cinit : cstate := mkCS (fun _ => None) 0 None.
Definition hput (h : nat -> option cnode) (p : nat) (n : option cnode) : nat -> option cnode :=
  fun q => if q =? p then n else h q.
Definition load (s : cstate) (p : nat) : res cnode := match cheap s p with Some n => Ok n | None => UB end.
Definition load_fn (s : cstate) (p : nat) : res F := let* n := load s p in match cfn n with Some f => Ok f | None => UB end.
Definition load_next (s : cstate) (p : nat) : res (option nat) := let* n := load s p in match cnext n with Some q => Ok q | None => UB end.

Inductive cop := Register (f : F) | CallAll.
(** program counters with the local variables; [acc] records the functions this call of
    CallCleanupFunctions has run so far, which is what it returns in the model *)
Inductive cpc :=
| CuLock (l : cpc) | CuUnlock (r : list F) | CuRet (r : list F)
| CuAlloc (f : F) | CuSetFn (f : F) (p : nat) | CuSetNext (p : nat) | CuSetHead (p : nat)
| CuStart | CuLoop (p : option nat) (acc : list F) | CuRun (cur : nat) (acc : list F)
| CuNext (cur : nat) (acc : list F) | CuFree (cur : nat) (p : option nat) (acc : list F) | CuNull (acc : list F).

Definition or_fail {A} (d : A) (x : res A) : A := match x with Ok a => a | _ => d end.
(** libutils/cleanup.c:39-55 CallCleanupFunctions and libutils/cleanup.c:63-74 RegisterCleanupFunction,
    statement by statement.  A cleanup function that locks the mutex its caller holds
    never returns: its call counts as going wrong. *)
Definition ccode (l : cpc) : cmd cstate cpc unit (list F) :=
  match l with
  | CuLock l => CLock l
  | CuUnlock r => CUnlock (CuRet r)
  | CuRet r => CRet r
  | CuAlloc f => CAct (fun s => Ok (mkCS (hput (cheap s) (cfresh s) (Some (mkCN None None))) (S (cfresh s)) (chead s)))
                      (fun s => CuSetFn f (cfresh s))
  | CuSetFn f p => CAct (fun s => let* n := load s p in Ok (mkCS (hput (cheap s) p (Some (mkCN (Some f) (cnext n)))) (cfresh s) (chead s)))
                        (fun _ => CuSetNext p)
  | CuSetNext p => CAct (fun s => let* n := load s p in Ok (mkCS (hput (cheap s) p (Some (mkCN (cfn n) (Some (chead s))))) (cfresh s) (chead s)))
                        (fun _ => CuSetHead p)
  | CuSetHead p => CAct (fun s => Ok (mkCS (cheap s) (cfresh s) (Some p))) (fun _ => CuUnlock [])
  | CuStart => CAct (fun s => Ok s) (fun s => CuLoop (chead s) [])
  | CuLoop p acc => CAct (fun s => Ok s) (fun _ => match p with Some cur => CuRun cur acc | None => CuNull acc end)
  | CuRun cur acc => CAct (fun s => let* f := load_fn s cur in if reenters f then Fuel else Ok s)
                          (fun s => CuNext cur (match load_fn s cur with Ok f => acc ++ [f] | _ => acc end))
  | CuNext cur acc => CAct (fun s => let* _ := load_next s cur in Ok s)
                           (fun s => CuFree cur (or_fail None (load_next s cur)) acc)
  | CuFree cur p acc => CAct (fun s => let* _ := load s cur in Ok (mkCS (hput (cheap s) cur None) (cfresh s) (chead s)))
                             (fun _ => CuLoop p acc)
  | CuNull acc => CAct (fun s => Ok (mkCS (cheap s) (cfresh s) None)) (fun _ => CuUnlock acc)
  end.
Definition centry (o : cop) : cpc :=
  CuLock (match o with Register f => CuAlloc f | CallAll => CuStart end).
End Cleanup.
Arguments CallAll {F}. Arguments Register {F}. Arguments CuStart {F}.
