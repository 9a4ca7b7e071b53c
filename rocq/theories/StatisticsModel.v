(** Model of libutils/statistics.c and of libcompat/round.c.  A double is a rational number (infinities, NaN and
    the sign of zero are left out); every operation on doubles is the exact one followed by [rnd], which stands for
    the rounding of the machine. *)
From Coq Require Import QArith Qround.
From Verif Require Import Prelude.
Set Implicit Arguments.
Local Open Scope Q_scope.

Section Rounding.
Variable rnd : Q -> Q.
Definition fadd (x y : Q) : Q := rnd (x + y).
Definition fsub (x y : Q) : Q := rnd (x - y).
Definition fmul (x y : Q) : Q := rnd (x * y).

(** libutils/statistics.h:28-34 QPoint *)
Record QPoint := mkQP { qp_q : Q; qp_expect : Q; qp_var : Q; qp_dq : Q }.
(** libutils/statistics.c:31-35 GAverage *)
Definition GAverage (anew aold p : Q) : Q := fadd (fmul p anew) (fmul (fsub 1 p) aold).
(** libutils/statistics.c:44-57 QAverage *)
Definition QAverage (old : QPoint) (new_q p : Q) : QPoint :=
  let devsquare := fmul (fsub new_q (qp_expect old)) (fsub new_q (qp_expect old)) in
  {| qp_q := new_q;
     qp_dq := fsub new_q (qp_q old);
     qp_expect := GAverage new_q (qp_expect old) p;
     qp_var := GAverage devsquare (qp_var old) p |}.
(** libutils/statistics.c:61-64 QDefinite *)
Definition QDefinite (q : Q) : QPoint := {| qp_q := q; qp_dq := 0; qp_expect := q; qp_var := 0 |}.

(** libcompat/round.c:35-63 round *)
Definition round (x : Q) : Q :=
  if Qle_bool 0 x then
    let y := inject_Z (Qfloor x) in
    if Qle_bool (1 # 2) (fsub x y) then fadd y 1 else y
  else
    let y := inject_Z (Qceiling x) in
    if Qle_bool (1 # 2) (fsub y x) then fsub y 1 else y.
End Rounding.

(** a number of samples, each with its trust, the first with QDefinite *)
Definition samples (rnd : Q -> Q) (q0 : Q) (l : list (Q * Q)) : QPoint := fold_left (fun o x => QAverage rnd o (fst x) (snd x)) l (QDefinite q0).
