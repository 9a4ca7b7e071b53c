(** Shared vocabulary of the libntech model: outcomes and C arrays.
    Nothing in this file models a particular function of /repo; it fixes how
    undefined behaviour, assertion failures and arrays are represented. *)
From Coq Require Export List Arith NArith ZArith Lia Bool Permutation.
Export ListNotations.
Set Implicit Arguments.

(** Outcome of a modelled C function.
    [Ok a]   : returns normally with [a];
    [UB]     : undefined behaviour (access outside an allocation, read of a cell
               never written, NULL dereference, signed overflow);
    [Abort]  : a failing assert(), ProgrammingError() or exit();
    [Fuel]   : a loop exceeded the fuel the model gave it (non-termination). *)
Inductive res (A : Type) : Type :=
| Ok (a : A)
| UB
| Abort
| Fuel.
Arguments Ok {A} a.
Arguments UB {A}.
Arguments Abort {A}.
Arguments Fuel {A}.

Definition bind {A B : Type} (x : res A) (f : A -> res B) : res B :=
  match x with Ok a => f a | UB => UB | Abort => Abort | Fuel => Fuel end.

Notation "'let*' x := e 'in' k" := (bind e (fun x => k))
  (at level 200, x name, e at level 100, k at level 200, right associativity).
Notation "'let*' ' p := e 'in' k" := (bind e (fun x => match x with p => k end))
  (at level 200, p pattern, e at level 100, k at level 200, right associativity).

Definition rmap {A B : Type} (f : A -> B) (x : res A) : res B :=
  let* a := x in Ok (f a).

(** [massert b k] is C's [assert(b); k] in a build with assertions on. *)
Definition massert {A : Type} (b : bool) (k : res A) : res A :=
  if b then k else Abort.

(** A C array of [n] cells is a list of length [n]; [None] is a cell whose
    content is indeterminate (malloc/realloc memory never written). *)
Definition cells (A : Type) := list (option A).

(** array[i] as an rvalue *)
Definition aget {A : Type} (l : cells A) (i : nat) : res A :=
  match nth_error l i with
  | Some (Some x) => Ok x
  | _ => UB
  end.

Fixpoint upd {A : Type} (l : list A) (i : nat) (x : A) : list A :=
  match l, i with
  | [], _ => []
  | _ :: t, O => x :: t
  | h :: t, S j => h :: upd t j x
  end.

(** array[i] = x *)
Definition aset {A : Type} (l : cells A) (i : nat) (x : A) : res (cells A) :=
  if i <? length l then Ok (upd l i (Some x)) else UB.

(** memmove(l + dst, l + src, n) within one array (overlap allowed);
    indeterminate cells may be copied. *)
Definition amove {A : Type} (l : list A) (dst src n : nat) : res (list A) :=
  if (dst + n <=? length l) && (src + n <=? length l)
  then Ok (firstn dst l ++ firstn n (skipn src l) ++ skipn (dst + n) l)
  else UB.

(** memcpy(d + dst, s + src, n) between two distinct arrays. *)
Definition acopy {A : Type} (d : list A) (dst : nat) (s : list A) (src n : nat)
  : res (list A) :=
  if (dst + n <=? length d) && (src + n <=? length s)
  then Ok (firstn dst d ++ firstn n (skipn src s) ++ skipn (dst + n) d)
  else UB.

(** realloc to [n] cells: shrinks or extends with indeterminate cells. *)
Definition arealloc {A : Type} (l : cells A) (n : nat) : cells A :=
  firstn n l ++ repeat None (n - length l).
