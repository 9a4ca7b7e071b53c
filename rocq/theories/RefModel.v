(** Model of libutils/refcount.c.  Owners are compared by address: a type with a decidable
    equality.  user_count does not wrap around in the model. *)
From Verif Require Import Prelude DllModel.
Set Implicit Arguments.

Section Ref.
Variable O : Type.
Variable oeqb : O -> O -> bool.
(** libutils/refcount.h:38-51 RefCount, with the memory its nodes live in *)
Record RefCount := mkR { user_count : nat; users : option nat; last : option nat; nodes : dheap O }.

(** libutils/refcount.c:30-40 RefCountNew *)
Definition RefCountNew : RefCount := mkR 0 None None dempty.

(** libutils/refcount.c:58-79 RefCountAttach *)
Definition RefCountAttach (r : RefCount) (owner : O) : res RefCount :=
  match last r with
  | Some l =>
      let '(node, h) := dalloc (nodes r) (mkD owner None (Some l)) in
      let* h := set_next h l (Some node) in
      Ok (mkR (user_count r + 1) (users r) (Some node) h)
  | None =>
      let '(node, h) := dalloc (nodes r) (mkD owner None None) in
      Ok (mkR (user_count r + 1) (Some node) (Some node) h)
  end.

(** libutils/refcount.c:81-133 RefCountDetach: the loop over the nodes; [None]: "we cannot
    detach from ourselves" returned early *)
Fixpoint detach_loop (fuel : nat) (r : RefCount) (p : option nat) (owner : O) : res (option (bool * RefCount)) :=
  match fuel with
  | 0 => Fuel
  | S g =>
      match p with
      | None => Ok (Some (false, r))
      | Some a =>
          let* n := dload (nodes r) a in
          if oeqb (dval n) owner then
            match dprev n, dnext n with
            | Some b, Some c =>
                let* h := set_next (nodes r) b (Some c) in
                let* h := set_prev h c (Some b) in
                let* h := dfree h a in
                Ok (Some (true, mkR (user_count r) (users r) (last r) h))
            | Some b, None =>
                let* h := set_next (nodes r) b None in
                let* h := dfree h a in
                Ok (Some (true, mkR (user_count r) (users r) (Some b) h))
            | None, Some c =>
                let* h := set_prev (nodes r) c None in
                let* h := dfree h a in
                Ok (Some (true, mkR (user_count r) (Some c) (last r) h))
            | None, None => Ok None
            end
          else detach_loop g r (dnext n) owner
      end
  end.
Definition RefCountDetach (r : RefCount) (owner : O) : res RefCount :=
  if user_count r <=? 1 then Ok r
  else
    let* x := detach_loop (S (dfresh (nodes r))) r (users r) owner in
    match x with
    | None => Ok r
    | Some (false, _) => Abort
    | Some (true, r) => Ok (mkR (user_count r - 1) (users r) (last r) (nodes r))
    end.

(** libutils/refcount.c:135-138 RefCountIsShared *)
Definition RefCountIsShared (r : RefCount) : bool := 1 <? user_count r.

(** libutils/refcount.c:42-56 RefCountDestroy: the memory left *)
Definition RefCountDestroy (r : RefCount) : res (dheap O) :=
  massert (user_count r <=? 1)
    (match users r with Some a => dfree (nodes r) a | None => Ok (nodes r) end).
End Ref.
Arguments RefCountNew {O}.
