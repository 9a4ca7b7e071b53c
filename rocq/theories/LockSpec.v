(** What the callers of the file lock functions know, from the calls and their results alone. *)
From Verif Require Import Prelude Str LockModel.
Set Implicit Arguments.
Section WithFiles.
Variable file_of : path -> inode.
(** the file a FileLock of process [p] stands for after the completed calls [h] (newest first) *)
Fixpoint target (h : list (pid * call * Z)) (p : pid) (l : nat) : option path :=
  match h with
  | [] => None
  | (q, c, r) :: h =>
      if (q =? p) && (lock_of c =? l) then
        match c with
        | LockPath _ _ f _ => if (r =? 0)%Z then Some f else None
        | Unlock _ _ true => None
        | _ => target h p l
        end
      else target h p l
  end.
Definition target_file (h : list (pid * call * Z)) (p : pid) (l : nat) : option inode := option_map file_of (target h p l).
(** the lock [p] has on the file [i]: what the last successful call asked for, until an unlock
    through any FileLock of [p] for this file *)
Fixpoint claims (h : list (pid * call * Z)) (p : pid) (i : inode) : option mode :=
  match h with
  | [] => None
  | (q, c, r) :: h =>
      if q =? p then
        match c with
        | LockPath m _ f _ => if (r =? 0)%Z && (file_of f =? i) then Some m else claims h p i
        | Lock m l _ => if (r =? 0)%Z && (match target_file h p l with Some j => j =? i | None => false end) then Some m else claims h p i
        | Unlock _ l _ => if match target_file h p l with Some j => j =? i | None => false end then None else claims h p i
        | Check _ => claims h p i
        end
      else claims h p i
  end.
(** [p] is in the middle of a call about the file [i] *)
Definition busy (s : state) (p : pid) (i : inode) : Prop :=
  match running s p with
  | Some (LockPath _ _ f _, _) => file_of f = i
  | Some (Lock _ l _, _) | Some (Unlock _ l _, _) => target_file (history s) p l = Some i
  | _ => False
  end.
Definition excludes (a b : mode) : bool := match a, b with Shared, Shared => false | _, _ => true end.
End WithFiles.
