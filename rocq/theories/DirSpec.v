(** The words of the theorems about directories: what is below a directory, and file systems
    in which only things below it have been removed.  Independent of DirModel.v. *)
From Verif Require Import Prelude Str Libc FsModel SafeSpec.
Set Implicit Arguments.

Definition PARENT : name := ["."; "."]%char.
(** the names in directory [d] (without the name of the directory itself) *)
Definition contents (f : fs) (d : nat) : list (name * nat) :=
  match inodes f d with Some x => match ikind x with Dir es => es | _ => [] end | None => [] end.
(** [n] is an object in directory [d] *)
Definition child (f : fs) (d : nat) (n : name) (i : nat) : Prop := In (n, i) (contents f d) /\ n <> DOT /\ n <> PARENT.
(** from [d] the names [ns] lead down to [i] *)
Inductive below (f : fs) : nat -> list name -> nat -> Prop :=
| below_here d : below f d [] d
| below_step d n i ns j : child f d n i -> below f i ns j -> below f d (n :: ns) j.
Definition dir_below (f : fs) (d i : nat) : Prop := exists ns, below f d ns i /\ is_dir f i = true.

(** what is below [d] is a tree of directories with proper names, not containing the root *)
Record tree (f : fs) (d : nat) : Prop := mkTree
  { tree_names : forall ns i, below f d ns i -> NoDup (DOT :: map fst (contents f i));
    tree_name : forall ns i n j, below f d ns i -> child f i n j -> n <> [] /\ Forall (fun c => c <> SLASH) n;
    tree_sound : forall ns i, below f d ns i -> inodes f i <> None;
    tree_unique : forall ns ns' i, below f d ns i -> below f d ns' i -> is_dir f i = true -> ns = ns';
    tree_root : forall ns, below f d ns (rootdir f) -> ns = [] }.

(** the path /n1/n2/... *)
Definition text (ns : list name) : list byte := concat (map (cons SLASH) ns).
(** the length of the text /n1/n2/... *)
Fixpoint text_length (ns : list name) : nat := match ns with [] => 0 | n :: ns => S (length n) + text_length ns end.

(** [f'] is [f] with some names removed from directories below [d] (and [d]) *)
Definition pruned (f : fs) (d : nat) (f' : fs) : Prop :=
  rootdir f' = rootdir f /\ cwd f' = cwd f /\ nextino f' = nextino f /\
  forall i, inodes f' i = inodes f i \/
            (dir_below f d i /\ exists es u g p keep, inodes f i = Some (mkInode (Dir es) u g p) /\
               inodes f' i = Some (mkInode (Dir (filter (fun e => keep (fst e)) es)) u g p) /\ keep PARENT = true).
(** [f'] is [f] with all names removed from directories below [d] (and [d]) *)
Definition emptied (f : fs) (d : nat) (f' : fs) : Prop :=
  rootdir f' = rootdir f /\ cwd f' = cwd f /\ nextino f' = nextino f /\
  forall i, (~ dir_below f d i -> inodes f' i = inodes f i) /\
            (dir_below f d i -> exists es u g p, inodes f i = Some (mkInode (Dir es) u g p) /\
               inodes f' i = Some (mkInode (Dir (filter (fun e => bytes_eqb (fst e) PARENT) es)) u g p)).

(** [path] leads to directory [d], over trustworthy links only, whatever is removed below [d] *)
Definition leads_to (E : environment) (f : fs) (path : list byte) (d : nat) : Prop :=
  forall f', pruned f d f' -> safely (trusted_uid E) f' (start f' path) (path_names path) d /\ resolve f' true (cwd f') path = inr d.

(** reading a directory returns each name in it (and [.]) once *)
Definition reads_all (next : fs -> nat -> list name -> option name) : Prop :=
  forall f d seen, match next f d seen with
                   | Some n => ~ In n seen /\ (n = DOT \/ In n (map fst (contents f d)))
                   | None => forall n, n = DOT \/ In n (map fst (contents f d)) -> In n seen
                   end.
