(** What "symlink-safe" means: the words of the theorems of PropsSafe.v, independent of
    SafeModel.v.  They speak of the process's log of system calls (FsModel.v): what it saw at a
    name, what it got by opening it, and what it changed. *)
From Verif Require Import Prelude Str Libc FsModel.
Set Implicit Arguments.

(** the events that change the file system *)
Definition changes (e : event) : option nat :=
  match e with
  | Created _ _ i | Truncated i | Chowned _ _ i | Chmoded i _ => Some i
  | Saw _ _ _ | Opened _ _ _ | Checked _ _ | Target _ _ _ => None
  end.
Definition harmless (evs : list event) : Prop := Forall (fun e => changes e = None) evs.

Definition same_owner (a b : stat) : Prop := st_uid a = st_uid b /\ st_gid a = st_gid b.

(** open descriptors are distinct, and new ones will be *)
Definition wf_fds (w : world) : Prop := NoDup (map fst (fds w)) /\ Forall (fun p => fst p < nextfd w) (fds w).

(** Whose links the code follows in fact: root's, and those of the user with number 1 unless
    the process is root's.  (The documentation says: root's and the process's user's.) *)
Definition trusted_uid (E : environment) (u : Z) : Prop := u = 0%Z \/ u = (if (euid E =? 0)%Z then 0%Z else 1%Z).
Definition documented_uid (E : environment) (u : Z) : Prop := u = 0%Z \/ u = euid E.

Section Trail.
  (** users whose links are followed whatever they point to *)
  Variable trusted : Z -> Prop.
  Variables creat trunc : bool.
  (** [before] was seen at the name, [after] was opened by that name *)
  Definition acceptable (before after : stat) : Prop := trusted (st_uid before) \/ same_owner before after.
  Definition looks (d : nat) (n : name) (evs : list event) : Prop := Forall (fun e => exists s, e = Saw d n s) evs.

  (** the events of going from directory [d] through the names [ns], ending at [j]: each name
      is looked at, opened, and the object opened is checked against what was seen; the last may
      be created instead, and only what was checked is truncated *)
  Inductive trail : nat -> list name -> list event -> nat -> Prop :=
  | trail_none d : trail d [] [] d
  | trail_dir d n ns before after i evs j :
      acceptable before after -> ns <> [] -> trail i ns evs j ->
      trail d (n :: ns) (Saw d n (Some before) :: Opened d n i :: Checked i after :: evs) j
  | trail_last d n slashes retries before after i :
      looks d n retries -> acceptable before after -> Forall (fun c => c = SLASH) slashes ->
      trail d [n] (retries ++ Saw d n (Some before) :: Opened d (n ++ slashes) i :: Checked i after ::
                     (if trunc && negb (st_size after =? 0) then [Truncated i] else [])) i
  | trail_new d n retries i :
      creat = true -> looks d n retries -> trail d [n] (retries ++ [Created d n i]) i.
End Trail.

(** [path] was opened for reading, ending at [i] *)
Definition reached (trusted : Z -> Prop) (path : list byte) (evs : list event) (i : nat) : Prop :=
  exists d d0 evs', evs = Opened d (if absolute path then [SLASH] else DOT) d0 :: evs' /\ trail trusted false false d0 (pieces path) evs' i.

(** From [q] (reached over the link [link], if any) to the directory [d] in which the object
    it names was seen as [s]: the directory part of [q] is opened, the last name looked at, and
    if it is a link to be followed it is read and the same done with its target. *)
Section Chain.
  Variables trusted trusted_last : Z -> Prop.
  Variables dirname basename : list byte -> list byte.
  Variable nofollow : bool.
  Definition link_ok (link : option stat) (s : stat) : Prop :=
    match link with None => True | Some l => acceptable trusted_last l s end.
  Inductive chain : option stat -> list byte -> list event -> nat -> stat -> Prop :=
  | chain_end link q evs d s :
      reached trusted (dirname q) evs d -> link_ok link s -> nofollow = true \/ S_ISLNK s = false ->
      chain link q (evs ++ [Saw d (basename q) (Some s)]) d s
  | chain_link link q evs d s t evs' d' s' :
      reached trusted (dirname q) evs d -> link_ok link s -> nofollow = false -> S_ISLNK s = true ->
      chain (Some s) (if absolute t then t else dirname q ++ [SLASH] ++ t) evs' d' s' ->
      chain link q (evs ++ [Saw d (basename q) (Some s); Target d (basename q) t] ++ evs') d' s'.
End Chain.

(** Resolution of names as the kernel does it, without a limit on the number of links. *)
Inductive resolves (f : fs) : nat -> list name -> nat -> Prop :=
| res_here d : resolves f d [] d
| res_step d n i ns j :
    lookup f d n = inr i -> (forall t u g p, inodes f i <> Some (mkInode (Lnk t) u g p)) ->
    resolves f i ns j -> resolves f d (n :: ns) j
| res_link d n i t u g p ns j :
    lookup f d n = inr i -> inodes f i = Some (mkInode (Lnk t) u g p) -> t <> [] ->
    resolves f (if absolute t then rootdir f else d) (path_names t ++ ns) j -> resolves f d (n :: ns) j.

(** a symbolic link met while resolving *)
Inductive passes (f : fs) : nat -> list name -> nat -> Prop :=
| passes_here d n l t u g p ns :
    lookup f d n = inr l -> inodes f l = Some (mkInode (Lnk t) u g p) -> passes f d (n :: ns) l
| passes_step d n i ns l :
    lookup f d n = inr i -> (forall t u g p, inodes f i <> Some (mkInode (Lnk t) u g p)) -> passes f i ns l -> passes f d (n :: ns) l
| passes_link d n i t u g p ns l :
    lookup f d n = inr i -> inodes f i = Some (mkInode (Lnk t) u g p) -> t <> [] ->
    passes f (if absolute t then rootdir f else d) (path_names t ++ ns) l -> passes f d (n :: ns) l.

(** Every name seen on the way is either a trusted user's or leads to something of the same
    owner. *)
Section Safely.
  Variable trusted : Z -> Prop.
  Inductive safely (f : fs) : nat -> list name -> nat -> Prop :=
  | safely_here d : safely f d [] d
  | safely_step d n seen x j y ns k :
      lookup f d n = inr seen -> inodes f seen = Some x ->
      resolve f true d n = inr j -> inodes f j = Some y ->
      acceptable trusted (stat_of x) (stat_of y) ->
      safely f j ns k -> safely f d (n :: ns) k.
End Safely.

(** the same file, with its length set to 0 if [trunc] *)
Definition cut (trunc : bool) (x : inode) : inode :=
  if trunc then mkInode (match ikind x with Reg _ => Reg [] | k => k end) (iuid x) (igid x) (iperms x) else x.

(** [f'] is [f] with file [i] cut if [trunc] *)
Definition after_open (trunc : bool) (f : fs) (i : nat) (f' : fs) : Prop :=
  (trunc = false -> f' = f) /\
  rootdir f' = rootdir f /\ cwd f' = cwd f /\ nextino f' = nextino f /\
  forall k, inodes f' k = if k =? i then option_map (cut trunc) (inodes f i) else inodes f k.

(** [f'] is [f] with a new empty file [i] called [n] in directory [d], and nothing else *)
Definition new_file_in (f : fs) (d : nat) (n : name) (u g mode : Z) (i : nat) (f' : fs) : Prop :=
  rootdir f' = rootdir f /\ cwd f' = cwd f /\
  inodes f i = None /\ inodes f' i = Some (mkInode (Reg []) u g mode) /\
  lookup f' d n = inr i /\ (forall m, m <> n -> lookup f' d m = lookup f d m) /\
  (exists es es' du dg dp, inodes f d = Some (mkInode (Dir es) du dg dp) /\ inodes f' d = Some (mkInode (Dir es') du dg dp)) /\
  forall k, k <> i -> k <> d -> inodes f' k = inodes f k.

(** [f'] is [f] with owner and group of [i] set *)
Definition owned (f : fs) (i : nat) (o g : Z) (f' : fs) : Prop :=
  rootdir f' = rootdir f /\ cwd f' = cwd f /\ nextino f' = nextino f /\
  forall k, inodes f' k = if k =? i then option_map (fun x => mkInode (ikind x) o g (iperms x)) (inodes f i) else inodes f k.

(** where resolution of [path] starts *)
Definition start (f : fs) (path : list byte) : nat := if absolute path then rootdir f else cwd f.
(** the root directory and the current directory are directories *)
Definition sound_dirs (f : fs) : Prop := is_dir f (rootdir f) = true /\ is_dir f (cwd f) = true.

(** nobody else is at work and no call fails for outside reasons *)
Definition quiet (E : environment) : Prop := (forall n f, others E n f = f) /\ (forall n, failure E n = None).
