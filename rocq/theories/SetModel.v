(** Model of libutils/set.c on top of the Map model.  The value stored with an
    element is the element itself and has no destroy function, so only DKey
    events are real destroy calls. *)
From Verif Require Import Prelude MapModel Str.
Set Implicit Arguments.

Section Set_.
Variable E : Type.
Variable equal : E -> E -> bool.
Variable hash : E -> N.

Definition set_t := map_t E E.
(** set.c:36-41 SetNew *)
Definition SetNew : set_t := MapNew.
(** set.c:48-52 SetAdd *)
Definition SetAdd (s : set_t) (e : E) : res (set_t * list (ev E E)) :=
  let* ' (s, _, l) := MapInsert equal hash s e e in Ok (s, l).
(** set.c:54-58 SetContains *)
Definition SetContains (s : set_t) (e : E) : res bool := MapHasKey equal hash s e.
(** set.c:60-64 SetRemove *)
Definition SetRemove (s : set_t) (e : E) : res (set_t * bool * list (ev E E)) := MapRemove equal hash s e.
(** set.c:66-70 SetClear *)
Definition SetClear (s : set_t) : res (set_t * list (ev E E)) := MapClear s.
(** set.c:72-76 SetSize *)
Definition SetSize (s : set_t) : res nat := MapSize s.
(** set.c:78-83 SetIsEqual *)
Definition SetIsEqual (s1 s2 : set_t) : res bool := MapContainsSameKeys equal hash s1 s2.
(** SetIteratorInit/SetIteratorNext until NULL (set.c:91-95 SetIteratorNext); no
    element is a NULL pointer *)
Definition SetIterate (s : set_t) : res (list E) :=
  let* l := MapIterate s in Ok (map fst l).

(** loop of set.c:97-115 SetJoin; [copy] is the copy function (identity if NULL) *)
Fixpoint join_loop (copy : E -> E) (s : set_t) (l : list E) : res (set_t * list (ev E E)) :=
  match l with
  | [] => Ok (s, [])
  | e :: t => let* ' (s, a) := SetAdd s (copy e) in
              let* ' (s, b) := join_loop copy s t in Ok (s, a ++ b)
  end.
(** set.c:97-115 SetJoin of two distinct sets (the call with set == otherset returns
    at once).  Iterating otherset while adding to another set is modelled by
    iterating it first: the two share no memory. *)
Definition SetJoin (copy : E -> E) (s other : set_t) : res (set_t * list (ev E E)) :=
  let* l := SetIterate other in join_loop copy s l.
End Set_.

(** *** StringSet: StringEqual_untyped is byte equality; [shash] is StringHash_untyped *)
Section SS.
Variable shash : list byte -> N.
Notation str := (list byte).
Notation sset := (set_t str).

(** loop of set.c:145-177 StringSetAddSplit: [prev] is the text from prev to cur, [s]
    the text from cur *)
Fixpoint addsplit_loop (st : sset) (prev s : str) (delim : byte) : res (sset * list (ev str str)) :=
  match s with
  | [] => match prev with
          | [] => Ok (st, [])
          | _ => SetAdd bytes_eqb shash st prev
          end
  | c :: t =>
      if beq c delim then
        let* ' (st, a) := SetAdd bytes_eqb shash st prev in
        let* ' (st, b) := addsplit_loop st [] t delim in Ok (st, a ++ b)
      else addsplit_loop st (prev ++ [c]) t delim
  end.
Definition StringSetAddSplit (st : sset) (s : str) (delim : byte) := addsplit_loop st [] s delim.
(** set.c:179-186 StringSetFromString *)
Definition StringSetFromString (s : str) (delim : byte) : res (sset * list (ev str str)) :=
  StringSetAddSplit (SetNew str) s delim.

(** loop of set.c:117-143 StringSetToBuffer; the Buffer is the list of its bytes
    (BufferAppend of bytes without NUL appends them, theorem C21) *)
Fixpoint tobuf_loop (l : list str) (delim : byte) (pos size : nat) (buf : str) : str :=
  match l with
  | [] => buf
  | e :: t =>
      let buf := buf ++ e in
      let buf := if (Z.of_nat pos <? Z.of_nat size - 1)%Z then buf ++ [delim] else buf in
      tobuf_loop t delim (S pos) size buf
  end.
(** set.c:117-143 StringSetToBuffer *)
Definition StringSetToBuffer (st : sset) (delim : byte) : res str :=
  let* size := SetSize st in
  let* l := SetIterate st in
  Ok (tobuf_loop l delim 0 size []).
End SS.
