(** What PCRE promises (man pcreapi), and what captures are. *)
From Verif Require Import Prelude Str Libc RegexModel.
Set Implicit Arguments.

(** a match: for each group, 0 the whole match, the span of the text it captured if it took part *)
Definition groups := list (option (nat * nat)).
Definition pair_of (g : option (nat * nat)) : Z * Z := match g with Some (s, e) => (Z.of_nat s, Z.of_nat e) | None => (-1, -1)%Z end.
(** the number of the last group that took part, plus one *)
Fixpoint top (gs : groups) : nat :=
  match gs with
  | [] => 0
  | g :: gs => match top gs with O => match g with Some _ => 1 | None => 0 end | S n => S (S n) end
  end.
(** pcre_exec: an error, PCRE_ERROR_NOMATCH being one, or a match; a third of the vector is not used for offsets;
    if the rest is too small for the groups that took part the result is 0 *)
Definition promised (m : Z + groups) (size : nat) : Z * list (Z * Z) :=
  match m with
  | inl e => (e, [])
  | inr gs => (if (size / 3 <? top gs)%nat then 0%Z else Z.of_nat (top gs), firstn (size / 3) (map pair_of gs))
  end.
(** one entry of the table of names: the number of the group in two bytes, the name, NUL, and anything *)
Definition entry_of (size i : nat) (name e : list byte) : Prop :=
  exists h l pad, e = h :: l :: name ++ NUL :: pad /\ length e = size /\ is_cstr name /\ (N.of_nat i = code h * 256 + code l)%N.
(** a pattern with [n] groups, some of them named; [search]: what the search for it in a text finds *)
Record honest (p : pcre) (n : nat) (names : list (nat * list byte)) (search : list byte -> Z + groups) : Prop := {
  h_count : capturecount p = n;
  h_names : namecount p = length names;
  h_table : exists es, name_table p = concat es /\ Forall2 (fun kn e => entry_of (name_entry_size p) (fst kn) (snd kn) e) names es;
  h_exec : forall str size, pcre_exec p str size = promised (search str) size;
  h_error : forall str e, search str = inl e -> (e < 0)%Z;
  h_groups : forall str gs, search str = inr gs -> length gs = S n /\ (exists g, hd_error gs = Some (Some g)) /\
    Forall (fun g => match g with Some (s, e) => s <= e /\ e <= length str | None => True end) gs }.

(** the text of a group: empty if it took no part *)
Definition capture (str : list byte) (g : option (nat * nat)) : list byte :=
  match g with Some (s, e) => firstn (e - s) (skipn s str) | None => [] end.
(** the name of a group: its number if it has none *)
Definition label (names : list (nat * list byte)) (i : nat) : list byte :=
  match find (fun kn => (fst kn =? i)%nat) names with Some kn => snd kn | None => udec (N.of_nat i) end.
(** groups from number [i] on, with their names before them *)
Fixpoint labelled (names : list (nat * list byte)) (str : list byte) (i : nat) (gs : groups) : list (list byte * list byte) :=
  match gs with [] => [] | g :: gs => (label names i, capture str g) :: labelled names str (S i) gs end.
