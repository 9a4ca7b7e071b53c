(** Specification of searching and replacing: what a substitute means, which matches are
    replaced, and the resulting text. *)
From Verif Require Import Prelude Str PcreModel.
Set Implicit Arguments.

(** a piece of a substitute: a character, the text of a group (0: the whole match), or the
    text before or behind the match *)
Inductive item := Lit (c : byte) | Ref (n : N) | Before | Behind.

Definition DOLLAR : byte := "$".
Definition BSLASH : byte := "\".
Definition is_digit (c : byte) : bool := ((48 <=? code c) && (code c <=? 57))%N.
(** the value of a sequence of digits *)
Definition number (ds : list byte) : N := fold_left (fun v c => v * 10 + (code c - 48))%N ds 0%N.
(** escapes for control characters *)
Definition control : list (byte * byte) :=
  [("t", ascii_of_nat 9); ("n", ascii_of_nat 10); ("r", ascii_of_nat 13); ("f", ascii_of_nat 12); ("a", ascii_of_nat 7); ("e", ascii_of_nat 27); ("0", NUL)]%char.
Definition starts_with (p : byte -> Prop) (s : list byte) : Prop := match s with [] => False | c :: _ => p c end.

(** [denotes cc s items]: the substitute [s] for a pattern with [cc] groups means [items] *)
Inductive denotes (cc : N) : list byte -> list item -> Prop :=
| d_nil : denotes cc [] []
| d_plain c s l : c <> BSLASH -> c <> DOLLAR -> denotes cc s l -> denotes cc (c :: s) (Lit c :: l)
| d_control c x s l : In (c, x) control -> denotes cc s l -> denotes cc (BSLASH :: c :: s) (Lit x :: l)
| d_quoted c s l : ~ In c (map fst control) -> ~ In c (lit "123456789") -> denotes cc s l -> denotes cc (BSLASH :: c :: s) (Lit c :: l)
| d_lone : denotes cc [BSLASH] []
| d_number b d ds s l : b = DOLLAR \/ (b = BSLASH /\ d <> "0"%char) -> is_digit d = true -> forallb is_digit ds = true ->
    ~ starts_with (fun c => is_digit c = true) s -> denotes cc s l -> denotes cc (b :: d :: ds ++ s) (Ref (number (d :: ds)) :: l)
| d_match s l : denotes cc s l -> denotes cc (DOLLAR :: "&"%char :: s) (Ref 0 :: l)
| d_group s l : denotes cc s l -> denotes cc (DOLLAR :: "+"%char :: s) (Ref cc :: l)
| d_before s l : denotes cc s l -> denotes cc (DOLLAR :: "`"%char :: s) (Before :: l)
| d_behind s l : denotes cc s l -> denotes cc (DOLLAR :: "'"%char :: s) (Behind :: l)
| d_dollar s l : ~ starts_with (fun c => is_digit c = true \/ In c (lit "&+`'")) s -> denotes cc s l -> denotes cc (DOLLAR :: s) (Lit DOLLAR :: l).

(** a match: for each group its start and end in the subject, None if it took no part *)
Definition groups := list (option (nat * nat)).
Definition slice (s : list byte) (a b : nat) : list byte := firstn (b - a) (skipn a s).
Definition group (subject : list byte) (m : groups) (n : N) : list byte :=
  match nth_error m (N.to_nat n) with Some (Some (a, b)) => slice subject a b | _ => [] end.
Definition whole (m : groups) : nat * nat := match m with Some p :: _ => p | _ => (0, 0) end.
(** the text a match is replaced by *)
Definition expand (subject : list byte) (items : list item) (m : groups) : list byte :=
  flat_map (fun i => match i with
                     | Lit c => [c]
                     | Ref n => group subject m n
                     | Before => firstn (fst (whole m)) subject
                     | Behind => skipn (snd (whole m)) subject
                     end) items.
(** the subject from [pos] on with the matches replaced *)
Fixpoint replaced (subject : list byte) (items : list item) (pos : nat) (ms : list groups) : list byte :=
  match ms with
  | [] => skipn pos subject
  | m :: r => slice subject pos (fst (whole m)) ++ expand subject items m ++ replaced subject items (snd (whole m)) r
  end.

(** the answers of a matcher: a match found when starting at an offset, nothing, or
    an error *)
Inductive answer := Found (m : groups) | Nothing | Error.
(** the matches to replace: the first one, or with [global] one after the other, the next
    search starting at the end of the match, one further if the match is empty *)
Inductive matches (search : nat -> answer) (global : bool) (len : nat) : nat -> list groups -> Prop :=
| ms_none o : search o = Nothing -> matches search global len o []
| ms_one o m : global = false -> search o = Found m -> matches search global len o [m]
| ms_text o m ms : global = true -> search o = Found m -> fst (whole m) < snd (whole m) ->
    matches search global len (snd (whole m)) ms -> matches search global len o (m :: ms)
| ms_empty o m ms : global = true -> search o = Found m -> fst (whole m) = snd (whole m) -> snd (whole m) < len ->
    matches search global len (S (snd (whole m))) ms -> matches search global len o (m :: ms)
| ms_empty_end o m : global = true -> search o = Found m -> fst (whole m) = snd (whole m) -> snd (whole m) = len ->
    matches search global len o [m].
(** some search on the way fails *)
Inductive search_fails (search : nat -> answer) (global : bool) (len : nat) : nat -> Prop :=
| sf_now o : search o = Error -> search_fails search global len o
| sf_text o m : global = true -> search o = Found m -> fst (whole m) < snd (whole m) ->
    search_fails search global len (snd (whole m)) -> search_fails search global len o
| sf_empty o m : global = true -> search o = Found m -> fst (whole m) = snd (whole m) -> snd (whole m) < len ->
    search_fails search global len (S (snd (whole m))) -> search_fails search global len o.


(** ** What is assumed of the substitute and of PCRE *)

(** the number of references *)
Definition nrefs (l : list item) : nat := length (filter (fun i => match i with Lit _ => false | _ => true end) l).
(** items the implementation handles *)
Definition plain_item (i : item) : Prop := match i with Lit c => c <> NUL | Ref n => (n <= 32)%N | _ => False end.
(** no byte of 128 or more directly behind a reference, or behind a dollar sign *)
Definition refs_ascii (s : list byte) : Prop :=
  forall a b ds c r, s = a ++ b :: ds ++ c :: r -> (b = DOLLAR \/ b = BSLASH /\ ds <> []) -> forallb is_digit ds = true -> (code c < 128)%N.


(** the offset pairs of pcre_exec as groups *)
Definition pair_of (p : Z * Z) : option (nat * nat) := if (fst p <? 0)%Z then None else Some (Z.to_nat (fst p), Z.to_nat (snd p)).
Definition groups_of (m : list (Z * Z)) : groups := map pair_of m.
Definition pair_ok (len : nat) (p : Z * Z) : Prop := p = (-1, -1)%Z \/ (0 <= fst p <= snd p)%Z /\ (snd p <= Z.of_nat len)%Z.


Section Oracle.
  Variables (p : pcre) (subject : list byte).
  Notation len := (length subject).
  (** the answers of pcre_exec *)
  Definition oracle_ok : Prop := forall o, o <= len ->
    match pcre_exec p subject o with
    | Matched g => length g <= 33 /\ Forall (pair_ok len) g /\ exists a b r, g = (Z.of_nat a, Z.of_nat b) :: r /\ o <= a <= b /\ b <= len
    | TooSmall => False
    | Failed c => (c < 0)%Z
    end.
  Definition search_of (o : nat) : answer :=
    match pcre_exec p subject o with
    | Matched g => Found (groups_of g)
    | Failed c => if (c =? PCRE_ERROR_NOMATCH)%Z then Nothing else Error
    | TooSmall => Nothing
    end.
  (** an empty match is found only where the search starts *)
  Definition empty_at_start : Prop := forall o a r, o <= len -> pcre_exec p subject o = Matched ((a, a) :: r) -> a = Z.of_nat o.

End Oracle.
