(** What a Mustache template means, without reference to how mustache.c scans it: a
    template is a list of nodes, [print] is its text, [sem] what it renders to.  Only the
    default delimiters. *)
From Verif Require Import Prelude Str Libc JsonModel.
Set Implicit Arguments.
Local Open Scope char_scope.

(** * Data *)
(** integers in the data can be read as integers; that the members of objects are in name
    order is [json_sorted] *)
Fixpoint ints_ok (j : json) : bool :=
  match j with
  | JPrim PInt v => match JsonPrimitiveGetAsInteger v with Ok _ => true | _ => false end
  | JPrim _ _ => true
  | JArr cs => forallb ints_ok cs
  | JObj kvs => forallb (fun kv => ints_ok (snd kv)) kvs
  end.

(** * Templates *)
(** {{x}}, {{{x}}}, {{&x}}, {{%x}}, {{$x}} *)
Inductive kind := Escaped | Raw | RawAmp | Pretty | Compact.
(** a name with blanks around it *)
Record label := mkLabel { pad_l : list byte; lname : list byte; pad_r : list byte }.
(** a tag that renders nothing itself can be part of a line, or be alone on a line: then
    the line goes with it *)
Inductive layout := Inline | OwnLine (indent trail : list byte) (newline : bool).
Inductive node :=
| Text (s : list byte)
| Var (k : kind) (l : label)
| Comment (lay : layout) (s : list byte)
| Section (inverted : bool) (lay : layout) (l : label) (body : list node) (lay_end : layout) (closing : list byte).

(** the text between the delimiters *)
Definition inner (l : label) : list byte := pad_l l ++ lname l ++ pad_r l.
Definition var_text (k : kind) (l : label) : list byte :=
  match k with
  | Escaped => inner l
  | Raw => "{" :: inner l ++ ["}"]
  | RawAmp => "&" :: inner l
  | Pretty => "%" :: inner l
  | Compact => "$" :: inner l
  end.
Inductive piece := PText (s : list byte) | PVar (c : list byte) | PTag (lay : layout) (c : list byte).
Fixpoint flat (n : node) : list piece :=
  match n with
  | Text s => [PText s]
  | Var k l => [PVar (var_text k l)]
  | Comment lay s => [PTag lay ("!" :: s)]
  | Section inv lay l body lay2 c =>
      PTag lay ((if inv then "^" else "#") :: inner l) ::
      (fix flats (ns : list node) : list piece := match ns with [] => [] | n :: r => flat n ++ flats r end) body ++
      [PTag lay2 ("/" :: c)]
  end.
Fixpoint flats (ns : list node) : list piece := match ns with [] => [] | n :: r => flat n ++ flats r end.
Definition braces (c : list byte) : list byte := lit "{{" ++ c ++ lit "}}".
Definition show (p : piece) : list byte :=
  match p with
  | PText s => s
  | PVar c => braces c
  | PTag Inline c => braces c
  | PTag (OwnLine ind tr nl) c => ind ++ braces c ++ tr ++ (if nl then [B_n] else [])
  end.
Definition shows (ps : list piece) : list byte := concat (map show ps).
Definition print (ns : list node) : list byte := shows (flats ns).

(** * Well-formed templates *)
Definition blank (c : byte) : Prop := c = " " \/ c = B_t.
Definition blanks (s : list byte) : Prop := Forall blank s.
(** characters that may follow a tag on its own line *)
Definition trailing (s : list byte) : Prop := Forall (fun c => blank c \/ c = B_r) s.
Definition line_start (before : list byte) : Prop := before = [] \/ exists b, before = b ++ [B_n].
Definition alone_on_line (before after : list byte) : Prop :=
  (exists b l, before = b ++ l /\ line_start b /\ blanks l) /\
  (exists tr, trailing tr /\ (after = tr \/ exists r, after = tr ++ B_n :: r)).
Definition layout_ok (before : list byte) (lay : layout) (after : list byte) : Prop :=
  match lay with
  | Inline => ~ alone_on_line before after
  | OwnLine ind tr nl => blanks ind /\ trailing tr /\ line_start before /\ (nl = true \/ after = [])
  end.
(** no occurrence of [d] starts inside [s] when [after] follows *)
Definition free_of (d s after : list byte) : Prop := forall i, i < length s -> prefixb d (skipn i (s ++ after)) = false.
Definition piece_ok (before : list byte) (p : piece) (after : list byte) : Prop :=
  match p with
  | PText s => free_of (lit "{{") s after
  | PVar _ => True
  | PTag lay _ => layout_ok before lay after
  end.
Definition is_sigil (c : byte) : Prop := In c ["#"; "^"; "/"; "!"; "="; "{"; "&"; "%"; "$"].
(** no leading or trailing blanks *)
Definition trimmed (s : list byte) : Prop :=
  forall a c b, s = a ++ c :: b -> a = [] \/ b = [] -> ~ blank c.
Definition label_ok (l : label) : Prop := blanks (pad_l l) /\ blanks (pad_r l) /\ trimmed (lname l).
(** a name with something besides dots *)
Definition has_component (s : list byte) : Prop := exists c, In c s /\ c <> ".".
Definition closed (c : list byte) : Prop := free_of (lit "}}") c (lit "}}").
Fixpoint node_ok (n : node) : Prop :=
  match n with
  | Text _ => True
  | Var k l =>
      label_ok l /\ (lname l = [] \/ lname l = ["."] \/ has_component (lname l)) /\
      match k with
      | Escaped => closed (inner l) /\ (forall c r, inner l = c :: r -> ~ is_sigil c)
      | Raw => ~ In "}" (inner l)
      | _ => closed (inner l)
      end
  | Comment _ s => closed s
  | Section _ _ l body _ c =>
      label_ok l /\ has_component (lname l) /\ closed (inner l) /\ closed c /\
      (fix oks (ns : list node) : Prop := match ns with [] => True | n :: r => node_ok n /\ oks r end) body
  end.
Definition template_ok (ns : list node) : Prop :=
  is_cstr (print ns) /\ Forall node_ok ns /\
  forall ps1 p ps2, flats ns = ps1 ++ p :: ps2 -> piece_ok (shows ps1) p (shows ps2).

(** * Meaning *)
(** scopes, the innermost first; a section over a name that does not exist adds [None] *)
Definition scopes := list (option json).
(** the non-empty parts of a name between dots *)
Fixpoint dotted_from (cur : list byte) (s : list byte) : list (list byte) :=
  match s with
  | [] => match cur with [] => [] | _ => [cur] end
  | c :: r => if beq c "." then match cur with [] => dotted_from [] r | _ => cur :: dotted_from [] r end
              else dotted_from (cur ++ [c]) r
  end.
Definition dotted (s : list byte) : list (list byte) := dotted_from [] s.
Definition member (j : json) (k : list byte) : option json :=
  match j with JObj kvs => JsonObjectGet kvs k | _ => None end.
Fixpoint follow (j : json) (path : list (list byte)) : option json :=
  match path with
  | [] => Some j
  | k :: r => match member j k with Some v => follow v r | None => None end
  end.
(** the innermost scope that has a member of this name *)
Fixpoint innermost (sc : scopes) (k : list byte) : option json :=
  match sc with
  | [] => None
  | Some j :: r => match member j k with Some v => Some v | None => innermost r k end
  | None :: r => innermost r k
  end.
Definition find_var (sc : scopes) (name : list byte) : option json :=
  match dotted name with
  | [] => None
  | k :: path =>
      match innermost sc k with
      | Some v => follow v path
      | None => if bytes_eqb k (lit "-top-") then match last sc None with Some top => follow top path | None => None end
                else None
      end
  end.

(** ampersands, double quotes and angle brackets are replaced *)
Definition html_char (c : byte) : list byte :=
  if beq c "&" then lit "&amp;" else if beq c """" then lit "&quot;"
  else if beq c "<" then lit "&lt;" else if beq c ">" then lit "&gt;" else [c].
Definition html (s : list byte) : list byte := concat (map html_char s).

Section Sem.
Variable real_text : list byte -> list byte.
(** [quirks]: as mustache.c does it: a section over the elements of a container leaves the
    container in scope and so ends the wrong scopes later; a section over an empty array
    inside a section that is not shown is shown if it is inverted.  Without quirks a
    section ends with the scopes it began with, and is shown only if it is inside shown
    sections. *)
Variable quirks : bool.

(** the text of a primitive; None: the value is not what its type says *)
Definition prim_text (esc : bool) (p : ptype) (v : list byte) : option (list byte) :=
  match p with
  | PString => Some (if esc then html v else v)
  | PInt => match JsonPrimitiveGetAsInteger v with Ok z => Some (sdec z) | _ => None end
  | PReal => Some (real_text v)
  | PBool => Some (if JsonPrimitiveGetAsBool v then lit "true" else lit "false")
  | PNull => Some []
  end.
(** a variable tag with a name; None: an error *)
Definition var_value (k : kind) (name : list byte) (sc : scopes) (key : option (list byte)) : option (list byte) :=
  let esc := match k with Escaped => true | _ => false end in
  let is_key := bytes_eqb name ["@"] in
  let is_item := bytes_eqb name ["."] in
  let v := if is_key || is_item then List.hd None sc else find_var sc name in
  match is_key, key with
  | true, None => None
  | _, _ =>
      match v with
      | None => Some []
      | Some (JPrim p x) =>
          match is_key, key with
          | true, Some k => Some (if esc then html k else k)
          | _, _ => prim_text esc p x
          end
      | Some c =>
          match k with
          | Pretty => Some (fst (JsonWrite c 0))
          | Compact => Some (fst (JsonWriteCompact c))
          | _ => match is_key, key with
                 | true, Some k => Some (if esc then html k else k)
                 | _, _ => None
                 end
          end
      end
  end.
Definition var_out (k : kind) (name : list byte) (sc : scopes) (key : option (list byte)) : option (list byte) :=
  match name with [] => Some (lit "{{}}") | _ => var_value k name sc key end.

(** an object is iterated over if {{@}} occurs in the section before any other section *)
Definition is_key_tag (k : kind) (l : label) : bool :=
  match k with Escaped | Raw | RawAmp => bytes_eqb (inner l) ["@"] | _ => false end.
(** None: undecided *)
Fixpoint has_key (n : node) : option bool :=
  match n with
  | Text _ | Comment _ _ => None
  | Var k l => if is_key_tag k l then Some true else None
  | Section true _ _ body _ _ =>
      match (fix keys (ns : list node) : option bool := match ns with [] => None | n :: r => match has_key n with Some b => Some b | None => keys r end end) body
      with Some b => Some b | None => Some false end
  | Section false _ _ _ _ _ => Some false
  end.
Fixpoint has_keys (ns : list node) : option bool :=
  match ns with [] => None | n :: r => match has_key n with Some b => Some b | None => has_keys r end end.
Definition iterates (body : list node) : bool := match has_keys body with Some b => b | None => false end.

(** the elements of a container and what {{@}} gives for them: the index or the name *)
Fixpoint indexed (i : nat) (cs : list json) : list (list byte * json) :=
  match cs with [] => [] | c :: r => (udec (N.of_nat i), c) :: indexed (S i) r end.
Definition elements (j : json) : list (list byte * json) :=
  match j with JArr cs => indexed 0 cs | JObj kvs => kvs | JPrim _ _ => [] end.

(** what a section does: once in the scope of its value, shown or not; or for each element *)
Inductive plan := Once (hidden : bool) | Each (es : list (list byte * json)) (hidden : bool) | Wrong.
Definition section_plan (inverted skip : bool) (v : option json) (body : list node) : plan :=
  let container j :=
    match elements j with
    | [] => Once (if quirks then negb inverted else skip || negb inverted)
    | es => Each es (skip || inverted)
    end in
  match v with
  | None => Once (skip || negb inverted)
  | Some (JPrim PBool b) => Once (skip || (if JsonPrimitiveGetAsBool b then inverted else negb inverted))
  | Some (JPrim _ _) => Wrong
  | Some (JArr cs) => container (JArr cs)
  | Some (JObj kvs) => if iterates body then container (JObj kvs) else Once (skip || inverted)
  end.

(** the text rendered, and the scopes afterwards; None: an error *)
Fixpoint sem (n : node) (sc : scopes) (key : option (list byte)) (skip : bool) : option (list byte * scopes) :=
  match n with
  | Text s => Some (if skip then [] else s, sc)
  | Var k l => if skip then Some ([], sc)
               else match var_out k (lname l) sc key with Some o => Some (o, sc) | None => None end
  | Comment _ _ => Some ([], sc)
  | Section inv _ l body _ _ =>
      let inside := (fix sems (ns : list node) (sc : scopes) (key : option (list byte)) (skip : bool) : option (list byte * scopes) :=
        match ns with
        | [] => Some ([], sc)
        | n :: r => match sem n sc key skip with
                    | None => None
                    | Some (o, sc) => match sems r sc key skip with None => None | Some (o', sc) => Some (o ++ o', sc) end
                    end
        end) body in
      let v := find_var sc (lname l) in
      match section_plan inv skip v body with
      | Wrong => None
      | Once hidden =>
          match inside (v :: sc) None hidden with None => None | Some (o, sc') => Some (o, if quirks then tl sc' else sc) end
      | Each es hidden =>
          match (fix each (es : list (list byte * json)) (sc : scopes) : option (list byte * scopes) :=
                   match es with
                   | [] => Some ([], sc)
                   | (k, c) :: r =>
                       match inside (Some c :: sc) (Some k) hidden with
                       | None => None
                       | Some (o, sc') => match each r (if quirks then tl sc' else sc) with None => None | Some (o', sc) => Some (o ++ o', sc) end
                       end
                   end) es (v :: sc) with
          | None => None
          | Some (o, sc') => Some (o, if quirks then sc' else sc)
          end
      end
  end.
Fixpoint sems (ns : list node) (sc : scopes) (key : option (list byte)) (skip : bool) : option (list byte * scopes) :=
  match ns with
  | [] => Some ([], sc)
  | n :: r => match sem n sc key skip with
              | None => None
              | Some (o, sc) => match sems r sc key skip with None => None | Some (o', sc) => Some (o ++ o', sc) end
              end
  end.
(** rendering a template with data *)
Definition meaning (ns : list node) (data : json) : option (list byte) :=
  match sems ns [Some data] None false with Some (o, _) => Some o | None => None end.
End Sem.

(** * Templates that are rendered as the ideal says *)
(** [j] is [d] or somewhere inside *)
Inductive part (j : json) : json -> Prop :=
| part_self : part j j
| part_arr cs c : In c cs -> part j c -> part j (JArr cs)
| part_obj kvs k c : In (k, c) kvs -> part j c -> part j (JObj kvs).
(** a value the name could stand for, in whatever scopes *)
Definition could_be (d : json) (name : list byte) (j : json) : Prop :=
  (dotted name = [lit "-top-"] /\ j = d) \/
  exists obj k, part obj d /\ last (dotted name) [] = k /\ member obj k = Some j.
(** sections inside sections do not go over elements: their names do not stand for
    arrays, nor for objects if {{@}} is used *)
Fixpoint quiet (d : json) (n : node) : Prop :=
  match n with
  | Section _ _ l body _ _ =>
      (forall j, could_be d (lname l) j -> match j with JArr _ => False | JObj _ => iterates body = false | _ => True end) /\
      (fix all (ns : list node) : Prop := match ns with [] => True | n :: r => quiet d n /\ all r end) body
  | _ => True
  end.
(** at the top there is no {{.}}, and sections go over the elements of arrays, not objects *)
Definition tidy (d : json) (n : node) : Prop :=
  match n with
  | Var _ l => lname l <> ["."]
  | Section _ _ l body _ _ =>
      (match find_var [Some d] (lname l) with Some (JObj _) => iterates body = false | _ => True end) /\ Forall (quiet d) body
  | _ => True
  end.
