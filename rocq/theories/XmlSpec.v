(** What an XML reader makes of a document (the fragment of XML 1.0 the writer can
    produce: elements, attributes in double quotes, comments, the five predefined
    entities).  Character data is reported one character at a time. *)
From Verif Require Import Prelude Str.
Set Implicit Arguments.

Inductive event :=
| Start (name : list byte) (attrs : list (list byte * list byte))
| End_ (name : list byte)
| Comment (text : list byte)
| Char (c : byte).

Definition in_range (lo hi c : byte) : bool := (code lo <=? code c)%N && (code c <=? code hi)%N.
Definition name_start (c : byte) : bool :=
  in_range "a"%char "z"%char c || in_range "A"%char "Z"%char c || beq c "_"%char || beq c ":"%char.
Definition name_char (c : byte) : bool :=
  name_start c || in_range "0"%char "9"%char c || beq c "-"%char || beq c "."%char.
Definition is_name (s : list byte) : Prop :=
  match s with [] => False | c :: r => name_start c = true /\ forallb name_char r = true end.

Definition entities : list (list byte * byte) :=
  [(lit "amp", "&"%char); (lit "lt", "<"%char); (lit "gt", ">"%char); (lit "quot", ascii_of_N 34); (lit "apos", "'"%char)].
Definition entity (n : list byte) : option byte :=
  match find (fun p => bytes_eqb n (fst p)) entities with Some (_, c) => Some c | None => None end.

(** where the reader is *)
Inductive pos :=
| InText                                        (* outside any tag *)
| InEntity (n : list byte)                      (* after & and n *)
| AfterLt                                       (* after < *)
| AfterBang (n : nat)                           (* after <! and n dashes *)
| InComment (t : list byte)
| InCommentDash (t : list byte)                 (* after a dash in a comment *)
| InCommentDashes (t : list byte)               (* after two dashes *)
| InEndTag (n : list byte)
| InStartTag (n : list byte)
| InAttrs (n : list byte) (a : list (list byte * list byte))
| InAttrName (n : list byte) (a : list (list byte * list byte)) (k : list byte)
| AfterEq (n : list byte) (a : list (list byte * list byte)) (k : list byte)
| InAttrValue (n : list byte) (a : list (list byte * list byte)) (k v : list byte).

Definition step (p : pos) (c : byte) : option (pos * list event) :=
  let is x := beq c x in
  match p with
  | InText => if is "<"%char then Some (AfterLt, []) else if is "&"%char then Some (InEntity [], []) else Some (InText, [Char c])
  | InEntity n => if is ";"%char then match entity n with Some d => Some (InText, [Char d]) | None => None end
                  else if name_char c then Some (InEntity (n ++ [c]), []) else None
  | AfterLt => if is "!"%char then Some (AfterBang 0, [])
               else if is "/"%char then Some (InEndTag [], [])
               else if name_start c then Some (InStartTag [c], []) else None
  | AfterBang n => if is "-"%char then Some (match n with O => AfterBang 1 | S _ => InComment [] end, []) else None
  | InComment t => if is "-"%char then Some (InCommentDash t, []) else Some (InComment (t ++ [c]), [])
  | InCommentDash t => if is "-"%char then Some (InCommentDashes t, []) else Some (InComment (t ++ ["-"%char; c]), [])
  | InCommentDashes t => if is ">"%char then Some (InText, [Comment t]) else None
  | InEndTag n => if is ">"%char then match n with [] => None | _ => Some (InText, [End_ n]) end
                  else if match n with [] => name_start c | _ => name_char c end then Some (InEndTag (n ++ [c]), []) else None
  | InStartTag n => if is ">"%char then Some (InText, [Start n []])
                    else if is " "%char then Some (InAttrs n [], [])
                    else if name_char c then Some (InStartTag (n ++ [c]), []) else None
  | InAttrs n a => if is ">"%char then Some (InText, [Start n a])
                   else if is " "%char then Some (InAttrs n a, [])
                   else if name_start c then Some (InAttrName n a [c], []) else None
  | InAttrName n a k => if is "="%char then Some (AfterEq n a k, [])
                        else if name_char c then Some (InAttrName n a (k ++ [c]), []) else None
  | AfterEq n a k => if is (ascii_of_N 34) then Some (InAttrValue n a k [], []) else None
  | InAttrValue n a k v => if is (ascii_of_N 34) then Some (InAttrs n (a ++ [(k, v)]), [])
                           else if is "<"%char || is "&"%char then None
                           else Some (InAttrValue n a k (v ++ [c]), [])
  end.
Fixpoint read_from (p : pos) (doc : list byte) : option (pos * list event) :=
  match doc with
  | [] => Some (p, [])
  | c :: doc => match step p c with
                | None => None
                | Some (p, e) => match read_from p doc with None => None | Some (p, es) => Some (p, e ++ es) end
                end
  end.
(** the events of a whole document; [None] if it is malformed *)
Definition xml_read (doc : list byte) : option (list event) :=
  match read_from InText doc with Some (InText, es) => Some es | _ => None end.
