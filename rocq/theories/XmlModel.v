(** Model of libutils/xml_writer.c on top of the writer model.  The NULL writer / tag name
    checks (ProgrammingError or silent return) are left out: the model's arguments
    are never NULL, except XmlTag's value. *)
From Verif Require Import Prelude Str Libc WriterModel.
Set Implicit Arguments.

(** libutils/xml_writer.h:31-35 XmlAttribute: name and value *)
Definition XmlAttribute : Type := list byte * list byte.

Definition put_text (w : Writer) (s : list byte) : res Writer := let* ' (w, _) := WriterWrite w s in Ok w.
Definition put_fmt (w : Writer) (s : list byte) : res Writer := let* ' (w, _) := WriterWriteF w s in Ok w.
Definition put_char (w : Writer) (c : byte) : res Writer := let* ' (w, _) := WriterWriteChar w c in Ok w.

Definition cAMP : byte := "&"%char.
Definition cGT : byte := ">"%char.
Definition cLT : byte := "<"%char.
Definition cQUOT : byte := ascii_of_N 34.
Definition cAPOS : byte := "'"%char.
Definition cNL : byte := ascii_of_N 10.

(** xml_writer.c:133-158 WriteEscaped *)
Fixpoint WriteEscaped (w : Writer) (source : list byte) : res Writer :=
  match source with
  | [] => Ok w
  | c :: rest =>
      let* w := if beq c cAMP then put_text w (lit "&amp;")
                else if beq c cGT then put_text w (lit "&gt;")
                else if beq c cQUOT then put_text w (lit "&quot;")
                else if beq c cAPOS then put_text w (lit "&apos;")
                else if beq c cLT then put_text w (lit "&lt;")
                else put_char w c in
      WriteEscaped w rest
  end.

(** xml_writer.c:33-43 XmlComment *)
Definition XmlComment (w : Writer) (comment : list byte) : res Writer :=
  let* w := put_text w (lit "<!-- ") in
  let* w := WriteEscaped w comment in
  put_text w (lit " -->" ++ [cNL]).

Fixpoint emit_attrs (w : Writer) (attrs : list XmlAttribute) : res Writer :=
  match attrs with
  | [] => Ok w
  | (name, value) :: attrs => let* w := put_fmt w (name ++ lit "=" ++ [cQUOT] ++ value ++ [cQUOT] ++ lit " ") in emit_attrs w attrs
  end.
(** xml_writer.c:47-64 XmlEmitStartTag; the variadic arguments are a list *)
Definition XmlEmitStartTag (w : Writer) (tag_name : list byte) (attrs : list XmlAttribute) : res Writer :=
  let* w := put_fmt w (lit "<" ++ tag_name) in
  let* w := if 0 <? length attrs then put_text w (lit " ") else Ok w in
  let* w := emit_attrs w attrs in
  put_text w (lit ">").
(** xml_writer.c:68-82 XmlStartTag *)
Definition XmlStartTag (w : Writer) (tag_name : list byte) (attrs : list XmlAttribute) : res Writer :=
  let* w := XmlEmitStartTag w tag_name attrs in
  put_text w [cNL].
(** xml_writer.c:86-94 XmlEndTag *)
Definition XmlEndTag (w : Writer) (tag_name : list byte) : res Writer :=
  put_fmt w (lit "</" ++ tag_name ++ lit ">" ++ [cNL]).
(** xml_writer.c:98-117 XmlTag *)
Definition XmlTag (w : Writer) (tag_name : list byte) (value : option (list byte)) (attrs : list XmlAttribute) : res Writer :=
  let* w := XmlEmitStartTag w tag_name attrs in
  let* w := match value with Some v => WriteEscaped w v | None => Ok w end in
  XmlEndTag w tag_name.
(** xml_writer.c:121-129 XmlContent *)
Definition XmlContent (w : Writer) (value : list byte) : res Writer := WriteEscaped w value.
