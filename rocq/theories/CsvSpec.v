(** What a CSV record is, independently of how it is parsed or written. *)
From Verif Require Import Prelude Str.
Set Implicit Arguments.

Definition is_quote (c : byte) : Prop := c = ascii_of_nat 34.
Definition is_comma (c : byte) : Prop := c = ","%char.
Definition is_blank (c : byte) : Prop := c = " "%char \/ c = ascii_of_nat 9 \/ c = ascii_of_nat 10 \/ c = ascii_of_nat 13.

(** A field is plain text, or a body in quotes between blanks. *)
Inductive field := Plain (t : list byte) | Quoted (pre body post : list byte).
Definition field_ok (f : field) : Prop :=
  match f with
  | Plain t => Forall (fun c => ~ is_quote c /\ ~ is_comma c) t
  | Quoted pre _ post => Forall is_blank pre /\ Forall is_blank post
  end.

(** inside quotes a quote is written twice *)
Definition double (b : list byte) : list byte := flat_map (fun c => if beq c (ascii_of_nat 34) then [c; c] else [c]) b.
Definition field_text (f : field) : list byte :=
  match f with
  | Plain t => t
  | Quoted pre b post => pre ++ [ascii_of_nat 34] ++ double b ++ [ascii_of_nat 34] ++ post
  end.
Definition field_value (f : field) : list byte := match f with Plain t => t | Quoted _ b _ => b end.

(** a record is its fields separated by commas *)
Definition record_text (fs : list field) : list byte := join [","%char] (map field_text fs).
Definition record (fs : list field) (s : list byte) : Prop := fs <> [] /\ Forall field_ok fs /\ s = record_text fs.

(** a CRLF at the very end of the record is not part of the last field *)
Definition without_crlf (t : list byte) : list byte :=
  let n := length t - 2 in
  if bytes_eqb (skipn n t) [ascii_of_nat 13; ascii_of_nat 10] then firstn n t else t.
Fixpoint values (fs : list field) : list (list byte) :=
  match fs with
  | [] => []
  | [f] => [match f with Plain t => without_crlf t | Quoted _ b _ => b end]
  | f :: r => field_value f :: values r
  end.

(** [s] can still become a record *)
Definition viable (s : list byte) : Prop := exists t fs, record fs (s ++ t).
