(** Specification of the env file format read by json-utils.c: KEY=VALUE lines. *)
From Verif Require Import Prelude Str Libc MemSpec EditSpec.
Set Implicit Arguments.

Definition EQ : byte := "=".
Definition BSL : byte := "\".
Definition NEWLINE : byte := ascii_of_nat 10.
Definition isquote (c : byte) : bool := beq c """" || beq c "'".

(** [v] is what the text [s] means: a backslash followed by n is a newline, a backslash
    followed by another character is that character; characters satisfying [stop] occur
    only behind a backslash *)
Inductive unescapes (stop : byte -> bool) : list byte -> list byte -> Prop :=
| un_nil : unescapes stop [] []
| un_plain c s v : c <> BSL -> stop c = false -> unescapes stop s v -> unescapes stop (c :: s) (c :: v)
| un_newline s v : unescapes stop s v -> unescapes stop (BSL :: "n"%char :: s) (NEWLINE :: v)
| un_char c s v : c <> "n"%char -> unescapes stop s v -> unescapes stop (BSL :: c :: s) (c :: v).

(** the right-hand side of an assignment (trimmed) and its value: unquoted text, or text
    in single or double quotes, where anything behind the closing quote is ignored and a
    missing closing quote is implied *)
Inductive env_value : list byte -> list byte -> Prop :=
| ev_plain s v : (forall c t, s = c :: t -> isquote c = false) -> unescapes isquote s v -> env_value s v
| ev_closed q s v junk : isquote q = true -> unescapes (beq q) s v -> env_value (q :: s ++ q :: junk) v
| ev_open q s v : isquote q = true -> unescapes (beq q) s v -> env_value (q :: s) v.

(** an unquoted text with a quote in the middle *)
Definition stray_quote (s : list byte) : Prop :=
  exists a va q b, s = a ++ q :: b /\ a <> [] /\ (forall c t, a = c :: t -> isquote c = false) /\ unescapes isquote a va /\ isquote q = true.

(** a right-hand side that ends in a backslash with nothing to escape *)
Definition dangling (s : list byte) : Prop :=
  (exists a va, s = a ++ [BSL] /\ (forall c t, a = c :: t -> isquote c = false) /\ unescapes isquote a va) \/
  (exists q a va, s = q :: a ++ [BSL] /\ isquote q = true /\ unescapes (beq q) a va).

(** [line] is, up to surrounding white space, an assignment of [rhs] to [key] *)
Definition assignment (line key rhs : list byte) : Prop :=
  exists t k r, stripped isspace line t /\ t = k ++ EQ :: r /\ k <> [] /\ ~ In EQ k /\ (forall c u, t = c :: u -> c <> "#"%char) /\
    stripped isspace k key /\ stripped isspace r rhs.
(** a line that assigns nothing: blank, a comment, without equal sign, or without key *)
Definition no_assignment (line : list byte) : Prop :=
  exists t, stripped isspace line t /\
    (t = [] \/ (exists u, t = "#"%char :: u) \/ ~ In EQ t \/ (exists u, t = EQ :: u)).

(** what a line contributes *)
Inductive env_line (line : list byte) : option (list byte * list byte) -> Prop :=
| el_none : no_assignment line -> env_line line None
| el_stray key rhs : assignment line key rhs -> stray_quote rhs -> env_line line None
| el_pair key rhs v : assignment line key rhs -> env_value rhs v -> env_line line (Some (key, v)).
Definition dangling_line (line : list byte) : Prop := exists key rhs, assignment line key rhs /\ dangling rhs.
