(** Bytes and C strings.  Models nothing in particular; used by every
    string-handling module. *)
From Verif Require Import Prelude.
From Coq Require Export Ascii.
From Coq Require String.
Export String.StringSyntax.
Export ListNotations.
Open Scope list_scope.
Set Implicit Arguments.

(** one char of memory *)
Notation byte := ascii.
Definition NUL : byte := Ascii.zero.
Definition code (c : byte) : N := N_of_ascii c.
(** value of a char when char is signed (x86-64, arm64 Linux with gcc: signed on x86-64) *)
Definition scode (c : byte) : Z :=
  let n := Z.of_N (code c) in if (n <? 128)%Z then n else (n - 256)%Z.
Definition beq (a b : byte) : bool := Ascii.eqb a b.

(** a literal as a list of bytes *)
Definition lit (s : String.string) : list byte := String.list_ascii_of_string s.
Arguments lit s%string_scope.

(** a C string is the list of bytes before its terminator *)
Definition is_cstr (s : list byte) : Prop := ~ In NUL s.

(** read s[i] of a NUL-terminated string: the bytes, then the terminator, then
    memory that does not belong to the string *)
Definition chr (s : list byte) (i : nat) : res byte :=
  match nth_error (s ++ [NUL]) i with Some c => Ok c | None => UB end.

(** bytes of a memory block up to the first NUL (strlen/strcpy view) *)
Fixpoint upto_nul (s : list byte) : list byte :=
  match s with [] => [] | c :: t => if beq c NUL then [] else c :: upto_nul t end.

Definition bytes_eqb : list byte -> list byte -> bool :=
  fix go a b := match a, b with
                | [], [] => true
                | x :: a, y :: b => beq x y && go a b
                | _, _ => false
                end.

(** pieces joined by a separator *)
Fixpoint join (sep : list byte) (ps : list (list byte)) : list byte :=
  match ps with
  | [] => []
  | [p] => p
  | p :: ps' => p ++ sep ++ join sep ps'
  end.
