(** Model of the texts a program prints about itself: WriterWriteHelp (libutils/writer.c)
    and ManPageWrite (libutils/man.c), over the writers of WriterModel.
    Arrays end with an entry whose name is NULL ([None]); reading behind the end of an
    array is undefined behaviour, and so is NULL where a string is printed.  The formats
    are %s, %-Ns and %c only and are spelled out as the text they denote. *)
From Verif Require Import Prelude Str Libc InetModel EditModel WriterModel.
Set Implicit Arguments.

Definition LF : byte := ascii_of_N 10.
Definition QUOTE : byte := ascii_of_N 34.
(** each text and a newline behind it *)
Definition lines (ls : list (list byte)) : list byte := concat (map (fun l => l ++ [LF]) ls).
(** what %-Ns prints *)
Definition padded (n : nat) (s : list byte) : list byte := s ++ repeat " "%char (n - length s).

(** struct option of getopt_long (the member flag is not looked at) *)
Record option_t := mkOption { oname : option (list byte); ohas_arg : Z; oval : Z }.
(** libutils/writer.h:60-66 Description *)
Record Description := mkDescription { dname : option (list byte); ddescription : option (list byte); dusage : option (list byte) }.

(** a[i] *)
Definition elem {A} (a : list A) (i : nat) : res A := match nth_error a i with Some x => Ok x | None => UB end.
(** a char pointer printed with %s *)
Definition str (p : option (list byte)) : res (list byte) := match p with Some s => Ok s | None => UB end.
(** (char) v *)
Definition to_char (v : Z) : byte := ascii_of_N (Z.to_N (v mod 256)).
Definition fmt (w : Writer) (text : list byte) : res Writer := let* ' (w, _) := WriterWriteF w text in Ok w.
Definition put_text (w : Writer) (text : list byte) : res Writer := let* ' (w, _) := WriterWrite w text in Ok w.

(** ** libutils/writer.c *)
(** libutils/writer.c:289-317 WriterWriteOptions; [short_option] is the array of five chars *)
Fixpoint options_loop (fuel : nat) (w : Writer) (options : list option_t) (hints : list (option (list byte))) (i : nat) : res Writer :=
  match fuel with
  | O => Fuel
  | S f =>
      let* o := elem options i in
      match oname o with
      | None => Ok w
      | Some name =>
          let short_option := block (lit ", -*") in
          let* short_option := if (oval o <? 128)%Z then aset short_option 3 (to_char (oval o)) else aset short_option 0 NUL in
          let* short := mstr short_option in
          let* h := elem hints i in let* hint := str h in
          let* w := if (ohas_arg o =? 0)%Z
                    then fmt w (lit "  --" ++ padded 12 name ++ padded 10 short ++ lit " - " ++ hint ++ [LF])
                    else fmt w (lit "  --" ++ padded 12 name ++ short ++ lit " value - " ++ hint ++ [LF]) in
          options_loop f w options hints (S i)
      end
  end.
Definition WriterWriteOptions (w : Writer) (options : list option_t) (hints : list (option (list byte))) : res Writer :=
  let* w := fmt w ([LF] ++ lit "Options:" ++ [LF]) in
  options_loop (S (length options)) w options hints 0.

(** libutils/writer.c:319-329 WriterWriteCommands *)
Fixpoint commands_loop (fuel : nat) (w : Writer) (commands : list Description) (i : nat) : res Writer :=
  match fuel with
  | O => Fuel
  | S f =>
      let* c := elem commands i in
      match dname c with
      | None => Ok w
      | Some name =>
          let* description := str (ddescription c) in
          let* w := fmt w (lit "  " ++ padded 12 name ++ lit " - " ++ description ++ lit "." ++ [LF]) in
          let* usage := str (dusage c) in
          let* w := fmt w (lit "  " ++ padded 12 [] ++ lit "   Usage: " ++ usage ++ [LF]) in
          commands_loop f w commands (S i)
      end
  end.
Definition WriterWriteCommands (w : Writer) (commands : list Description) : res Writer :=
  let* w := fmt w ([LF] ++ lit "Commands:" ++ [LF]) in
  commands_loop (S (length commands)) w commands 0.

Definition is_some {A} (x : option A) : bool := match x with Some _ => true | None => false end.
(** libutils/writer.c:331-352 WriterWriteHelp *)
Definition WriterWriteHelp (w : Writer) (component : list byte) (options : list option_t) (hints : list (option (list byte)))
    (commands : option (list Description)) (command_first accepts_file_argument : bool) : res Writer :=
  let* w := fmt w (lit "Usage: " ++ component
                   ++ (if is_some commands && command_first then lit " COMMAND" else [])
                   ++ lit " [OPTIONS]"
                   ++ (if is_some commands && negb command_first then lit " COMMAND" else [])
                   ++ (if accepts_file_argument then lit " [FILE]" else []) ++ [LF]) in
  let* w := match commands with Some cs => if command_first then WriterWriteCommands w cs else Ok w | None => Ok w end in
  let* w := WriterWriteOptions w options hints in
  let* w := match commands with Some cs => if negb command_first then WriterWriteCommands w cs else Ok w | None => Ok w end in
  let* w := fmt w ([LF] ++ lit "Website: http://www.cfengine.com" ++ [LF]) in
  fmt w (lit "This software is Copyright (C) 2008,2010-present Northern.tech AS." ++ [LF]).

(** ** libutils/man.c *)
(** libutils/man.c:31-57 WriteCopyright *)
Definition copyright : list byte :=
  lines [lit ".\""Copyright 2021 Northern.tech AS";
    lit ".\""";
    lit ".\""This file is part of CFEngine 3 - written and maintained by Northern.tech AS.";
    lit ".\""";
    lit ".\""This program is free software; you can redistribute it and/or modify it";
    lit ".\""under the terms of the GNU General Public License as published by the";
    lit ".\""Free Software Foundation; version 3.";
    lit ".\""";
    lit ".\""This program is distributed in the hope that it will be useful,";
    lit ".\""but WITHOUT ANY WARRANTY; without even the implied warranty of";
    lit ".\""MERCHANTABILITY or FITNESS FOR A PARTICULAR PURPOSE.  See the";
    lit ".\""GNU General Public License for more details.";
    lit ".\""";
    lit ".\""You should have received a copy of the GNU General Public License";
    lit ".\""along with this program; if not, write to the Free Software";
    lit ".\""Foundation, Inc., 59 Temple Place - Suite 330, Boston, MA  02111-1307, USA";
    lit ".\""";
    lit ".\""To the extent this program is licensed as part of the Enterprise";
    lit ".\""versions of CFEngine, the applicable Commercial Open Source License";
    lit ".\""(COSL) may apply to this file if you as a licensee so wish it. See";
    lit ".\""included file COSL.txt."].
Definition WriteCopyright (w : Writer) : res Writer := put_text w copyright.

Section Man.
(** gmtime_r and strftime with %Y-%m-%d into 19 bytes; None: the time has no such date *)
Variable ymd : Z -> option (list byte).

(** libutils/man.c:59-73 WriteHeader *)
Definition WriteHeader (w : Writer) (program : list byte) (last_modified : Z) : res Writer :=
  let* program_upper := msnprintf (repeat (Some NUL) 256) 0 255 program in
  let* program_upper := ToUpperStrInplace program_upper in
  match ymd last_modified with
  | None => UB
  | Some date_modified =>
      let* upper := mstr program_upper in
      fmt w (lit ".TH " ++ upper ++ lit " 8 " ++ [QUOTE] ++ date_modified ++ [QUOTE] ++ lit " " ++ [QUOTE] ++ lit "CFEngine" ++ [QUOTE]
             ++ lit " " ++ [QUOTE] ++ lit "System Administration" ++ [QUOTE] ++ [LF])
  end.

(** libutils/man.c:75-86 WriteAvailability *)
Definition WriteAvailability (w : Writer) (program : list byte) : res Writer :=
  fmt w (lines [lit ".SH AVAILABILITY"; program ++ lit " is part of CFEngine."; lit ".br";
                lit "Binary packages may be downloaded from http://cfengine.com/downloads/."; lit ".br";
                lit "The source code is available at http://github.com/cfengine/"]).
(** libutils/man.c:88-95 WriteAuthor *)
Definition author : list byte := lines [lit ".SH AUTHOR"; lit "Mark Burgess and Northern.tech AS"].
Definition WriteAuthor (w : Writer) : res Writer := put_text w author.
(** libutils/man.c:97-104 WriteName *)
Definition WriteName (w : Writer) (program short_description : list byte) : res Writer :=
  fmt w (lit ".SH NAME" ++ [LF] ++ program ++ lit " \- " ++ short_description ++ [LF]).
(** libutils/man.c:106-129 WriteSynopsis *)
Definition WriteSynopsis (w : Writer) (program : list byte) (command command_first accepts_file_argument : bool) : res Writer :=
  let* w := put_text w (lit ".SH SYNOPSIS" ++ [LF]) in
  let* w := fmt w (lit ".B " ++ program ++ [LF]) in
  let* w := if command && command_first then put_text w (lit ".RI COMMAND" ++ [LF]) else Ok w in
  let* w := put_text w (lit ".RI [ OPTION ]..." ++ [LF]) in
  let* w := if command && negb command_first then put_text w (lit ".RI COMMAND" ++ [LF]) else Ok w in
  if accepts_file_argument then put_text w (lit ".RI [ FILE ]" ++ [LF]) else put_text w [LF].
(** libutils/man.c:131-134 WriteDescription *)
Definition WriteDescription (w : Writer) (description : list byte) : res Writer :=
  fmt w (lit ".SH DESCRIPTION" ++ [LF] ++ description ++ [LF]).
(** libutils/man.c:136-148 WriteCommands *)
Fixpoint man_commands_loop (fuel : nat) (w : Writer) (commands : list Description) (i : nat) : res Writer :=
  match fuel with
  | O => Fuel
  | S f =>
      let* c := elem commands i in
      match dname c with
      | None => Ok w
      | Some name =>
          let* w := fmt w (lit ".IP " ++ [QUOTE] ++ name ++ [QUOTE; LF]) in
          let* description := str (ddescription c) in
          let* w := fmt w (description ++ lit "." ++ [LF]) in
          let* w := put_text w (lit ".br" ++ [LF]) in
          let* usage := str (dusage c) in
          let* w := fmt w (lit "Usage: " ++ usage ++ [LF]) in
          man_commands_loop f w commands (S i)
      end
  end.
Definition WriteCommands (w : Writer) (commands : list Description) : res Writer :=
  let* w := put_text w (lit ".SH COMMANDS" ++ [LF]) in
  man_commands_loop (S (length commands)) w commands 0.
(** libutils/man.c:150-166 WriteOptions *)
Fixpoint man_options_loop (fuel : nat) (w : Writer) (options : list option_t) (hints : list (option (list byte))) (i : nat) : res Writer :=
  match fuel with
  | O => Fuel
  | S f =>
      let* o := elem options i in
      match oname o with
      | None => Ok w
      | Some name =>
          let* h := elem hints i in let* hint := str h in
          let* w := if (ohas_arg o =? 0)%Z
                    then fmt w (lit ".IP " ++ [QUOTE] ++ lit "--" ++ name ++ lit ", -" ++ [to_char (oval o)] ++ [QUOTE; LF] ++ hint ++ [LF])
                    else fmt w (lit ".IP " ++ [QUOTE] ++ lit "--" ++ name ++ lit ", -" ++ [to_char (oval o)] ++ lit " value" ++ [QUOTE; LF] ++ hint ++ [LF]) in
          man_options_loop f w options hints (S i)
      end
  end.
Definition WriteOptions (w : Writer) (options : list option_t) (hints : list (option (list byte))) : res Writer :=
  let* w := put_text w (lit ".SH OPTIONS" ++ [LF]) in
  man_options_loop (S (length options)) w options hints 0.
(** libutils/man.c:168-181 WriteSeeAlso *)
Definition see_also : list byte :=
  lines [lit ".SH ""SEE ALSO""";
    lit ".BR cf-promises (8),";
    lit ".BR cf-agent (8),";
    lit ".BR cf-serverd (8),";
    lit ".BR cf-execd (8),";
    lit ".BR cf-monitord (8),";
    lit ".BR cf-runagent (8),";
    lit ".BR cf-key (8)"].
Definition WriteSeeAlso (w : Writer) : res Writer := put_text w see_also.
(** libutils/man.c:183-192 WriteBugs *)
Definition bugs : list byte :=
  lines [lit ".SH BUGS";
    lit "Please see the public bug-tracker at http://bug.cfengine.com/.";
    lit ".br";
    lit "GitHub pull-requests may be submitted to http://github.com/cfengine/core/."].
Definition WriteBugs (w : Writer) : res Writer := put_text w bugs.
(** libutils/man.c:194-207 WriteCFEngine *)
Definition cfengine : list byte :=
  lines [lit ".SH CFENGINE";
    lit "CFEngine provides automated configuration management of large-scale computer systems. A system administrator describes the desired state of a system using CFEngine policy code. The program \fBcf-agent\fR reads policy code and attempts to bring the current system state to the desired state described. Policy code is downloaded by \fBcf-agent\fR from a \fBcf-serverd\fR daemon. The daemon \fBcf-execd\fR is responsible for running \fBcf-agent\fR periodically.";
    lit ".br";
    lit "Documentation for CFEngine is available at http://cfengine.com/documentation/."].
Definition WriteCFEngine (w : Writer) : res Writer := put_text w cfengine.
(** libutils/man.c:209-224 WritePromiseTheory *)
Definition promise_theory : list byte :=
  lines [lit ".SH PROMISE THEORY";
    lit "CFEngine is built on principles from promise theory, proposed by Mark Burgess in 2004. Promise theory is a model of voluntary cooperation between individual, autonomous actors or agents who publish their intentions to one another in the form of promises. A promise is a declaration of intent whose purpose is to increase the recipient's certainty about a claim of past, present or future behaviour. For a promise to increase certainty, the recipient needs to trust the promiser, but trust can also be built on the verification that previous promises have been kept, thus trust plays a symbiotic relationship with promises. ";
    lit ".br";
    lit "For an introduction to promise theory, please see http://arxiv.org/abs/0810.3294/"].
Definition WritePromiseTheory (w : Writer) : res Writer := put_text w promise_theory.

(** libutils/man.c:226-255 ManPageWrite; [epoch] is getenv of SOURCE_DATE_EPOCH *)
Definition ManPageWrite (w : Writer) (program : list byte) (last_modified : Z) (short_description long_description : list byte)
    (options : list option_t) (hints : list (option (list byte))) (commands : option (list Description))
    (command_first accepts_file_argument : bool) (epoch : option (list byte)) : res Writer :=
  let last_modified := match epoch with
                       | Some s => let '(overridetime, _, _) := strtol s in if (0 <? overridetime)%Z then overridetime else last_modified
                       | None => last_modified
                       end in
  let* w := WriteCopyright w in
  let* w := WriteHeader w program last_modified in
  let* w := WriteName w program short_description in
  let* w := WriteSynopsis w program (is_some commands) command_first accepts_file_argument in
  let* w := WriteDescription w long_description in
  let* w := match commands with Some cs => WriteCommands w cs | None => Ok w end in
  let* w := WriteOptions w options hints in
  let* w := WriteCFEngine w in
  let* w := WritePromiseTheory w in
  let* w := WriteAvailability w program in
  let* w := WriteBugs w in
  let* w := WriteSeeAlso w in
  WriteAuthor w.
End Man.
