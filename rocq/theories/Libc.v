(** The C library functions that libntech calls, as specifications (C11/POSIX,
    "C" locale).  Nothing here models code of /repo; it is the environment the
    modelled code runs in, and part of the trusted base. *)
From Verif Require Import Prelude Str.
Set Implicit Arguments.
Local Open Scope N_scope.

(** * ctype.h in the C locale.  libntech sometimes passes a plain [char]; for a
    negative char glibc's tables answer as for the unsigned value, which is what
    these definitions do. *)
Definition in_range (lo hi : N) (c : byte) : bool := (lo <=? code c) && (code c <=? hi).
Definition isdigit : byte -> bool := in_range 48 57.
Definition isupper : byte -> bool := in_range 65 90.
Definition islower : byte -> bool := in_range 97 122.
Definition isalpha (c : byte) : bool := isupper c || islower c.
Definition isalnum (c : byte) : bool := isalpha c || isdigit c.
Definition isspace (c : byte) : bool := in_range 9 13 c || (code c =? 32).
Definition isprint : byte -> bool := in_range 32 126.
Definition ispunct (c : byte) : bool := in_range 33 126 c && negb (isalnum c).
Definition tolower (c : byte) : byte := if isupper c then ascii_of_N (code c + 32) else c.

Local Close Scope N_scope.

(** * Read-only strings, given as the list of bytes before the terminator *)

Fixpoint prefixb (p s : list byte) : bool :=
  match p, s with
  | [], _ => true
  | x :: p', y :: s' => beq x y && prefixb p' s'
  | _ :: _, [] => false
  end.

(** strstr: index of the first occurrence *)
Fixpoint strstr (s f : list byte) : option nat :=
  if prefixb f s then Some 0
  else match s with [] => None | _ :: t => option_map S (strstr t f) end.

(** strchr: index of the first occurrence; the terminator counts *)
Fixpoint strchr (s : list byte) (c : byte) : option nat :=
  match s with
  | [] => if beq c NUL then Some 0 else None
  | x :: t => if beq x c then Some 0 else option_map S (strchr t c)
  end.

(** strcspn: length of the initial segment without characters of [set] *)
Fixpoint strcspn (s set : list byte) : nat :=
  match s with
  | [] => 0
  | x :: t => if existsb (beq x) set then 0 else S (strcspn t set)
  end.

(** * Writable buffers: arrays of cells *)

(** the C string stored at the start of a block (what strlen/strcpy would see) *)
Fixpoint mstr (m : cells byte) : res (list byte) :=
  match m with
  | Some c :: t => if beq c NUL then Ok [] else let* s := mstr t in Ok (c :: s)
  | _ => UB
  end.

(** strnlen *)
Fixpoint mstrnlen (m : cells byte) (max : nat) : res nat :=
  match max with
  | O => Ok 0
  | S max' => match m with
              | Some c :: t => if beq c NUL then Ok 0 else let* n := mstrnlen t max' in Ok (S n)
              | _ => UB
              end
  end.

(** a string constant or argument as a block: its bytes and the terminator *)
Definition block (s : list byte) : cells byte := map Some (s ++ [NUL]).

(** memset(m, c, n) *)
Definition mset (m : cells byte) (c : byte) (n : nat) : res (cells byte) :=
  if n <=? length m then Ok (repeat (Some c) n ++ skipn n m) else UB.

(** xcalloc(n, 1) *)
Definition calloc (n : nat) : cells byte := repeat (Some NUL) n.

(** * Numbers: decimal numerals *)
Definition digit_char (d : N) : byte := ascii_of_N (48 + d).

Fixpoint udec_aux (fuel : nat) (n : N) (acc : list byte) : list byte :=
  match fuel with
  | O => acc
  | S f => let acc' := digit_char (n mod 10) :: acc in
           if (n <? 10)%N then acc' else udec_aux f (n / 10)%N acc'
  end.
(** printf("%u"/"%zu") *)
Definition udec (n : N) : list byte := udec_aux (S (N.size_nat n)) n [].
(** printf("%d"/"%ld") *)
Definition sdec (z : Z) : list byte :=
  match z with
  | Zneg p => "-"%char :: udec (Npos p)
  | _ => udec (Z.to_N z)
  end.

Definition digit_val (c : byte) : N := (code c - 48)%N.
Definition undec (s : list byte) : N := fold_left (fun a c => (10 * a + digit_val c)%N) s 0%N.

Fixpoint span (p : byte -> bool) (s : list byte) : list byte * list byte :=
  match s with
  | c :: t => if p c then let '(a, b) := span p t in (c :: a, b) else ([], s)
  | [] => ([], [])
  end.

(** limits of the 64-bit long/intmax_t and 32-bit int of the modelled ABI *)
Definition LONG_MAX : Z := 2 ^ 63 - 1.
Definition LONG_MIN : Z := - 2 ^ 63.
Definition ULONG_MAX : Z := 2 ^ 64 - 1.
Definition INT_MAX : Z := 2 ^ 31 - 1.
Definition INT_MIN : Z := - 2 ^ 31.
(** a number no program can reach by counting: SIZE_MAX *)
Definition SIZE_MAX : N := (2 ^ 64 - 1)%N.

(** the sign and digits strtol consumes: (sign, digits, rest, consumed prefix
    length); digits empty when no conversion is possible *)
Definition strto_scan (s : list byte) : bool * list byte * nat :=
  let '(sp, r) := span isspace s in
  let '(neg, sg, r2) :=
    match r with
    | c :: t => if beq c "-"%char then (true, 1, t)
                else if beq c "+"%char then (false, 1, t) else (false, 0, r)
    | [] => (false, 0, r)
    end in
  let '(ds, _) := span isdigit r2 in
  (neg, ds, match ds with [] => 0 | _ => length sp + sg + length ds end).

(** strtol(s, &end, 10)/strtoimax: value, index of end, whether errno=ERANGE *)
Definition strtol (s : list byte) : Z * nat * bool :=
  let '(neg, ds, e) := strto_scan s in
  let v := if neg : bool then (- Z.of_N (undec ds))%Z else Z.of_N (undec ds) in
  if (v >? LONG_MAX)%Z then (LONG_MAX, e, true)
  else if (v <? LONG_MIN)%Z then (LONG_MIN, e, true)
  else (v, e, false).

(** strtoul(s, &end, 10): a minus sign negates modulo 2^64 *)
Definition strtoul (s : list byte) : Z * nat * bool :=
  let '(neg, ds, e) := strto_scan s in
  let a := Z.of_N (undec ds) in
  if (a >? ULONG_MAX)%Z then (ULONG_MAX, e, true)
  else ((if neg : bool then (- a) mod 2 ^ 64 else a)%Z, e, false).
