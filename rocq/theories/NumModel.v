(** Model of the integer conversions of libutils/string_lib.c.  A conversion returns
    its int result and what was stored through value_out (None: not modified).
    strtol, strtoul and strtoimax are the ones of Libc.v; long and int64_t are both
    64-bit two's complement.  Logging is not modelled. *)
From Verif Require Import Prelude Str Libc.
Set Implicit Arguments.
Local Open Scope Z_scope.

Definition ERANGE : Z := 34.

(** isspace applied to a plain char: a negative value other than EOF is undefined *)
Definition isspace_char (c : byte) : res bool :=
  if ((128 <=? code c) && negb (code c =? 255))%N then UB else Ok (isspace c).

(** the checks all three conversions make on *endptr *)
Definition bad_end (s : list byte) (e : nat) : res bool :=
  let* c := chr s e in
  if beq c NUL then Ok false else let* sp := isspace_char c in Ok (negb sp).

(** libutils/string_lib.c:491-529 StringToLong *)
Definition StringToLong (s : list byte) : res (Z * option Z) :=
  let '(val, e, erange) := strtol s in
  if erange && ((val =? LONG_MAX) || (val =? LONG_MIN)) then Ok (ERANGE, None)
  else if (e =? 0)%nat then Ok (-81, None)
  else
    let* bad := bad_end s e in
    if bad : bool then Ok (-83, None)
    else if erange : bool then Ok (ERANGE, None)
    else Ok (0, Some val).

(** libutils/string_lib.c:765-805 StringToInt64: strtoimax is strtol on the modelled ABI *)
Definition StringToInt64 (s : list byte) : res (Z * option Z) :=
  let '(val, e, erange) := strtol s in
  if erange && ((val =? LONG_MAX) || (val =? LONG_MIN)) then Ok (ERANGE, None)
  else if (e =? 0)%nat then Ok (-81, None)
  else
    let* bad := bad_end s e in
    if bad : bool then Ok (-83, None)
    else if erange : bool then Ok (ERANGE, None)
    else Ok (0, Some val).

(** libutils/string_lib.c:656-705 StringToUlong: the loop
    [while (ch < endptr && isspace( *ch)) ch++;] *)
Fixpoint skip_blank (fuel ch : nat) (s : list byte) (e : nat) : res nat :=
  match fuel with
  | O => Fuel
  | S g => if (ch <? e)%nat then
             let* c := chr s ch in let* sp := isspace_char c in
             if sp : bool then skip_blank g (S ch) s e else Ok ch
           else Ok ch
  end.
(** libutils/string_lib.c:656-705 StringToUlong *)
Definition StringToUlong (s : list byte) : res (Z * option Z) :=
  let '(val, e, erange) := strtoul s in
  if erange && (val =? ULONG_MAX) then Ok (ERANGE, None)
  else
    let* neg := (if 0 <? val then
                   let* ch := skip_blank (S (length s)) 0 s e in
                   let* c := chr s ch in Ok (beq c "-"%char)
                 else Ok false) in
    if neg : bool then Ok (ERANGE, None)
    else if (e =? 0)%nat then Ok (-81, None)
    else
      let* bad := bad_end s e in
      if bad : bool then Ok (-83, None)
      else if erange : bool then Ok (ERANGE, None)
      else Ok (0, Some val).

(** libutils/string_lib.c:604-615 StringToLongDefaultOnError *)
Definition StringToLongDefaultOnError (s : list byte) (default : Z) : res Z :=
  let* ' (code, out) := StringToLong s in
  if negb (code =? 0) then Ok default else Ok (match out with Some v => v | None => 0 end).
(** libutils/string_lib.c:842-853 StringToInt64DefaultOnError *)
Definition StringToInt64DefaultOnError (s : list byte) (default : Z) : res Z :=
  let* ' (code, out) := StringToInt64 s in
  if negb (code =? 0) then Ok default else Ok (match out with Some v => v | None => 0 end).
(** libutils/string_lib.c:716-727 StringToUlongDefaultOnError *)
Definition StringToUlongDefaultOnError (s : list byte) (default : Z) : res Z :=
  let* ' (code, out) := StringToUlong s in
  if negb (code =? 0) then Ok default else Ok (match out with Some v => v | None => 0 end).

(** libutils/string_lib.c:628-639 StringToLongExitOnError: DoCleanupAndExit is Abort; result
    is uninitialised until the conversion stores it *)
Definition StringToLongExitOnError (s : list byte) : res Z :=
  let* ' (code, out) := StringToLong s in
  if negb (code =? 0) then Abort else match out with Some v => Ok v | None => UB end.
(** libutils/string_lib.c:819-831 StringToInt64ExitOnError *)
Definition StringToInt64ExitOnError (s : list byte) : res Z :=
  let* ' (code, out) := StringToInt64 s in
  if negb (code =? 0) then Abort else match out with Some v => Ok v | None => UB end.
(** libutils/string_lib.c:741-752 StringToUlongExitOnError *)
Definition StringToUlongExitOnError (s : list byte) : res Z :=
  let* ' (code, out) := StringToUlong s in
  if negb (code =? 0) then Abort else match out with Some v => Ok v | None => UB end.

(** libutils/printsize.h:66 PRINTSIZE(INT_MAX) with 4-byte int *)
Definition PRINTSIZE_INT : nat := (3 + 53 * 4 / 22)%nat.

(** libutils/string_lib.c:542-564 StringDecimalToLong *)
Definition StringDecimalToLong (s : list byte) : res (Z * option Z) :=
  let len := strcspn s (lit ".") in
  if (PRINTSIZE_INT <? len)%nat then Ok (-84, None)
  else
    let* c := chr s len in
    if (len =? 0)%nat || beq c NUL then StringToLong s
    else
      let* m := acopy (repeat None (len + 1)) 0 (block s) 0 len in
      let* m := aset m len NUL in
      let* t := mstr m in
      StringToLong t.

(** libutils/string_lib.c:877-882 StringFromLong: snprintf(str, 32, "%ld", number) on a
    calloc'ed array writes at most 31 characters and a terminator *)
Definition StringFromLong (number : Z) : res (cells byte) :=
  let text := firstn 31 (sdec number) in
  acopy (calloc 32) 0 (block text) 0 (S (length text)).

(** libutils/string_lib.c:864-875 StringToLongUnsafe *)
Definition StringToLongUnsafe (s : list byte) : res Z :=
  let '(val, e, _) := strtol s in
  let* c := chr s e in
  massert (beq c NUL) (Ok val).
