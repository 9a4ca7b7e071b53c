(** Model of libcompat/snprintf.c: rpl_vsnprintf and rpl_vasprintf.

    Locale "C" (thousands_sep is empty), LP64 (long, long long, size_t, ptrdiff_t, intmax_t and
    pointers have 64 bits).  A floating point value is an exact number (Q), -0, an infinity or not a
    number, and long double arithmetic is exact: the rounding of its 64-bit mantissa is left out.  A variable argument is a value with its type; reading an argument of
    another type is UB, except that int and unsigned int, and the 64-bit types among each other,
    are read modulo 2^32 and 2^64. *)
From Coq Require Import QArith.
From Verif Require Import Prelude Str Libc.
Local Close Scope Q_scope.
Set Implicit Arguments.

(** the values of double and long double *)
Inductive ldouble := Finite (q : Q) | MinusZero | Infinite (negative : bool) | NotANumber.
Inductive arg :=
| AInt (z : Z)                       (* int or unsigned int *)
| ALong (z : Z)                      (* one of the 64-bit types *)
| AStr (s : option (cells byte))     (* char *: NULL or an area of memory *)
| APtr (p : Z)                       (* void *: an address *)
| AFloat (long : bool) (x : ldouble) (* double or long double *)
| AOut.                              (* a pointer to an integer, for %n *)

Inductive pstate := PRINT_S_DEFAULT | PRINT_S_FLAGS | PRINT_S_WIDTH | PRINT_S_DOT | PRINT_S_PRECISION | PRINT_S_MOD | PRINT_S_CONV.
Inductive pmod := PRINT_C_NONE | PRINT_C_CHAR | PRINT_C_SHORT | PRINT_C_LONG | PRINT_C_LLONG | PRINT_C_LDOUBLE | PRINT_C_SIZE | PRINT_C_PTRDIFF | PRINT_C_INTMAX.
(** the bits PRINT_F_MINUS, PLUS, SPACE, NUM, ZERO, QUOTE, UP, UNSIGNED *)
Record pflags := mkF { F_MINUS : bool; F_PLUS : bool; F_SPACE : bool; F_NUM : bool; F_ZERO : bool; F_QUOTE : bool; F_UP : bool; F_UNSIGNED : bool }.
Definition no_flags : pflags := mkF false false false false false false false false.

(** conversions to the integer types of [b] bits *)
Definition unsigned_of (b : Z) (z : Z) : Z := (z mod 2 ^ b)%Z.
Definition signed_of (b : Z) (z : Z) : Z := ((z + 2 ^ (b - 1)) mod 2 ^ b - 2 ^ (b - 1))%Z.

(** what is written: str and *len *)
Record out := mkOut { str : cells byte; len : nat }.
(** libcompat/snprintf.c:518-523 OUTCHAR *)
Definition OUTCHAR (size : nat) (o : out) (ch : byte) : res out :=
  let* s := (if len o + 1 <? size then aset (str o) (len o) ch else Ok (str o)) in
  Ok (mkOut s (len o + 1)).
(** while (n-- > 0) OUTCHAR(str, *len, size, ch) *)
Fixpoint out_n (size n : nat) (o : out) (ch : byte) : res out :=
  match n with O => Ok o | S n => let* o := OUTCHAR size o ch in out_n size n o ch end.

(** libcompat/snprintf.c:941-973 fmtstr: the first loop, strln *)
Fixpoint strln_loop (fuel : nat) (value : cells byte) (precision : option nat) (strln : nat) : res nat :=
  match fuel with
  | O => Fuel
  | S f =>
      let* c := aget value strln in
      if negb (beq c NUL) && (match precision with None => true | Some p => strln <? p end)
      then strln_loop f value precision (S strln) else Ok strln
  end.
(** the loop that writes the string *)
Fixpoint str_loop (fuel : nat) (size : nat) (o : out) (value : cells byte) (i : nat) (precision : option nat) : res out :=
  match fuel with
  | O => Fuel
  | S f =>
      let* c := aget value i in
      if negb (beq c NUL) && (match precision with None => true | Some p => 0 <? p end)
      then let* o := OUTCHAR size o c in str_loop f size o value (S i) (match precision with None => None | Some p => Some (p - 1) end)
      else Ok o
  end.
(** libcompat/snprintf.c:941-973 fmtstr; precision -1 is None; strln is an int *)
Definition fmtstr (size : nat) (o : out) (value : option (cells byte)) (width : nat) (precision : option nat) (fl : pflags) : res out :=
  let value := match value with None => block (lit "(null)") | Some v => v end in
  let* strln := strln_loop (S (length value)) value precision 0 in
  if (INT_MAX <? Z.of_nat strln)%Z then UB
  else
    let padlen := width - strln in
    let* o := (if F_MINUS fl then Ok o else out_n size padlen o " "%char) in
    let* o := str_loop (S (length value)) size o value 0 precision in
    if F_MINUS fl then out_n size padlen o " "%char else Ok o.

(** libcompat/snprintf.c:1419-1432 convert *)
Definition digits_lower : list byte := lit "0123456789abcdef".
Definition digits_upper : list byte := lit "0123456789ABCDEF".
Fixpoint convert_loop (fuel : nat) (value : Z) (buf : cells byte) (size : nat) (base : Z) (digits : list byte) (pos : nat) : res (cells byte * nat) :=
  match fuel with
  | O => Fuel
  | S f =>
      let* d := chr digits (Z.to_nat (value mod base)) in
      let* buf := aset buf pos d in
      let value := (value / base)%Z in
      if negb (value =? 0)%Z && (S pos <? size) then convert_loop f value buf size base digits (S pos) else Ok (buf, S pos)
  end.
Definition MAX_CONVERT_LENGTH : nat := 43.
Definition convert (value : Z) (base : Z) (caps : bool) : res (cells byte * nat) :=
  convert_loop (S MAX_CONVERT_LENGTH) value (repeat None MAX_CONVERT_LENGTH) MAX_CONVERT_LENGTH base (if caps then digits_upper else digits_lower) 0.
(** the loop that writes the digits, last one first; no separators *)
Fixpoint digits_out (size : nat) (o : out) (buf : cells byte) (pos : nat) : res out :=
  match pos with
  | O => Ok o
  | S pos => let* c := aget buf pos in let* o := OUTCHAR size o c in digits_out size o buf pos
  end.

Definition INT_MIN : Z := (- 2 ^ 31)%Z.
(** a difference computed in int *)
Definition int_sub (a b : Z) : res Z := if (a - b <? INT_MIN)%Z then UB else Ok (a - b)%Z.

(** libcompat/snprintf.c:975-1074 fmtint; precision -1 is -1.  separators is 0. *)
Definition fmtint (size : nat) (o : out) (value : Z) (base : Z) (width precision : Z) (fl : pflags) : res out :=
  let noprecision := (precision =? -1)%Z in
  let* ' (uvalue, sign) :=
    (if F_UNSIGNED fl then Ok (unsigned_of 64 value, None)
     else
       let* u := (if (0 <=? value)%Z then Ok value else if (value =? - 2 ^ 63)%Z then UB else Ok (- value)%Z) in
       Ok (u, if (value <? 0)%Z then Some "-"%char else if F_PLUS fl then Some "+"%char else if F_SPACE fl then Some " "%char else None)) in
  let* ' (iconvert, pos) := convert uvalue base (F_UP fl) in
  let alt := F_NUM fl && negb (uvalue =? 0)%Z in
  let precision := if alt && (base =? 8)%Z && (precision <=? Z.of_nat pos)%Z then (Z.of_nat pos + 1)%Z else precision in
  let hexprefix := if alt && (base =? 16)%Z then Some (if F_UP fl then "X"%char else "x"%char) else None in
  let zpadlen := (precision - Z.of_nat pos)%Z in
  let* spadlen := int_sub width (Z.max precision (Z.of_nat pos)) in
  let* spadlen := int_sub spadlen (match sign with Some _ => 1 | None => 0 end) in
  let* spadlen := int_sub spadlen (match hexprefix with Some _ => 2 | None => 0 end) in
  let zpadlen := Z.max 0 zpadlen in
  let spadlen := Z.max 0 spadlen in
  (* the zero flag; the sum of the paddings is an int, since spadlen + precision <= width if it is positive *)
  let '(lead, zpadlen) := if F_MINUS fl then (0%Z, zpadlen)
                          else if F_ZERO fl && noprecision then (0%Z, (zpadlen + spadlen)%Z) else (spadlen, zpadlen) in
  let trail := if F_MINUS fl then spadlen else 0%Z in
  let* o := out_n size (Z.to_nat lead) o " "%char in
  let* o := (match sign with Some c => OUTCHAR size o c | None => Ok o end) in
  let* o := (match hexprefix with Some c => let* o := OUTCHAR size o "0"%char in OUTCHAR size o c | None => Ok o end) in
  let* o := out_n size (Z.to_nat zpadlen) o "0"%char in
  let* o := digits_out size o iconvert pos in
  out_n size (Z.to_nat trail) o " "%char.

(** * Floating point *)
Definition UINTMAX_MAX : Z := (2 ^ 64 - 1)%Z.
Definition Qltb (a b : Q) : bool := negb (Qle_bool b a).
(** the conversion of a floating point value to an integer type *)
Definition trunc (q : Q) : Z := Z.quot (Qnum q) (Zpos (Qden q)).
(** libcompat/snprintf.c:1434-1456 cast *)
Definition cast (value : Q) : Z :=
  if Qle_bool (inject_Z UINTMAX_MAX) value then UINTMAX_MAX
  else
    let result := trunc value in
    if Qle_bool (inject_Z result) value then result else (result - 1)%Z.
(** libcompat/snprintf.c:1458-1464 myround *)
Definition myround (value : Q) : Z :=
  let intpart := cast value in
  let value := (value - inject_Z intpart)%Q in
  if Qltb value (1 # 2) then intpart else (intpart + 1)%Z.
(** libcompat/snprintf.c:1466-1480 mypow10: its two loops *)
Fixpoint times10 (n : nat) (result : Q) : Q := match n with O => result | S n => times10 n (result * 10)%Q end.
Fixpoint over10 (n : nat) (result : Q) : Q := match n with O => result | S n => over10 n (result / 10)%Q end.
Definition mypow10 (exponent : Z) : Q := over10 (Z.to_nat (- exponent)) (times10 (Z.to_nat exponent) 1%Q).
(** libcompat/snprintf.c:1398-1417 getexponent: its two loops *)
Fixpoint exponent_down (fuel : nat) (tmp : Q) (exponent : Z) : res (Q * Z) :=
  match fuel with
  | O => Fuel
  | S f =>
      if Qltb tmp 1 && Qltb 0 tmp then
        let exponent := (exponent - 1)%Z in
        if (exponent >? -99)%Z then exponent_down f (tmp * 10)%Q exponent else Ok (tmp, exponent)
      else Ok (tmp, exponent)
  end.
Fixpoint exponent_up (fuel : nat) (tmp : Q) (exponent : Z) : res Z :=
  match fuel with
  | O => Fuel
  | S f =>
      if Qle_bool 10 tmp then
        let exponent := (exponent + 1)%Z in
        if (exponent <? 99)%Z then exponent_up f (tmp / 10)%Q exponent else Ok exponent
      else Ok exponent
  end.
Definition getexponent (value : Q) : res Z :=
  let tmp := if Qle_bool 0 value then value else (- value)%Q in
  let* ' (tmp, exponent) := exponent_down 100 tmp 0%Z in
  exponent_up 100 tmp exponent.

(** libcompat/snprintf.c:1163-1242 fmtflt: from the label again to the test for the other style; precision,
    intpart, fracpart and exponent, None: overflow *)
Definition float_parts (fvalue : Q) (estyle : bool) (precision exponent : Z) : option (Z * Z * Z * Z) :=
  let precision := if (precision >? 19)%Z then 19%Z else precision in
  let ufvalue := if Qle_bool 0 fvalue then fvalue else (- fvalue)%Q in
  let ufvalue := if estyle then (ufvalue / mypow10 exponent)%Q else ufvalue in
  let intpart := cast ufvalue in
  if (intpart =? UINTMAX_MAX)%Z then None
  else
    let mask := trunc (mypow10 precision) in
    let fracpart := myround (inject_Z mask * (ufvalue - inject_Z intpart))%Q in
    if (fracpart >=? mask)%Z then
      let intpart := (intpart + 1)%Z in
      if estyle && (intpart =? 10)%Z then Some (precision, 1%Z, 0%Z, (exponent + 1)%Z) else Some (precision, intpart, 0%Z, exponent)
    else Some (precision, intpart, fracpart, exponent).

(** libcompat/snprintf.c:1248-1271 fmtflt: the exponent, backwards *)
Definition exponent_chars (exponent : Z) (up : bool) : res (cells byte * nat) :=
  let '(exponent, esign) := if (exponent <? 0)%Z then ((- exponent)%Z, "-"%char) else (exponent, "+"%char) in
  let* ' (econvert, epos) := convert_loop 3 exponent (repeat None 4) 2 10 digits_lower 0 in
  let* ' (econvert, epos) := (if epos =? 1 then let* econvert := aset econvert epos "0"%char in Ok (econvert, S epos) else Ok (econvert, epos)) in
  let* econvert := aset econvert epos esign in
  let* econvert := aset econvert (S epos) (if up then "E"%char else "e"%char) in
  Ok (econvert, S (S epos)).
(** while (omitcount < fpos && fconvert[omitcount] == '0') omitcount++ *)
Fixpoint omit_loop (fuel : nat) (fconvert : cells byte) (fpos omitcount : nat) : res nat :=
  match fuel with
  | O => Fuel
  | S f =>
      if omitcount <? fpos then
        let* c := aget fconvert omitcount in
        if beq c "0" then omit_loop f fconvert fpos (S omitcount) else Ok omitcount
      else Ok omitcount
  end.
(** while (fpos > omitcount) ... OUTCHAR(str, *len, size, fconvert[fpos]) *)
Fixpoint frac_out (size : nat) (o : out) (fconvert : cells byte) (fpos omitcount : nat) : res out :=
  match fpos with
  | O => Ok o
  | S fpos =>
      if omitcount <? S fpos then
        let* c := aget fconvert fpos in let* o := OUTCHAR size o c in frac_out size o fconvert fpos omitcount
      else Ok o
  end.
Definition char_out (size : nat) (o : out) (c : option byte) : res out := match c with Some c => OUTCHAR size o c | None => Ok o end.
(** libcompat/snprintf.c:1248-1363 fmtflt: the rest, from the conversion of the exponent.  separators is 0,
    the decimal point is that of the locale. *)
Definition float_out (size : nat) (o : out) (sign : option byte) (width : Z) (fl : pflags) (estyle omitzeros : bool)
    (precision intpart fracpart exponent : Z) : res out :=
  let* ' (econvert, epos) := (if estyle then exponent_chars exponent (F_UP fl) else Ok (repeat None 4, 0)) in
  let* ' (iconvert, ipos) := convert intpart 10 false in
  let* ' (fconvert, fpos) := (if negb (fracpart =? 0)%Z then convert fracpart 10 false else Ok (repeat None MAX_CONVERT_LENGTH, 0)) in
  let leadfraczeros := (precision - Z.of_nat fpos)%Z in
  let* ' (omitcount, leadfraczeros) :=
    (if omitzeros then
       if 0 <? fpos then let* omitcount := omit_loop (S fpos) fconvert fpos 0 in Ok (omitcount, leadfraczeros)
       else Ok (Z.to_nat precision, 0%Z)
     else Ok (0, leadfraczeros)) in
  let precision := (precision - Z.of_nat omitcount)%Z in
  let emitpoint := (precision >? 0)%Z || F_NUM fl in
  let padlen := (width - Z.of_nat ipos - Z.of_nat epos - precision - (if emitpoint then 1 else 0) - (match sign with Some _ => 1 | None => 0 end))%Z in
  let padlen := if (padlen <? 0)%Z then 0%Z else padlen in
  let zero := negb (F_MINUS fl) && F_ZERO fl && (padlen >? 0)%Z in
  let* o := (if zero then let* o := char_out size o sign in out_n size (Z.to_nat padlen) o "0"%char else Ok o) in
  let* o := (if F_MINUS fl || zero then Ok o else out_n size (Z.to_nat padlen) o " "%char) in
  let* o := (if zero then Ok o else char_out size o sign) in
  let* o := digits_out size o iconvert ipos in
  let* o := char_out size o (if emitpoint then Some "."%char else None) in
  let* o := out_n size (Z.to_nat leadfraczeros) o "0"%char in
  let* o := frac_out size o fconvert fpos omitcount in
  let* o := digits_out size o econvert epos in
  if F_MINUS fl then out_n size (Z.to_nat padlen) o " "%char else Ok o.

(** neither PRINT_F_TYPE_E nor PRINT_F_TYPE_G, the first, the second *)
Inductive fstyle := STYLE_F | STYLE_E | STYLE_G.
Definition is_G (s : fstyle) : bool := match s with STYLE_G => true | _ => false end.
(** libcompat/snprintf.c:1076-1363 fmtflt; None: overflow.  For an infinity or NaN, fmtstr also looks at the
    byte of iconvert behind the characters, which is not initialised and does not matter
    (PrintfFloat5.next_byte): here it is NUL. *)
Definition fmtflt (size : nat) (o : out) (fvalue : ldouble) (width precision : Z) (fl : pflags) (style : fstyle) : res (option out) :=
  let precision := if (precision =? -1)%Z then 6%Z else precision in
  let negative := match fvalue with Finite q => Qltb q 0 | Infinite n => n | MinusZero | NotANumber => false end in
  let sign := if negative then Some "-"%char else if F_PLUS fl then Some "+"%char else if F_SPACE fl then Some " "%char else None in
  let infnan s :=
    (let chars := match sign with Some c => [c] | None => [] end ++ s in
     let* o := fmtstr size o (Some (block chars)) (Z.to_nat width) (Some (length chars)) fl in
     Ok (Some o)) in
  let finite q :=
    (let precision := if is_G style then (precision - 1)%Z else precision in
     let omitzeros := is_G style && negb (F_NUM fl) in
     let estyle := match style with STYLE_F => false | _ => true end in
     let* exponent := (if estyle then getexponent q else Ok 0%Z) in
     match float_parts q estyle precision exponent with
     | None => Ok None
     | Some (precision, intpart, fracpart, exponent) =>
         if is_G style && (precision + 1 >? exponent)%Z && (exponent >=? -4)%Z then
           match float_parts q false (precision - exponent)%Z exponent with
           | None => Ok None
           | Some (precision, intpart, fracpart, exponent) =>
               let* o := float_out size o sign width fl false omitzeros precision intpart fracpart exponent in Ok (Some o)
           end
         else let* o := float_out size o sign width fl estyle omitzeros precision intpart fracpart exponent in Ok (Some o)
     end) in
  match fvalue with
  | NotANumber => infnan (if F_UP fl then lit "NAN" else lit "nan")
  | Infinite _ => infnan (if F_UP fl then lit "INF" else lit "inf")
  | MinusZero => finite 0%Q
  | Finite q => finite q
  end.

(** va_arg for int, the 64-bit types, char *, void *, double and long double, and the pointers of %n *)
Definition va_int (a : list arg) : res (Z * list arg) := match a with AInt z :: a => Ok (z, a) | _ => UB end.
Definition va_long (a : list arg) : res (Z * list arg) := match a with ALong z :: a => Ok (z, a) | _ => UB end.
Definition va_str (a : list arg) : res (option (cells byte) * list arg) := match a with AStr s :: a => Ok (s, a) | _ => UB end.
Definition va_ptr (a : list arg) : res (Z * list arg) := match a with APtr z :: a => Ok (z, a) | _ => UB end.
Definition va_float (m : pmod) (a : list arg) : res (ldouble * list arg) :=
  match a with
  | AFloat long x :: a => if Bool.eqb long (match m with PRINT_C_LDOUBLE => true | _ => false end) then Ok (x, a) else UB
  | _ => UB
  end.
Definition va_out (a : list arg) : res (list arg) := match a with AOut :: a => Ok a | _ => UB end.

(** the value of the conversions d, i *)
Definition signed_value (m : pmod) (a : list arg) : res (Z * list arg) :=
  match m with
  | PRINT_C_CHAR => let* ' (z, a) := va_int a in Ok (signed_of 8 z, a)
  | PRINT_C_SHORT => let* ' (z, a) := va_int a in Ok (signed_of 16 z, a)
  | PRINT_C_LONG | PRINT_C_LLONG | PRINT_C_SIZE | PRINT_C_INTMAX | PRINT_C_PTRDIFF => let* ' (z, a) := va_long a in Ok (signed_of 64 z, a)
  | _ => let* ' (z, a) := va_int a in Ok (signed_of 32 z, a)
  end.
(** the value of the conversions X, x, o, u, stored in an intmax_t *)
Definition unsigned_value (m : pmod) (a : list arg) : res (Z * list arg) :=
  match m with
  | PRINT_C_CHAR => let* ' (z, a) := va_int a in Ok (unsigned_of 8 z, a)
  | PRINT_C_SHORT => let* ' (z, a) := va_int a in Ok (unsigned_of 16 z, a)
  | PRINT_C_LONG | PRINT_C_LLONG | PRINT_C_SIZE | PRINT_C_INTMAX | PRINT_C_PTRDIFF => let* ' (z, a) := va_long a in Ok (signed_of 64 z, a)
  | _ => let* ' (z, a) := va_int a in Ok (unsigned_of 32 z, a)
  end.
(** what %n stores *)
Definition stored (m : pmod) (len : nat) : Z :=
  match m with
  | PRINT_C_CHAR => signed_of 8 (Z.of_nat len)
  | PRINT_C_SHORT => signed_of 16 (Z.of_nat len)
  | PRINT_C_LONG | PRINT_C_LLONG | PRINT_C_SIZE | PRINT_C_INTMAX | PRINT_C_PTRDIFF => signed_of 64 (Z.of_nat len)
  | _ => signed_of 32 (Z.of_nat len)
  end.

(** the variables of rpl_vsnprintf: what is written, the arguments left, the values %n stored
    so far, the state and the fields of the conversion; the rest of the format begins with ch *)
Record vars := mkV { v_out : out; v_args : list arg; v_stores : list Z; v_state : pstate; v_mod : pmod; v_flags : pflags; v_width : Z; v_prec : Z; v_fmt : list byte }.

Definition set_minus (f : pflags) := mkF true (F_PLUS f) (F_SPACE f) (F_NUM f) (F_ZERO f) (F_QUOTE f) (F_UP f) (F_UNSIGNED f).
Definition set_plus (f : pflags) := mkF (F_MINUS f) true (F_SPACE f) (F_NUM f) (F_ZERO f) (F_QUOTE f) (F_UP f) (F_UNSIGNED f).
Definition set_space (f : pflags) := mkF (F_MINUS f) (F_PLUS f) true (F_NUM f) (F_ZERO f) (F_QUOTE f) (F_UP f) (F_UNSIGNED f).
Definition set_num (f : pflags) := mkF (F_MINUS f) (F_PLUS f) (F_SPACE f) true (F_ZERO f) (F_QUOTE f) (F_UP f) (F_UNSIGNED f).
Definition set_zero (f : pflags) := mkF (F_MINUS f) (F_PLUS f) (F_SPACE f) (F_NUM f) true (F_QUOTE f) (F_UP f) (F_UNSIGNED f).
Definition set_quote (f : pflags) := mkF (F_MINUS f) (F_PLUS f) (F_SPACE f) (F_NUM f) (F_ZERO f) true (F_UP f) (F_UNSIGNED f).
Definition set_up (f : pflags) := mkF (F_MINUS f) (F_PLUS f) (F_SPACE f) (F_NUM f) (F_ZERO f) (F_QUOTE f) true (F_UNSIGNED f).
Definition set_unsigned (f : pflags) := mkF (F_MINUS f) (F_PLUS f) (F_SPACE f) (F_NUM f) (F_ZERO f) (F_QUOTE f) (F_UP f) true.

Definition digit_value (c : byte) : Z := (Z.of_N (code c) - 48)%Z.
(** precision -1 for the functions that take None *)
Definition prec_opt (p : Z) : option nat := if (p =? -1)%Z then None else Some (Z.to_nat p).

(** libcompat/snprintf.c:538-939 rpl_vsnprintf: the case PRINT_S_CONV: A, F, a, f, E, e, G, g with
    the flags they set; None: another conversion *)
Definition float_case (ch : byte) : option (fstyle * bool) :=
  if beq ch "A" || beq ch "F" then Some (STYLE_F, true)
  else if beq ch "a" || beq ch "f" then Some (STYLE_F, false)
  else if beq ch "E" then Some (STYLE_E, true)
  else if beq ch "e" then Some (STYLE_E, false)
  else if beq ch "G" then Some (STYLE_G, true)
  else if beq ch "g" then Some (STYLE_G, false)
  else None.
(** libcompat/snprintf.c:538-939 rpl_vsnprintf: these cases; None: overflow *)
Definition float_conversion (size : nat) (v : vars) (style : fstyle) (up : bool) : res (option (out * list arg * list Z)) :=
  let fl := if up then set_up (v_flags v) else v_flags v in
  let* ' (fvalue, a) := va_float (v_mod v) (v_args v) in
  let precision := if is_G style && (v_prec v =? 0)%Z then 1%Z else v_prec v in
  let* o := fmtflt size (v_out v) fvalue (v_width v) precision fl style in
  Ok (match o with None => None | Some o => Some (o, a, v_stores v) end).
(** libcompat/snprintf.c:538-939 rpl_vsnprintf: the other cases of PRINT_S_CONV; what is written,
    the arguments left and the stores *)
Definition conversion (size : nat) (v : vars) (ch : byte) : res (out * list arg * list Z) :=
  let o := v_out v in
  let a := v_args v in
  let fl := v_flags v in
  let unsigned base fl :=
    (let* ' (value, a) := unsigned_value (v_mod v) a in
     let* o := fmtint size o value base (v_width v) (v_prec v) (set_unsigned fl) in Ok (o, a, v_stores v)) in
  if beq ch "d" || beq ch "i" then
    let* ' (value, a) := signed_value (v_mod v) a in
    let* o := fmtint size o value 10 (v_width v) (v_prec v) fl in Ok (o, a, v_stores v)
  else if beq ch "X" then unsigned 16%Z (set_up fl)
  else if beq ch "x" then unsigned 16%Z fl
  else if beq ch "o" then unsigned 8%Z fl
  else if beq ch "u" then unsigned 10%Z fl
  else if beq ch "c" then
    let* ' (z, a) := va_int a in
    let* o := OUTCHAR size o (ascii_of_N (Z.to_N (unsigned_of 8 z))) in Ok (o, a, v_stores v)
  else if beq ch "s" then
    let* ' (s, a) := va_str a in
    let* o := fmtstr size o s (Z.to_nat (v_width v)) (prec_opt (v_prec v)) fl in Ok (o, a, v_stores v)
  else if beq ch "p" then
    let* ' (p, a) := va_ptr a in
    let* o := (if (p =? 0)%Z then fmtstr size o (Some (block (lit "(nil)"))) (Z.to_nat (v_width v)) None fl
               else fmtint size o p 16 (v_width v) (v_prec v) (set_unsigned (set_num fl))) in Ok (o, a, v_stores v)
  else if beq ch "n" then
    let* a := va_out a in Ok (o, a, v_stores v ++ [stored (v_mod v) (len o)])
  else if beq ch "%" then let* o := OUTCHAR size o ch in Ok (o, a, v_stores v)
  else Ok (o, a, v_stores v).

(** libcompat/snprintf.c:538-939 rpl_vsnprintf: one turn of the while loop; None: overflow *)
Definition turn (size : nat) (v : vars) (ch : byte) (rest : list byte) : res (option vars) :=
  let '(mkV o a st s m fl w p fmt) := v in
  match s with
  | PRINT_S_DEFAULT =>
      if beq ch "%" then Ok (Some (mkV o a st PRINT_S_FLAGS m fl w p rest))
      else let* o := OUTCHAR size o ch in Ok (Some (mkV o a st s m fl w p rest))
  | PRINT_S_FLAGS =>
      if beq ch "-" then Ok (Some (mkV o a st s m (set_minus fl) w p rest))
      else if beq ch "+" then Ok (Some (mkV o a st s m (set_plus fl) w p rest))
      else if beq ch " " then Ok (Some (mkV o a st s m (set_space fl) w p rest))
      else if beq ch "#" then Ok (Some (mkV o a st s m (set_num fl) w p rest))
      else if beq ch "0" then Ok (Some (mkV o a st s m (set_zero fl) w p rest))
      else if beq ch "'" then Ok (Some (mkV o a st s m (set_quote fl) w p rest))
      else Ok (Some (mkV o a st PRINT_S_WIDTH m fl w p fmt))
  | PRINT_S_WIDTH =>
      if isdigit ch then
        let d := digit_value ch in
        if (w >? (INT_MAX - d) / 10)%Z then Ok None
        else Ok (Some (mkV o a st s m fl (10 * w + d)%Z p rest))
      else if beq ch "*" then
        let* ' (w, a) := va_int a in
        let w := signed_of 32 w in
        if (w <? 0)%Z then
          if (w =? INT_MIN)%Z then UB else Ok (Some (mkV o a st PRINT_S_DOT m (set_minus fl) (- w)%Z p rest))
        else Ok (Some (mkV o a st PRINT_S_DOT m fl w p rest))
      else Ok (Some (mkV o a st PRINT_S_DOT m fl w p fmt))
  | PRINT_S_DOT =>
      if beq ch "." then Ok (Some (mkV o a st PRINT_S_PRECISION m fl w p rest))
      else Ok (Some (mkV o a st PRINT_S_MOD m fl w p fmt))
  | PRINT_S_PRECISION =>
      let p := if (p =? -1)%Z then 0%Z else p in
      if isdigit ch then
        let d := digit_value ch in
        if (p >? (INT_MAX - d) / 10)%Z then Ok None
        else Ok (Some (mkV o a st s m fl w (10 * p + d)%Z rest))
      else if beq ch "*" then
        let* ' (p, a) := va_int a in
        let p := signed_of 32 p in
        Ok (Some (mkV o a st PRINT_S_MOD m fl w (if (p <? 0)%Z then -1 else p)%Z rest))
      else Ok (Some (mkV o a st PRINT_S_MOD m fl w p fmt))
  | PRINT_S_MOD =>
      let next m rest := Ok (Some (mkV o a st PRINT_S_CONV m fl w p rest)) in
      if beq ch "h" then
        match rest with "h"%char :: rest => next PRINT_C_CHAR rest | _ => next PRINT_C_SHORT rest end
      else if beq ch "l" then
        match rest with "l"%char :: rest => next PRINT_C_LLONG rest | _ => next PRINT_C_LONG rest end
      else if beq ch "L" then next PRINT_C_LDOUBLE rest
      else if beq ch "j" then next PRINT_C_INTMAX rest
      else if beq ch "t" then next PRINT_C_PTRDIFF rest
      else if beq ch "z" then next PRINT_C_SIZE rest
      else next m fmt
  | PRINT_S_CONV =>
      let* r := (match float_case ch with
                 | Some (style, up) => float_conversion size v style up
                 | None => let* r := conversion size v ch in Ok (Some r)
                 end) in
      match r with
      | None => Ok None
      | Some (o, a, st) => Ok (Some (mkV o a st PRINT_S_DEFAULT PRINT_C_NONE no_flags 0%Z (-1)%Z rest))
      end
  end.
(** libcompat/snprintf.c:538-939 rpl_vsnprintf: the while loop; the flag tells overflow *)
Fixpoint run (fuel : nat) (size : nat) (v : vars) : res (vars * bool) :=
  match fuel with
  | O => Fuel
  | S f =>
      match v_fmt v with
      | [] => Ok (v, false)
      | ch :: rest =>
          let* r := turn size v ch rest in
          match r with None => Ok (v, true) | Some v => run f size v end
      end
  end.
Definition start_vars (o : out) (format : list byte) (args : list arg) : vars :=
  mkV o args [] PRINT_S_DEFAULT PRINT_C_NONE no_flags 0%Z (-1)%Z format.
(** libcompat/snprintf.c:538-939 rpl_vsnprintf; [dst] None is NULL: what dst then contains, the
    result and what %n stored *)
Definition rpl_vsnprintf (dst : option (cells byte)) (size : nat) (format : list byte) (args : list arg) : res (cells byte * Z * list Z) :=
  let '(m, size) := match dst with None => ([], 0) | Some m => (m, size) end in
  let* ' (v, overflow) := run (8 * S (length format)) size (start_vars (mkOut m 0) format args) in
  let o := v_out v in
  let* m := (if len o <? size then aset (str o) (len o) NUL
             else if 0 <? size then aset (str o) (size - 1) NUL else Ok (str o)) in
  Ok (m, (if overflow || (INT_MAX <=? Z.of_nat (len o)) then -1 else Z.of_nat (len o))%Z, v_stores v).

(** libcompat/snprintf.c:1498-1511 rpl_vasprintf: what is stored in *ret (None: nothing; Some None:
    NULL) and the result.  [malloc n]: the content of the [n] bytes it gives, or None. *)
Definition rpl_vasprintf (malloc : nat -> option (cells byte)) (format : list byte) (args : list arg) : res (option (option (cells byte)) * Z) :=
  let* ' (_, len, _) := rpl_vsnprintf None 0 format args in
  if (len <? 0)%Z then Ok (None, (-1)%Z)
  else
    let size := Z.to_nat (len + 1) in
    match malloc size with
    | None => Ok (Some None, (-1)%Z)
    | Some m =>
        let* ' (m, r, _) := rpl_vsnprintf (Some m) size format args in
        Ok (Some (Some m), r)
    end.
