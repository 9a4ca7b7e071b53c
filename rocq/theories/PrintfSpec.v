(** What printf formats mean (C99 7.19.6.1), without hexadecimal floating point, in the "C" locale.

    A format is a sequence of ordinary characters and directives; [renders] gives its text and
    [expands] the output for given arguments. *)
From Coq Require Import QArith Qabs.
From Verif Require Import Prelude Str Libc MemSpec PrintfModel.
Local Close Scope Q_scope.
Set Implicit Arguments.

(** * Directives *)
Inductive width := NoWidth | Width (digits : list byte) | WidthArg.
Inductive precision := NoPrecision | Precision (digits : list byte) | PrecisionArg.
(** LD is the modifier L, of the long double conversions *)
Inductive modifier := Plain | HH | H | L | LL | J | Z_ | T | LD.
Inductive conv := Cd | Ci | Cu | Cx | CX | Co | Cc | Cs | Cp | Cn | Cf | CF | Ce | CE | Cg | CG.
Record directive := mkD { dflags : list byte; dwidth : width; dprec : precision; dmod : modifier; dconv : conv }.
Inductive item := Ordinary (c : byte) | Percent | Directive (d : directive).

Definition render_width (w : width) : list byte := match w with NoWidth => [] | Width ds => ds | WidthArg => lit "*" end.
Definition render_prec (p : precision) : list byte := match p with NoPrecision => [] | Precision ds => lit "." ++ ds | PrecisionArg => lit ".*" end.
Definition render_mod (m : modifier) : list byte :=
  match m with Plain => [] | HH => lit "hh" | H => lit "h" | L => lit "l" | LL => lit "ll" | J => lit "j" | Z_ => lit "z" | T => lit "t" | LD => lit "L" end.
Definition render_conv (c : conv) : byte :=
  match c with Cd => "d" | Ci => "i" | Cu => "u" | Cx => "x" | CX => "X" | Co => "o" | Cc => "c" | Cs => "s" | Cp => "p" | Cn => "n"
             | Cf => "f" | CF => "F" | Ce => "e" | CE => "E" | Cg => "g" | CG => "G" end%char.
Definition render (i : item) : list byte :=
  match i with
  | Ordinary c => [c]
  | Percent => lit "%%"
  | Directive d => lit "%" ++ dflags d ++ render_width (dwidth d) ++ render_prec (dprec d) ++ render_mod (dmod d) ++ [render_conv (dconv d)]
  end.
Definition renders (is : list item) : list byte := concat (map render is).

(** the value of a sequence of decimal digits *)
Definition number (ds : list byte) : Z := fold_left (fun n c => 10 * n + (Z.of_N (code c) - 48))%Z ds 0%Z.
Definition all_digits (ds : list byte) : Prop := Forall (fun c => isdigit c = true) ds.
(** as written in a format: flags in any order, a width that does not begin with 0 (which would be
    a flag), numbers in the range of int *)
Definition wf_item (i : item) : Prop :=
  match i with
  | Ordinary c => c <> "%"%char /\ c <> NUL
  | Percent => True
  | Directive d =>
      Forall (fun c => In c (lit "-+ #0'")) (dflags d) /\
      match dwidth d with Width ds => all_digits ds /\ ds <> [] /\ hd NUL ds <> "0"%char /\ (number ds <= INT_MAX)%Z | _ => True end /\
      match dprec d with Precision ds => all_digits ds /\ (number ds <= INT_MAX)%Z | _ => True end
  end.

Definition has (c : byte) (d : directive) : Prop := In c (dflags d).

(** * The text of numbers *)
Definition lower_digits : list byte := lit "0123456789abcdef".
Definition upper_digits : list byte := lit "0123456789ABCDEF".
(** [ds] is the usual notation of [n >= 0] in base [b] with the digits [table] *)
Definition digit_index (table : list byte) (c : byte) (i : nat) : Prop := nth_error table i = Some c.
Inductive notation (table : list byte) (b : Z) : Z -> list byte -> Prop :=
| notation_digit i c : (Z.of_nat i < b)%Z -> nth_error table i = Some c -> notation table b (Z.of_nat i) [c]
| notation_more n ds i c : notation table b n ds -> (0 < n)%Z -> (Z.of_nat i < b)%Z -> nth_error table i = Some c ->
    notation table b (b * n + Z.of_nat i) (ds ++ [c]).

(** padding to at least [w] characters *)
Inductive justify := Left | Right | Zeros.
Definition pad (j : justify) (w : nat) (sign digits : list byte) : list byte :=
  let n := w - length (sign ++ digits) in
  match j with
  | Left => sign ++ digits ++ repeat " "%char n
  | Right => repeat " "%char n ++ sign ++ digits
  | Zeros => sign ++ repeat "0"%char n ++ digits
  end.

(** ** The integer conversions.  [sign] is what is in front of the digits (sign or 0x), [m] the
    absolute value, [p] the precision, if given. *)
Definition zero_filled (p : nat) (ds : list byte) : list byte := repeat "0"%char (p - length ds) ++ ds.
Definition octal_zero (ds : list byte) : list byte := match ds with "0"%char :: _ => ds | _ => "0"%char :: ds end.
Inductive number_text (table : list byte) (b : Z) (alt : bool) (m : Z) (p : option nat) : list byte -> Prop :=
| number_text_intro ds : notation table b m ds ->
    (* converting 0 with precision 0 gives no characters *)
    let ds := match p with Some 0 => if (m =? 0)%Z then [] else ds | Some p => zero_filled p ds | None => ds end in
    (* the alternative form for o forces the first digit to be zero *)
    number_text table b alt m p (if alt && (b =? 8)%Z then octal_zero ds else ds).

Definition sign_text (plus space : bool) (z : Z) : list byte :=
  if (z <? 0)%Z then lit "-" else if plus then lit "+" else if space then lit " " else [].

(** ** The effective flags, width and precision of a directive *)
Record field := mkField { f_minus : bool; f_plus : bool; f_space : bool; f_alt : bool; f_zero : bool; f_width : nat; f_prec : option nat }.
Definition member (c : byte) (l : list byte) : bool := existsb (fun x => beq x c) l.
(** Taking a width [*] and a precision [*] from the arguments *)
Inductive effective (d : directive) : list arg -> field -> list arg -> Prop :=
| effective_intro a1 neg w a2 p a3 :
    match dwidth d with
    | NoWidth => a1 = a2 /\ w = 0%Z /\ neg = false
    | Width ds => a1 = a2 /\ w = number ds /\ neg = false
    (* "A negative field width argument is taken as a - flag followed by a positive field width" *)
    | WidthArg => exists z, a1 = AInt z :: a2 /\ (- INT_MAX <= z <= INT_MAX)%Z /\ w = Z.abs z /\ neg = (z <? 0)%Z
    end ->
    match dprec d with
    | NoPrecision => a2 = a3 /\ p = None
    | Precision ds => a2 = a3 /\ p = Some (Z.to_nat (number ds))
    (* "A negative precision argument is taken as if the precision were omitted" *)
    | PrecisionArg => exists z, a2 = AInt z :: a3 /\ (- 2 ^ 31 <= z <= INT_MAX)%Z /\ p = (if (z <? 0)%Z then None else Some (Z.to_nat z))
    end ->
    effective d a1 (mkField (member "-" (dflags d) || neg) (member "+" (dflags d)) (member " " (dflags d)) (member "#" (dflags d))
                            (member "0" (dflags d)) (Z.to_nat w) p) a3.
(** "If the 0 and - flags both appear, the 0 flag is ignored"; so it is with a precision *)
Definition int_justify (f : field) : justify :=
  if f_minus f then Left else if f_zero f && match f_prec f with None => true | _ => false end then Zeros else Right.
Definition str_justify (f : field) : justify := if f_minus f then Left else Right.

(** ** The values of the arguments *)
Definition bits (m : modifier) : Z := match m with HH => 8 | H => 16 | Plain => 32 | _ => 64 end.
(** an argument of the type for [m], and its value converted to the type [m] means *)
Inductive signed_arg : modifier -> arg -> Z -> Prop :=
| signed_int m z v : (match m with Plain | H | HH => True | _ => False end) -> (- 2 ^ 31 <= z < 2 ^ 31)%Z ->
    (- 2 ^ (bits m - 1) <= v < 2 ^ (bits m - 1))%Z -> (exists k, z = v + k * 2 ^ bits m)%Z -> signed_arg m (AInt z) v
| signed_long m z : (match m with Plain | H | HH | LD => False | _ => True end) -> (- 2 ^ 63 <= z < 2 ^ 63)%Z -> signed_arg m (ALong z) z.
Inductive unsigned_arg : modifier -> arg -> Z -> Prop :=
| unsigned_int m z v : (match m with Plain | H | HH => True | _ => False end) -> (0 <= z < 2 ^ 32)%Z ->
    (0 <= v < 2 ^ bits m)%Z -> (exists k, z = v + k * 2 ^ bits m)%Z -> unsigned_arg m (AInt z) v
| unsigned_long m z : (match m with Plain | H | HH | LD => False | _ => True end) -> (0 <= z < 2 ^ 64)%Z -> unsigned_arg m (ALong z) z.

(** The characters of a string: up to the NUL, or as many as the precision says; without a NUL
    the array must be as long as that. *)
Inductive string_chars (m : cells byte) : option nat -> list byte -> Prop :=
| chars_nul p s rest : m = map Some s ++ Some NUL :: rest -> is_cstr s -> string_chars m p (match p with None => s | Some n => firstn n s end)
| chars_cut n s rest : m = map Some s ++ rest -> is_cstr s -> length s = n -> string_chars m (Some n) s.

(** ** The floating point conversions *)
(** [n] is [x >= 0] rounded to an integer; C99 leaves the rounding of a half open: upwards *)
Definition rounds (x : Q) (n : Z) : Prop := (inject_Z n - (1 # 2) <= x < inject_Z n + (1 # 2))%Q.
(** [n] units of [10 ^ - p] in decimal notation with [p] digits after the decimal point.  The point
    is left out if no digit follows it, unless there is #. With [strip], the zeros at the end of
    these digits are removed. *)
Inductive decimal (p : nat) (alt strip : bool) (n : Z) : list byte -> Prop :=
| decimal_intro ds fs fs' k :
    notation lower_digits 10 (n / 10 ^ Z.of_nat p) ds ->
    all_digits fs -> length fs = p -> number fs = (n mod 10 ^ Z.of_nat p)%Z ->
    (if strip then fs = fs' ++ repeat "0"%char k /\ last fs' "1"%char <> "0"%char else fs' = fs) ->
    decimal p alt strip n (ds ++ (if alt || negb (length fs' =? 0) then lit "." else []) ++ fs').
(** [x >= 0] with [p + 1] digits, the first of which is not 0 (unless x is): the digits [n] and the
    exponent [X] *)
Inductive scientific (x : Q) (p : nat) : Z -> Z -> Prop :=
| scientific_zero : (x == 0)%Q -> scientific x p 0 0
| scientific_digits X n : (10 ^ X <= x < 10 ^ (X + 1))%Q -> rounds (x / 10 ^ X * 10 ^ Z.of_nat p)%Q n -> (n < 10 ^ Z.of_nat (p + 1))%Z ->
    scientific x p X n
(* 9.99... becomes 10 *)
| scientific_carry X n : (10 ^ X <= x < 10 ^ (X + 1))%Q -> rounds (x / 10 ^ X * 10 ^ Z.of_nat p)%Q n -> (n = 10 ^ Z.of_nat (p + 1))%Z ->
    scientific x p (X + 1) (10 ^ Z.of_nat p).
(** "The exponent always contains at least two digits, and only as many more digits as necessary" *)
Inductive exponent_text (up : bool) (X : Z) : list byte -> Prop :=
| exponent_intro ds : notation lower_digits 10 (Z.abs X) ds ->
    exponent_text up X ((if up then lit "E" else lit "e") ++ (if (X <? 0)%Z then lit "-" else lit "+") ++ zero_filled 2 ds).
Definition float_precision (p : option nat) : nat := match p with None => 6 | Some p => p end.
(** "Let P equal the precision if nonzero, 6 if the precision is omitted, or 1 if the precision is zero" *)
Definition g_precision (p : option nat) : nat := match p with None => 6 | Some 0 => 1 | Some p => p end.
(** the text of [x >= 0]; [up]: F, E, G *)
Inductive fixed_text (x : Q) (p : nat) (alt strip : bool) : list byte -> Prop :=
| fixed_intro n t : rounds (x * 10 ^ Z.of_nat p)%Q n -> decimal p alt strip n t -> fixed_text x p alt strip t.
Inductive scientific_text (x : Q) (p : nat) (alt strip up : bool) : list byte -> Prop :=
| scientific_intro X n t e : scientific x p X n -> decimal p alt strip n t -> exponent_text up X e -> scientific_text x p alt strip up (t ++ e).
Inductive general_text (x : Q) (P : nat) (alt up : bool) : list byte -> Prop :=
(* "if P > X >= -4, the conversion is with style f and precision P - (X + 1)" *)
| general_fixed X n t : scientific x (P - 1) X n -> (-4 <= X < Z.of_nat P)%Z ->
    fixed_text x (Z.to_nat (Z.of_nat P - (X + 1))) alt (negb alt) t -> general_text x P alt up t
(* "otherwise, the conversion is with style e and precision P - 1" *)
| general_scientific X n t : scientific x (P - 1) X n -> ~ (-4 <= X < Z.of_nat P)%Z ->
    scientific_text x (P - 1) alt (negb alt) up t -> general_text x P alt up t.
Definition float_text (c : conv) (f : field) (x : Q) (t : list byte) : Prop :=
  match c with
  | Cf | CF => fixed_text x (float_precision (f_prec f)) (f_alt f) false t
  | Ce => scientific_text x (float_precision (f_prec f)) (f_alt f) false false t
  | CE => scientific_text x (float_precision (f_prec f)) (f_alt f) false true t
  | Cg => general_text x (g_precision (f_prec f)) (f_alt f) false t
  | CG => general_text x (g_precision (f_prec f)) (f_alt f) true t
  | _ => False
  end.
Definition is_float (c : conv) : bool := match c with Cf | CF | Ce | CE | Cg | CG => true | _ => false end.
Definition is_upper (c : conv) : bool := match c with CF | CE | CG => true | _ => false end.
Definition is_long (m : modifier) : bool := match m with LD => true | _ => false end.
Definition float_sign (f : field) (negative : bool) : list byte := sign_text (f_plus f) (f_space f) (if negative then -1 else 0).
Definition float_justify (f : field) : justify := if f_minus f then Left else if f_zero f then Zeros else Right.

(** ** Conversions: text, arguments left, values stored by %n; [before] characters are in front *)
Inductive converts (d : directive) (before : nat) : list arg -> list byte -> list arg -> list Z -> Prop :=
| conv_signed a f x z a' ds :
    dconv d = Cd \/ dconv d = Ci -> effective d a f (x :: a') -> signed_arg (dmod d) x z ->
    number_text lower_digits 10 false (Z.abs z) (f_prec f) ds ->
    converts d before a (pad (int_justify f) (f_width f) (sign_text (f_plus f) (f_space f) z) ds) a' []
| conv_unsigned a f x z a' ds table b prefix :
    effective d a f (x :: a') -> unsigned_arg (dmod d) x z ->
    match dconv d with
    | Cu => table = lower_digits /\ b = 10%Z /\ prefix = []
    | Co => table = lower_digits /\ b = 8%Z /\ prefix = []
    | Cx => table = lower_digits /\ b = 16%Z /\ prefix = if f_alt f && negb (z =? 0)%Z then lit "0x" else []
    | CX => table = upper_digits /\ b = 16%Z /\ prefix = if f_alt f && negb (z =? 0)%Z then lit "0X" else []
    | _ => False
    end ->
    number_text table b (f_alt f) z (f_prec f) ds ->
    converts d before a (pad (int_justify f) (f_width f) prefix ds) a' []
| conv_char a f z a' :
    dconv d = Cc -> effective d a f (AInt z :: a') -> (- 128 <= z <= 255)%Z ->
    converts d before a (pad (str_justify f) (f_width f) [] [ascii_of_N (Z.to_N (z mod 256))]) a' []
| conv_string a f m a' s :
    dconv d = Cs -> effective d a f (AStr (Some m) :: a') -> string_chars m (f_prec f) s -> (Z.of_nat (length s) <= INT_MAX)%Z ->
    converts d before a (pad (str_justify f) (f_width f) [] s) a' []
(* undefined in C99 *)
| conv_null a f a' :
    dconv d = Cs -> effective d a f (AStr None :: a') ->
    converts d before a (pad (str_justify f) (f_width f) [] (match f_prec f with None => lit "(null)" | Some n => firstn n (lit "(null)") end)) a' []
(* implementation-defined: as with %#lx; (nil) *)
| conv_pointer a f p a' ds :
    dconv d = Cp -> effective d a f (APtr p :: a') -> (0 < p < 2 ^ 64)%Z ->
    number_text lower_digits 16 true p (f_prec f) ds ->
    converts d before a (pad (int_justify f) (f_width f) (lit "0x") ds) a' []
| conv_nil a f a' :
    dconv d = Cp -> effective d a f (APtr 0 :: a') -> converts d before a (pad (str_justify f) (f_width f) [] (lit "(nil)")) a' []
| conv_count a f a' n :
    dconv d = Cn -> effective d a f (AOut :: a') -> n = Z.of_nat before -> (n < 2 ^ (bits (dmod d) - 1))%Z -> dmod d <> LD -> converts d before a [] a' [n]
| conv_float a f q a' ds :
    is_float (dconv d) = true -> effective d a f (AFloat (is_long (dmod d)) (Finite q) :: a') -> float_text (dconv d) f (Qabs q) ds ->
    converts d before a (pad (float_justify f) (f_width f) (float_sign f (Qltb q 0)) ds) a' []
| conv_minus_zero a f a' ds :
    is_float (dconv d) = true -> effective d a f (AFloat (is_long (dmod d)) MinusZero :: a') -> float_text (dconv d) f 0 ds ->
    converts d before a (pad (float_justify f) (f_width f) (float_sign f true) ds) a' []
| conv_infinite a f neg a' :
    is_float (dconv d) = true -> effective d a f (AFloat (is_long (dmod d)) (Infinite neg) :: a') ->
    converts d before a (pad (str_justify f) (f_width f) (float_sign f neg) (if is_upper (dconv d) then lit "INF" else lit "inf")) a' []
| conv_nan a f a' :
    is_float (dconv d) = true -> effective d a f (AFloat (is_long (dmod d)) NotANumber :: a') ->
    converts d before a (pad (str_justify f) (f_width f) (float_sign f false) (if is_upper (dconv d) then lit "NAN" else lit "nan")) a' [].

(** The output for a sequence of items, all of whose directives satisfy [allowed] *)
Section Expands.
Variable allowed : directive -> list arg -> Prop.
Inductive expands (before : nat) : list item -> list arg -> list byte -> list Z -> Prop :=
| expands_nil a : expands before [] a [] []
| expands_char c is a t st : expands (before + 1) is a t st -> expands before (Ordinary c :: is) a (c :: t) st
| expands_percent is a t st : expands (before + 1) is a t st -> expands before (Percent :: is) a ("%"%char :: t) st
| expands_directive d is a t1 a' st1 t st :
    allowed d a -> converts d before a t1 a' st1 -> expands (before + length t1) is a' t st ->
    expands before (Directive d :: is) a (t1 ++ t) (st1 ++ st).
End Expands.
(** C99 *)
Definition c99 : list item -> list arg -> list byte -> list Z -> Prop := expands (fun _ _ => True) 0.

(** What rpl_vsnprintf does not support (see the refuted theorems): a width for %c, the empty
    notation of 0 with precision 0, the smallest 64-bit number, strings without NUL, and the
    precision INT_MAX with 0x; of the floating point values -0, and what does not fit in 64-bit
    integers: more than 19 digits after the decimal point, numbers from [2 ^ 64 - 1] on without
    exponent, exponents of three digits. *)
Definition fits_exponent (x : Q) (p : nat) : Prop :=
  ((x == 0)%Q \/ (10 ^ (-99) <= x)%Q) /\ forall X n, scientific x p X n -> (X <= 99)%Z.
Definition supported_float (c : conv) (p : option nat) (x : Q) : Prop :=
  match c with
  | Cf | CF => float_precision p <= 19 /\ (x < inject_Z (2 ^ 64 - 1))%Q
  | Ce | CE => float_precision p <= 19 /\ fits_exponent x (float_precision p)
  | _ =>
      let P := g_precision p in
      P <= 20 /\ fits_exponent x (P - 1) /\
      forall X n, scientific x (P - 1) X n -> (-4 <= X < Z.of_nat P)%Z -> (Z.of_nat P - (X + 1) <= 19)%Z /\ (x < inject_Z (2 ^ 64 - 1))%Q
  end.
Definition supported (d : directive) (a : list arg) : Prop :=
  forall f x a', effective d a f (x :: a') ->
    match dconv d with
    | Cd | Ci => (f_prec f = Some 0 -> ~ signed_arg (dmod d) x 0) /\ x <> ALong (- 2 ^ 63)
    | Cu => f_prec f = Some 0 -> ~ unsigned_arg (dmod d) x 0
    | Co => f_prec f = Some 0 -> f_alt f = false -> ~ unsigned_arg (dmod d) x 0
    | Cx | CX => (f_prec f = Some 0 -> ~ unsigned_arg (dmod d) x 0) /\ f_prec f <> Some (Z.to_nat INT_MAX)
    | Cp => f_prec f <> Some (Z.to_nat INT_MAX)
    | Cc => f_width f <= 1
    | Cs => match x with AStr (Some m) => exists s, holds m s | _ => True end
    | Cn => True
    | Cf | CF | Ce | CE | Cg | CG => match x with AFloat _ (Finite q) => supported_float (dconv d) (f_prec f) (Qabs q) | AFloat _ MinusZero => False | _ => True end
    end.

(** The area [m], [size] bytes of which may be used, with the text [t]: as much of it as fits and
    a NUL; the bytes behind the NUL are as they were. *)
Definition terminated (size : nat) (m : cells byte) (t : list byte) : cells byte :=
  match size with
  | O => m
  | S n => map Some (firstn n t) ++ Some NUL :: skipn (Nat.min n (length t) + 1) m
  end.
(** The result: the length of the whole text.  INT_MAX characters or more are an error. *)
Definition printf_result (t : list byte) : Z := if (INT_MAX <=? Z.of_nat (length t))%Z then (-1)%Z else Z.of_nat (length t).
