(** Model of libutils/buffer.c: a growable byte buffer.  [bmem] is the memory at
    buffer->buffer (cells never written are indeterminate).  The field [unsafe] is
    written only and left out, and so is BufferSearchAndReplace (pcre).  size_t values
    are nat; wrap-around of UpperPowerOfTwo is modelled, see MiscModel.v.  Byte
    arguments are memory separate from the buffer's own (no aliasing). *)
From Verif Require Import Prelude Str Libc CmpModel EditModel MiscModel.
Set Implicit Arguments.

Inductive bmode := CSTRING | BYTEARRAY.
(** libutils/buffer.h:47-54 *)
Record Buffer := mkB { bmem : cells byte; bmd : bmode; bcap : nat; bused : nat }.

Definition DEFAULT_BUFFER_CAPACITY : nat := 4096.

(** libutils/buffer.c:35-46 BufferNewWithCapacity *)
Definition BufferNewWithCapacity (initial_capacity : nat) : res Buffer :=
  let* m := aset (repeat None initial_capacity) 0 NUL in
  Ok (mkB m CSTRING initial_capacity 0).
(** libutils/buffer.c:48-51 BufferNew *)
Definition BufferNew : res Buffer := BufferNewWithCapacity DEFAULT_BUFFER_CAPACITY.

(** libutils/buffer.c:53-62 ExpandIfNeeded *)
Definition ExpandIfNeeded (b : Buffer) (needed : nat) : Buffer :=
  if bcap b <=? needed then
    let new_capacity := N.to_nat (UpperPowerOfTwo (N.of_nat (needed + 1))) in
    mkB (arealloc (bmem b) new_capacity) (bmd b) new_capacity (bused b)
  else b.

(** memcpy(buffer->buffer + used, src, n); used += n *)
Definition bput (b : Buffer) (src : cells byte) (n : nat) : res Buffer :=
  let* m := acopy (bmem b) (bused b) src 0 n in
  Ok (mkB m (bmd b) (bcap b) (bused b + n)).
(** buffer->buffer[used] = '\0' *)
Definition bterm (b : Buffer) : res Buffer :=
  let* m := aset (bmem b) (bused b) NUL in Ok (mkB m (bmd b) (bcap b) (bused b)).

(** libutils/buffer.c:276-304 BufferAppend *)
Definition BufferAppend (b : Buffer) (bytes : cells byte) (len : nat) : res Buffer :=
  if len =? 0 then Ok b
  else match bmd b with
       | CSTRING =>
           let* actual := mstrnlen bytes len in
           let b := ExpandIfNeeded b (bused b + actual + 1) in
           let* b := bput b bytes actual in bterm b
       | BYTEARRAY =>
           let b := ExpandIfNeeded b (bused b + len) in
           bput b bytes len
       end.

(** libutils/buffer.c:64-70 BufferNewFrom *)
Definition BufferNewFrom (data : cells byte) (len : nat) : res Buffer :=
  let* b := BufferNewWithCapacity (len + 1) in BufferAppend b data len.
(** libutils/buffer.c:90-94 BufferCopy *)
Definition BufferCopy (src : Buffer) : res Buffer := BufferNewFrom (bmem src) (bused src).

(** libutils/buffer.c:473-478 BufferClear *)
Definition BufferClear (b : Buffer) : res Buffer :=
  let* m := aset (bmem b) 0 NUL in Ok (mkB m (bmd b) (bcap b) 0).
(** libutils/buffer.c:236-244 BufferSet *)
Definition BufferSet (b : Buffer) (bytes : cells byte) (len : nat) : res Buffer :=
  let* b := BufferClear b in BufferAppend b bytes len.

(** libutils/buffer.c:253-262 BufferAppendString *)
Definition BufferAppendString (b : Buffer) (str : list byte) : res Buffer :=
  let len := length str in
  let b := ExpandIfNeeded b (bused b + len + 1) in
  let* b := bput b (block str) len in bterm b.

(** libutils/buffer.c:264-274 BufferTrimToMaxLength *)
Definition BufferTrimToMaxLength (b : Buffer) (max : nat) : res Buffer :=
  if max <? bused b then bterm (mkB (bmem b) (bmd b) (bcap b) max) else Ok b.

(** libutils/buffer.c:306-323 BufferAppendChar *)
Definition BufferAppendChar (b : Buffer) (c : byte) : res Buffer :=
  if bused b <? predw (bcap b) then
    let* m := aset (bmem b) (bused b) c in
    let b := mkB m (bmd b) (bcap b) (S (bused b)) in
    match bmd b with CSTRING => bterm b | BYTEARRAY => Ok b end
  else BufferAppend b [Some c] 1.

(** vsnprintf(m + off, size, ...) where the formatted text is [text]: at most size - 1
    characters and a terminator; returns the length of the text *)
Definition mvsnprintf (m : cells byte) (off size : nat) (text : list byte) : res (cells byte * nat) :=
  if size =? 0 then Ok (m, length text)
  else
    let w := firstn (size - 1) text in
    let* m := acopy m off (block w) 0 (S (length w)) in
    Ok (m, length text).

(** libutils/buffer.c:325-354 BufferAppendF, [text] being the formatted text *)
Definition BufferAppendF (b : Buffer) (text : list byte) : res Buffer :=
  let* ' (m, printed) := mvsnprintf (bmem b) (bused b) (bcap b - bused b) text in
  let b := mkB m (bmd b) (bcap b) (bused b) in
  if bcap b - bused b <=? printed then
    let b := ExpandIfNeeded b (bused b + printed) in
    let* ' (m, printed) := mvsnprintf (bmem b) (bused b) (bcap b - bused b) text in
    Ok (mkB m (bmd b) (bcap b) (bused b + printed))
  else Ok (mkB (bmem b) (bmd b) (bcap b) (bused b + printed)).

(** libutils/buffer.c:356-401 BufferPrintf (BufferVPrintf has the same body) *)
Definition BufferPrintf (b : Buffer) (text : list byte) : res (Buffer * nat) :=
  let* ' (m, printed) := mvsnprintf (bmem b) 0 (bcap b) text in
  let b := mkB m (bmd b) (bcap b) (bused b) in
  if bcap b <=? printed then
    let b := ExpandIfNeeded b printed in
    let* ' (m, printed) := mvsnprintf (bmem b) 0 (bcap b) text in
    Ok (mkB m (bmd b) (bcap b) printed, printed)
  else Ok (mkB (bmem b) (bmd b) (bcap b) printed, printed).

(** libutils/buffer.c:492-500 BufferCanonify *)
Definition BufferCanonify (b : Buffer) : res Buffer :=
  let* m := CanonifyNameInPlace (bmem b) in Ok (mkB m (bmd b) (bcap b) (bused b)).

(** libutils/buffer.c:508-528 BufferSetMode *)
Fixpoint find_nul (fuel i : nat) (m : cells byte) (used : nat) : res nat :=
  match fuel with
  | O => Fuel
  | S g => if i <? used then
             let* c := aget m i in
             if beq c NUL then Ok i else find_nul g (S i) m used
           else Ok used
  end.
Definition BufferSetMode (b : Buffer) (mode : bmode) : res Buffer :=
  match mode with
  | CSTRING => let* u := find_nul (S (bused b)) 0 (bmem b) (bused b) in
               Ok (mkB (bmem b) CSTRING (bcap b) u)
  | BYTEARRAY => Ok (mkB (bmem b) BYTEARRAY (bcap b) (bused b))
  end.

(** libutils/buffer.c:530-550 BufferFilter *)
Fixpoint filter_loop (fuel i : nat) (b filtered : Buffer) (filter : byte -> bool) (invert : bool) : res Buffer :=
  match fuel with
  | O => Fuel
  | S g => if i <? bused b then
             let* c := aget (bmem b) i in
             let test := if invert then negb (filter c) else filter c in
             let* filtered := (if test : bool then BufferAppendChar filtered c else Ok filtered) in
             filter_loop g (S i) b filtered filter invert
           else Ok filtered
  end.
Definition BufferFilter (b : Buffer) (filter : byte -> bool) (invert : bool) : res Buffer :=
  let* f := BufferNew in filter_loop (S (bused b)) 0 b f filter invert.
(** libutils/buffer.c:552-559 BufferRewrite *)
Definition BufferRewrite (b : Buffer) (filter : byte -> bool) (invert : bool) : res Buffer :=
  let* r := BufferFilter b filter invert in
  BufferSet b (bmem r) (bused r).

(** libutils/buffer.c:480-484 BufferSize, BufferCapacity, BufferMode *)
Definition BufferSize (b : Buffer) : nat := bused b.
Definition BufferCapacity (b : Buffer) : nat := bcap b.
Definition BufferMode (b : Buffer) : bmode := bmd b.

(** libutils/buffer.c:96-234 BufferCompare.  strcmp returns some int as in CmpModel.v; the
    three loops differ only in their bound and in what follows them. *)
Fixpoint cmp_loop (fuel i : nat) (m1 m2 : cells byte) (bound : nat) (after : Z) : res Z :=
  match fuel with
  | O => Fuel
  | S g =>
      if i <? bound then
        let* x := aget m1 i in let* y := aget m2 i in
        if (scode x <? scode y)%Z then Ok (-1)%Z
        else if (scode y <? scode x)%Z then Ok 1%Z
        else cmp_loop g (S i) m1 m2 bound after
      else Ok after
  end.
Definition byte_compare (b1 b2 : Buffer) : res Z :=
  if bused b1 <? bused b2 then cmp_loop (S (bused b1)) 0 (bmem b1) (bmem b2) (bused b1) (-1)%Z
  else if bused b1 =? bused b2 then cmp_loop (S (bused b1)) 0 (bmem b1) (bmem b2) (bused b1) 0%Z
  else cmp_loop (S (bused b2)) 0 (bmem b1) (bmem b2) (bused b2) 1%Z.
Definition BufferCompare (strcmp : list byte -> list byte -> Z) (b1 b2 : Buffer) : res Z :=
  match bmd b1, bmd b2 with
  | CSTRING, CSTRING =>
      let* s1 := mstr (bmem b1) in
      let* s2 := mstr (bmem b2) in
      let r := strcmp s1 s2 in
      if (r =? 0)%Z then Ok 0%Z
      else if (r =? INT_MIN)%Z then UB          (* abs(INT_MIN) *)
      else Ok (Z.quot r (Z.abs r))
  | BYTEARRAY, BYTEARRAY => byte_compare b1 b2
  | _, _ => byte_compare b1 b2
  end.
