(** Model of the editing functions of libutils/string_lib.c and of the bounded
    copy functions of libcompat.  Writable buffers are arrays of cells with
    bounds-checked accesses ([m : cells byte], the whole object the pointer points
    to the start of); read-only arguments are C strings (list of bytes before the
    terminator, read with [chr]).  size_t is nat: sums of lengths of objects that
    exist in memory do not wrap. *)
From Verif Require Import Prelude Str Libc CmpModel.
Set Implicit Arguments.

(** size_t subtraction [n - 1] *)
Definition predw (n : nat) : nat := match n with O => N.to_nat SIZE_MAX | S p => p end.

(** strncpy(to, from, n): copies and pads with NULs *)
Definition mstrncpy (m : cells byte) (from : list byte) (n : nat) : res (cells byte) :=
  if n <=? length m
  then Ok (map Some (firstn n from) ++ repeat (Some NUL) (n - length from) ++ skipn n m)
  else UB.

(** libutils/string_lib.c:60-87 StringCopy *)
Definition StringCopy (from : list byte) (m : cells byte) (buf_size : nat) : res (cells byte * nat) :=
  let* m := mset m NUL buf_size in
  let* m := mstrncpy m from buf_size in
  match buf_size with
  | O => UB                                  (* to[-1] *)
  | S last =>
      let* c := aget m last in
      if negb (beq c NUL) then let* m := aset m last NUL in Ok (m, buf_size)
      else let* s := mstr m in Ok (m, length s)
  end.

(** the loop [for (; *str != 0; str++) *str = f( *str);] of
    libutils/string_lib.c:151-157 ToUpperStrInplace, ToLowerStrInplace and CanonifyNameInPlace *)
Fixpoint map_loop (f : byte -> byte) (fuel i : nat) (m : cells byte) : res (cells byte) :=
  match fuel with
  | O => Fuel
  | S g => let* c := aget m i in
           if beq c NUL then Ok m
           else let* m := aset m i (f c) in map_loop f g (S i) m
  end.
(** libutils/string_lib.c:151-157 ToUpperStrInplace *)
Definition ToUpperStrInplace (m : cells byte) := map_loop ToUpper (S (length m)) 0 m.
(** libutils/string_lib.c:161-167 ToLowerStrInplace *)
Definition ToLowerStrInplace (m : cells byte) := map_loop ToLower (S (length m)) 0 m.
(** libutils/string_lib.c:1731-1740 CanonifyNameInPlace *)
Definition CanonifyNameInPlace (m : cells byte) :=
  map_loop (fun c => if negb (isalnum c) then "_"%char else c) (S (length m)) 0 m.

(** libutils/string_lib.c:1587-1606 StringCanonify (the returned pointer, which is one past
    the last character although the comment says dst, is returned as an offset) *)
Fixpoint canonify_loop (fuel i : nat) (m : cells byte) (src : list byte) : res (cells byte * nat) :=
  match fuel with
  | O => Fuel
  | S g => let* c := chr src i in
           if beq c NUL then let* m := aset m i NUL in Ok (m, i)
           else let* m := aset m i (if isalnum c then c else "_"%char) in
                canonify_loop g (S i) m src
  end.
Definition StringCanonify (m : cells byte) (src : list byte) := canonify_loop (S (length src)) 0 m src.

(** libutils/string_lib.c:319-350 SearchAndReplace.  The string writer is modelled by the
    text written so far (its own model is WriterModel.v). *)
Fixpoint sar_loop (fuel : nat) (src search replace out : list byte) : res (list byte) :=
  match fuel with
  | O => Fuel
  | S g => match strstr src search with
           | None => Ok (out ++ src)
           | Some i => sar_loop g (skipn (i + length search) src) search replace
                                (out ++ firstn i src ++ replace)
           end
  end.
Definition SearchAndReplace (source search replace : option (list byte)) : res (list byte) :=
  match source, search, replace with
  | Some src, Some find, Some rep =>
      match find with
      | [] => Ok src
      | _ => sar_loop (S (length src)) src find rep []
      end
  | _, _, _ => Abort                          (* ProgrammingError *)
  end.

(** libutils/string_lib.c:354-393 StringConcatenate: the variadic arguments are a list *)
Fixpoint strcat_all (m : cells byte) (args : list (option (list byte))) : res (cells byte) :=
  match args with
  | [] => Ok m
  | None :: t => strcat_all m t
  | Some s :: t => let* d := mstr m in
                   let* m := acopy m (length d) (block s) 0 (S (length s)) in
                   strcat_all m t
  end.
Definition StringConcatenate (count : nat) (args : list (option (list byte))) : res (option (cells byte)) :=
  if count <? 1 then Ok None
  else
    let args := firstn count args in
    let total := fold_left (fun n a => n + match a with Some s => length s | None => 0 end) args 0 in
    let* m := strcat_all (calloc (total + 1)) args in Ok (Some m).

(** libutils/string_lib.c:397-430 StringSubstring.  [source] is the memory readable at the
    pointer (the string and its terminator).  MIN(end, source_len - 1) compares as
    size_t: a negative [end] is larger than any length. *)
Definition to_size (z : Z) : Z := (z mod 2 ^ 64)%Z.
Definition StringSubstring (source : list byte) (source_len : nat) (start len : Z) : res (option (cells byte)) :=
  if (len =? 0)%Z then Ok (Some (block []))
  else if ((0 <? len) && (INT_MAX <? start + len))%Z then UB      (* int overflow *)
  else
    let sl := Z.of_nat source_len in
    let fin := if (len <? 0)%Z then (sl + len - 1)%Z else (start + len - 1)%Z in
    let fin := if (to_size fin <? to_size (sl - 1))%Z then fin else (sl - 1)%Z in
    let start := if (start <? 0)%Z then (sl + start)%Z else start in
    if (start >=? fin)%Z then Ok None
    else
      let n := Z.to_nat (fin - start + 1) in
      if (start <? 0)%Z then UB               (* source + start is before the object *)
      else let* m := acopy (calloc (n + 1)) 0 (block source) (Z.to_nat start) n in Ok (Some m).

(** libutils/string_lib.c:434-445 StringIsNumeric, StringIsPrintable, EmptyString *)
Fixpoint all_loop (p : byte -> bool) (fuel i : nat) (s : list byte) : res bool :=
  match fuel with
  | O => Fuel
  | S g => let* c := chr s i in
           if beq c NUL then Ok true
           else if negb (p c) then Ok false else all_loop p g (S i) s
  end.
Definition StringIsNumeric (s : list byte) := all_loop isdigit (S (length s)) 0 s.
(** libutils/string_lib.c:447-458 StringIsPrintable *)
Definition StringIsPrintable (s : list byte) := all_loop isprint (S (length s)) 0 s.
(** libutils/string_lib.c:460-473 EmptyString *)
Definition EmptyString (s : list byte) := all_loop isspace (S (length s)) 0 s.

(** libutils/string_lib.c:919-937 StringBytesToHex *)
Definition hex_chars : list byte := lit "0123456789abcdef".
Fixpoint hex_loop (fuel i : nat) (m : cells byte) (dst_size : nat) (src : list byte) (src_len : nat)
  : res (cells byte * nat) :=
  match fuel with
  | O => Fuel
  | S g =>
      if (i <? src_len) && (i * 2 + 2 <? dst_size) then
        let* b := match nth_error src i with Some b => Ok b | None => UB end in
        let* h := chr hex_chars (N.to_nat (N.land (N.shiftr (code b) 4) 15)) in
        let* m := aset m (2 * i) h in
        let* h := chr hex_chars (N.to_nat (N.land (code b) 15)) in
        let* m := aset m (2 * i + 1) h in
        hex_loop g (S i) m dst_size src src_len
      else
        massert (2 * i <? dst_size)
        (let* m := aset m (2 * i) NUL in Ok (m, 2 * i))
  end.
Definition StringBytesToHex (m : cells byte) (dst_size : nat) (src : list byte) (src_len : nat) :=
  hex_loop (S src_len) 0 m dst_size src src_len.

(** libutils/string_lib.c:967-994 CountChar *)
Fixpoint count_loop (fuel i : nat) (s : list byte) (sep : byte) (n : nat) : res nat :=
  match fuel with
  | O => Fuel
  | S g =>
      let* c := chr s i in
      if beq c NUL then Ok n
      else
        let* esc := if beq c "\"%char then let* d := chr s (S i) in Ok (beq d sep) else Ok false in
        if (esc : bool) then count_loop g (S (S i)) s sep n
        else if beq c sep then count_loop g (S i) s sep (S n)
        else count_loop g (S i) s sep n
  end.
Definition CountChar (s : option (list byte)) (sep : byte) : res nat :=
  match s with
  | None => Ok 0
  | Some s => if length s =? 0 then Ok 0 else count_loop (S (length s)) 0 s sep 0
  end.

(** libutils/string_lib.c:1248-1281 EscapeCharCopy *)
Fixpoint escape_loop (fuel i o : nat) (m : cells byte) (s : list byte) (to_escape escape_with : byte)
  : res (cells byte) :=
  match fuel with
  | O => Fuel
  | S g =>
      let* c := chr s i in
      if beq c NUL then Ok m
      else
        let* ' (m, o) := (if beq c to_escape then let* m := aset m o escape_with in Ok (m, S o) else Ok (m, o)) in
        let* m := aset m o c in
        escape_loop g (S i) (S o) m s to_escape escape_with
  end.
Definition EscapeCharCopy (s : list byte) (to_escape escape_with : byte) : res (cells byte) :=
  if (SIZE_MAX / 2 - 1 <? N.of_nat (length s))%N then Abort
  else
    let* n := CountChar (Some s) to_escape in
    escape_loop (S (length s)) 0 0 (calloc (length s + n + 1)) s to_escape escape_with.

(** libutils/string_lib.c:996-1017 ReplaceChar.  [outSz] is an int; lengths below INT_MAX. *)
Fixpoint replchar_loop (fuel i : nat) (inp : list byte) (m : cells byte) (outSz : nat) (from to : byte)
  : res (cells byte) :=
  match fuel with
  | O => Fuel
  | S g =>
      if (i <? length inp) && (S i <? outSz) then
        let* c := chr inp i in
        let* m := aset m i (if beq c from then to else c) in
        replchar_loop g (S i) inp m outSz from to
      else Ok m
  end.
Definition ReplaceChar (inp : list byte) (m : cells byte) (outSz : nat) (from to : byte) : res (cells byte) :=
  let* m := mset m NUL outSz in
  replchar_loop (S (length inp)) 0 inp m outSz from to.

(** libutils/string_lib.c:1079-1095 ReplaceTrailingChar (non-NULL argument) *)
Definition ReplaceTrailingChar (m : cells byte) (from to : byte) : res (cells byte) :=
  let* s := mstr m in
  match length s with
  | O => Ok m
  | S i => let* c := aget m i in if beq c from then aset m i to else Ok m
  end.

(** libutils/string_lib.c:1025-1077 StringReplace.  [t] is the local array tmp, [tl] tmp_len,
    [bi] buf_idx; the loop is entered with [ni] = p - buf. *)
Fixpoint replace_loop (fuel : nat) (buf t : cells byte) (s : list byte) (buf_size tl bi ni : nat) (find rep : list byte)
  : res (option (cells byte * nat * nat)) :=
  match fuel with
  | O => Fuel
  | S g =>
      let pl := ni - bi in
      if buf_size <=? tl + pl + length rep then Ok None
      else
        let* t := acopy t tl buf bi pl in
        let tl := tl + pl in
        let* t := acopy t tl (block rep) 0 (length rep) in
        let tl := tl + length rep in
        let bi := ni + length find in
        match strstr (skipn bi s) find with
        | Some j => replace_loop g buf t s buf_size tl bi (bi + j) find rep
        | None => Ok (Some (t, tl, bi))
        end
  end.
Definition StringReplace (m : cells byte) (buf_size : nat) (find rep : list byte) : res (cells byte * Z) :=
  let* f0 := chr find 0 in
  massert (negb (beq f0 NUL))
  (let* s := mstr m in
   match strstr s find with
   | None => Ok (m, 0%Z)
   | Some p =>
       let* r := replace_loop (S (length s)) m (repeat None buf_size) s buf_size 0 0 p find rep in
       match r with
       | None => Ok (m, (-1)%Z)
       | Some (t, tl, bi) =>
           let ll := length s - bi in
           if buf_size <=? tl + ll then Ok (m, (-1)%Z)
           else
             let* t := acopy t tl m bi (ll + 1) in
             let tl := tl + ll in
             let* m := acopy m 0 t 0 (tl + 1) in
             Ok (m, Z.of_nat tl)
       end
   end).

(** libutils/string_lib.c:1295-1313 StripTrailingNewline and Chop share their loop
    [while (i > 0 && p(str[i - 1])) i--;] *)
Fixpoint back_loop (p : byte -> bool) (i : nat) (m : cells byte) : res nat :=
  match i with
  | O => Ok 0
  | S j => let* c := aget m j in if p c then back_loop p j m else Ok i
  end.
Definition strip_trailing (p : byte -> bool) (m : option (cells byte)) (max_length : nat)
  : res (option (cells byte) * Z) :=
  match m with
  | None => Ok (None, 0%Z)
  | Some m =>
      let* i := mstrnlen m (max_length + 1) in
      if max_length <? i then Ok (Some m, (-1)%Z)
      else
        let* i := back_loop p i m in
        let* c := aget m i in
        massert (beq c NUL || p c)
        (let* m := aset m i NUL in Ok (Some m, 0%Z))
  end.
(** libutils/string_lib.c:1295-1313 StripTrailingNewline *)
Definition StripTrailingNewline := strip_trailing (fun c => beq c (ascii_of_nat 10)).
(** libutils/string_lib.c:1331-1351 Chop *)
Definition Chop := strip_trailing isspace.

(** libutils/string_lib.c:1353-1378 TrimWhitespace: returns the buffer and the offset of the
    returned pointer *)
Fixpoint skip_space (fuel i : nat) (m : cells byte) : res nat :=
  match fuel with
  | O => Fuel
  | S g => let* c := aget m i in if isspace c then skip_space g (S i) m else Ok i
  end.
Fixpoint back_space (fuel e : nat) (m : cells byte) : res nat :=
  match fuel with
  | O => Fuel
  | S g => let* c := aget m e in
           if isspace c then match e with O => UB | S e' => back_space g e' m end else Ok e
  end.
Definition TrimWhitespace (m : cells byte) : res (cells byte * nat) :=
  let* s := skip_space (S (length m)) 0 m in
  let* c := aget m s in
  if beq c NUL then Ok (m, s)
  else
    let* str := mstr (skipn s m) in
    let* e := back_space (S (length m)) (s + length str - 1) m in
    let* m := aset m (e + 1) NUL in
    Ok (m, s).

(** libutils/string_lib.c:1394-1416 TrimCSVLineCRLF *)
Definition TrimCSVLineCRLF (m : cells byte) : res (cells byte * nat) :=
  let* s := mstr m in
  let n := length s in
  let* c := aget m n in
  massert (beq c NUL)
  (if n <? 2 then Ok (m, n)
   else
     let* a := aget m (n - 2) in
     let* b := (if beq a (ascii_of_nat 13) then let* b := aget m (n - 1) in Ok (beq b (ascii_of_nat 10)) else Ok false) in
     let* ' (m, n) := (if b : bool
                       then let* m := aset m (n - 2) NUL in let* m := aset m (n - 1) NUL in Ok (m, n - 2)
                       else Ok (m, n)) in
     let* s' := mstr m in
     massert (n =? length s') (Ok (m, n))).

(** libutils/string_lib.c:1444-1456 StringCloseHole *)
Definition StringCloseHole (m : cells byte) (start fin : nat) : res (cells byte) :=
  let* s := mstr m in
  massert ((start <=? fin) && (fin <=? length s))
  (massert (fin - start <=? length s)
  (if start <? fin
   then let* t := mstr (skipn fin m) in amove m start fin (length t + 1)
   else Ok m)).

(** libutils/string_lib.c:1521-1532 memcchr *)
Fixpoint memcchr_loop (fuel i : nat) (buf : cells byte) (c : byte) (n : nat) : res (option nat) :=
  match fuel with
  | O => Fuel
  | S g => if i <? n then let* b := aget buf i in
                          if negb (beq b c) then Ok (Some i) else memcchr_loop g (S i) buf c n
           else Ok None
  end.
Definition memcchr (buf : cells byte) (c : byte) (n : nat) := memcchr_loop (S n) 0 buf c n.

(** libutils/string_lib.c:1546-1563 StringNotMatchingSetCapped *)
Definition StringNotMatchingSetCapped (isp : list byte) (limit : nat) (exclude : list byte) (m : cells byte)
  : res (cells byte * bool) :=
  let l := strcspn isp exclude in
  if l <? predw limit then
    let* m := acopy m 0 (block isp) 0 l in let* m := aset m l NUL in Ok (m, false)
  else
    let* m := acopy m 0 (block isp) 0 (predw limit) in let* m := aset m (predw limit) NUL in Ok (m, true).

(** libutils/string_lib.c:1565-1578 StringAppend *)
Fixpoint sa_find (fuel i : nat) (m : cells byte) (n : nat) : res nat :=
  match fuel with
  | O => Fuel
  | S g => if i <? n then let* c := aget m i in
                          if beq c NUL then Ok i else sa_find g (S i) m n
           else Ok i
  end.
Fixpoint sa_copy (fuel i j : nat) (m : cells byte) (src : list byte) (n : nat) : res (cells byte * nat * nat) :=
  match fuel with
  | O => Fuel
  | S g => if i <? n then
             let* c := chr src j in
             if beq c NUL then Ok (m, i, j)
             else let* m := aset m i c in sa_copy g (S i) (S j) m src n
           else Ok (m, i, j)
  end.
Definition StringAppend (m : cells byte) (src : list byte) (n : nat) : res (cells byte * bool) :=
  let n := predw n in
  let* i := sa_find (S (length m)) 0 m n in
  let* ' (m, i, j) := sa_copy (S (length src)) i 0 m src n in
  let* m := aset m i NUL in
  if i <? n then Ok (m, true) else let* c := chr src j in Ok (m, beq c NUL).

(** libutils/string_lib.c:1611-1631 PathAppend *)
Definition PathAppend (m : cells byte) (path_size : nat) (leaf : list byte) (sep : byte) : res (cells byte * bool) :=
  let* path := mstr m in
  let pl := length path in
  let* has := (if 0 <? pl then let* c := aget m (pl - 1) in Ok (beq c sep) else Ok false) in
  let pl := if (has : bool) then pl - 1 else pl in
  if path_size <=? pl + 1 + length leaf then Ok (m, false)
  else
    let* m := aset m pl sep in
    let* m := acopy m (pl + 1) (block leaf) 0 (length leaf + 1) in
    Ok (m, true).

(** libutils/string_lib.c:1651-1679 StrCat.  [dst_len] is the in-out parameter, None for
    NULL; [src] is the memory readable at the source pointer. *)
Definition StrCat (m : cells byte) (dst_size : nat) (dst_len : option nat) (src : list byte) (src_len : nat)
  : res (cells byte * option nat) :=
  let* dlen := match dst_len with Some n => Ok n | None => let* d := mstr m in Ok (length d) end in
  let slen := if negb (src_len =? 0) then src_len else length src in
  let needed := dlen + slen in
  let* m :=
    (if dst_size <=? dlen + 1 then Ok m
     else if needed <? dst_size then
       let* m := acopy m dlen (block src) 0 slen in aset m needed NUL
     else
       massert (dst_size <=? dlen + slen)
       (let* m := acopy m dlen (block src) 0 (dst_size - dlen - 1) in aset m (dst_size - 1) NUL)) in
  Ok (m, option_map (fun _ => needed) dst_len).

(** libutils/string_lib.c:1691-1727 StrCatDelim *)
Definition StrCatDelim (m : cells byte) (dst_size : nat) (dst_len : option nat) (src : list byte) (sep : byte)
  : res (cells byte * option nat) :=
  let* dlen := match dst_len with Some n => Ok n | None => let* d := mstr m in Ok (length d) end in
  let slen := length src in
  let needed := if 0 <? dlen then S (dlen + slen) else dlen + slen in
  let* m :=
    (if dst_size <=? dlen + 1 then Ok m
     else if needed <? dst_size then
       let* ' (m, dlen) := (if 0 <? dlen then let* m := aset m dlen sep in Ok (m, S dlen) else Ok (m, dlen)) in
       let* m := acopy m dlen (block src) 0 slen in aset m needed NUL
     else Ok m) in
  Ok (m, option_map (fun _ => needed) dst_len).

(** libcompat/strlcpy.c:33-57 strlcpy: [d], [s] and [n] as in the C code; the loop
    [while (--n != 0)] *)
Fixpoint strlcpy_loop (n d : nat) (m : cells byte) (src : list byte) (s : nat) : res (cells byte * nat * nat * nat) :=
  match n with                                 (* value before the decrement *)
  | O => UB                                    (* not reached: the loop is entered with n <> 0 *)
  | S O => Ok (m, d, s, 0)
  | S p =>
      let* c := chr src s in
      let* m := aset m d c in
      if beq c NUL then Ok (m, S d, S s, p)
      else strlcpy_loop p (S d) m src (S s)
  end.
Fixpoint skip_str (fuel : nat) (src : list byte) (s : nat) : res nat :=
  match fuel with
  | O => Fuel
  | S g => let* c := chr src s in if beq c NUL then Ok (S s) else skip_str g src (S s)
  end.
Definition strlcpy (m : cells byte) (src : list byte) (siz : nat) : res (cells byte * nat) :=
  let* ' (m, d, s, n) := (if negb (siz =? 0) then strlcpy_loop siz 0 m src 0 else Ok (m, 0, 0, 0)) in
  let* ' (m, s) :=
    (if n =? 0 then
       let* m := (if negb (siz =? 0) then aset m d NUL else Ok m) in
       let* s := skip_str (S (length src)) src s in Ok (m, s)
     else Ok (m, s)) in
  Ok (m, s - 1).

(** libcompat/strlcat.c:35-61 strlcat *)
Fixpoint strlcat_find (n d : nat) (m : cells byte) : res nat :=
  match n with
  | O => Ok d
  | S p => let* c := aget m d in if beq c NUL then Ok d else strlcat_find p (S d) m
  end.
Fixpoint strlcat_copy (fuel : nat) (d n : nat) (m : cells byte) (src : list byte) (s : nat) : res (cells byte * nat * nat) :=
  match fuel with
  | O => Fuel
  | S g =>
      let* c := chr src s in
      if beq c NUL then Ok (m, d, s)
      else if negb (n =? 1) then let* m := aset m d c in strlcat_copy g (S d) (n - 1) m src (S s)
      else strlcat_copy g d n m src (S s)
  end.
Definition strlcat (m : cells byte) (src : list byte) (siz : nat) : res (cells byte * nat) :=
  let* dlen := strlcat_find siz 0 m in
  let n := siz - dlen in
  if n =? 0 then Ok (m, dlen + length src)
  else
    let* ' (m, d, s) := strlcat_copy (S (length src)) dlen n m src 0 in
    let* m := aset m d NUL in
    Ok (m, dlen + s).

(** * Tokens *)

(** strchr(seps, c) as a truth value: the terminator of [seps] matches NUL *)
Definition is_sep (seps : list byte) (c : byte) : bool :=
  match strchr seps c with Some _ => true | None => false end.

(** libutils/string_lib.c:1102-1124 StringCountTokens *)
Fixpoint count_tokens_loop (fuel i : nat) (str : cells byte) (len : nat) (seps : list byte) (n : nat) (in_token : bool) : res nat :=
  match fuel with
  | O => Fuel
  | S g =>
      if i <? len then
        let* c := aget str i in
        if is_sep seps c then count_tokens_loop g (S i) str len seps n false
        else count_tokens_loop g (S i) str len seps (if negb in_token then S n else n) true
      else Ok n
  end.
Definition StringCountTokens (str : cells byte) (len : nat) (seps : list byte) :=
  count_tokens_loop (S len) 0 str len seps 0 false.

(** libutils/string_lib.c:1126-1158 StringNextToken: the result is (offset, length) *)
Fixpoint next_token_loop (fuel i : nat) (str : cells byte) (len : nat) (seps : list byte) (found : option nat)
  : res (option (nat * nat)) :=
  match fuel with
  | O => Fuel
  | S g =>
      if i <? len then
        let* c := aget str i in
        if is_sep seps c then
          match found with
          | Some start => massert (0 <? i) (Ok (Some (start, i - start)))
          | None => next_token_loop g (S i) str len seps None
          end
        else next_token_loop g (S i) str len seps (match found with None => Some i | x => x end)
      else Ok (match found with Some start => Some (start, len - start) | None => None end)
  end.
Definition StringNextToken (str : cells byte) (len : nat) (seps : list byte) :=
  next_token_loop (S len) 0 str len seps None.

(** libutils/string_lib.c:1160-1177 StringGetToken; offsets are relative to the original
    pointer: [off] is the current value of the variable str *)
Fixpoint get_token_loop (index : nat) (str : cells byte) (off len : nat) (seps : list byte) (ref : option (nat * nat))
  : res (option (nat * nat)) :=
  match index with
  | O => Ok (option_map (fun r => (off + fst r, snd r)) ref)
  | S k =>
      match ref with
      | None => Ok None
      | Some (o, l) =>
          let len := len - (o + l) in
          let off := off + o + l in
          let* ref := StringNextToken (skipn off str) len seps in
          get_token_loop k str off len seps ref
      end
  end.
Definition StringGetToken (str : cells byte) (len index : nat) (seps : list byte) : res (option (nat * nat)) :=
  let* ref := StringNextToken str len seps in
  get_token_loop index str 0 len seps ref.

(** libutils/string_lib.c:1179-1227 String2StringArray: the array is a list of cells, each
    holding a freshly allocated string; the terminating NULL entry is [None] *)
Fixpoint count_sep (s : list byte) (sep : byte) : nat :=
  match s with [] => 0 | c :: t => (if beq c sep then 1 else 0) + count_sep t sep end.
Fixpoint s2a_loop (fuel i : nat) (arr : cells (option (cells byte))) (sp : list byte) (sep : byte)
  : res (cells (option (cells byte))) :=
  match fuel with
  | O => Fuel
  | S g =>
      let esp := strchr sp sep in
      let len := match esp with Some j => j | None => length sp end in
      let* piece := acopy (calloc (len + 1)) 0 (block sp) 0 len in
      let* arr := aset arr i (Some piece) in
      match esp with
      | None => Ok arr
      | Some j => if j <? length sp then s2a_loop g (S i) arr (skipn (j + 1) sp) sep
                  else UB                      (* separator NUL: esp is past the terminator *)
      end
  end.
Definition String2StringArray (str : option (list byte)) (sep : byte) : res (option (cells (option (cells byte)))) :=
  match str with
  | None => Ok None
  | Some s => let* a := s2a_loop (S (length s)) 0 (repeat (Some None) (count_sep s sep + 2)) s sep in Ok (Some a)
  end.

(** libutils/string_lib.c:1283-1293 ScanPastChars: offset of the returned pointer *)
Fixpoint scan_past (fuel i : nat) (set input : list byte) : res nat :=
  match fuel with
  | O => Fuel
  | S g => let* c := chr input i in
           if beq c NUL then Ok i
           else if is_sep set c then scan_past g (S i) set input else Ok i
  end.
Definition ScanPastChars (set input : list byte) := scan_past (S (length input)) 0 set input.
