(** Model of the string functions of libcompat/, the replacements that are linked in
    where the system's C library lacks them.  Memory is a [cells byte] array, pointers
    into it are offsets; reading a cell that does not exist or was never written is UB. *)
From Verif Require Import Prelude Str Libc.
Set Implicit Arguments.

(** libcompat/memmem.c:31-56 memmem: the inner loop; [h + haystacklen] is the offset [hl] *)
Fixpoint memmem_match (fuel len start : nat) (h : cells byte) (hl : nat) (n : cells byte) (nl : nat) : res nat :=
  match fuel with
  | O => Fuel
  | S f =>
      if (len <? nl) && (start + len <? hl) then
        let* a := aget h (start + len) in let* b := aget n len in
        if beq a b then memmem_match f (S len) start h hl n nl else Ok len
      else Ok len
  end.
(** libcompat/memmem.c:31-56 memmem: the outer loop *)
Fixpoint memmem_loop (fuel start : nat) (h : cells byte) (hl : nat) (n : cells byte) (nl : nat) : res (option nat) :=
  match fuel with
  | O => Fuel
  | S f =>
      if start <? hl then
        let* len := memmem_match (S nl) 0 start h hl n nl in
        if len =? nl then Ok (Some start) else memmem_loop f (S start) h hl n nl
      else Ok None
  end.
(** libcompat/memmem.c:31-56 memmem *)
Definition memmem (h : cells byte) (hl : nat) (n : cells byte) (nl : nat) : res (option nat) :=
  memmem_loop (S hl) 0 h hl n nl.

(** libcompat/memrchr.c:32-46 memrchr: [s_end] is [s + n - 1] throughout the loop *)
Fixpoint memrchr (s : cells byte) (c : byte) (n : nat) : res (option nat) :=
  match n with
  | O => Ok None
  | S p => let* x := aget s p in if beq x c then Ok (Some p) else memrchr s c p
  end.

(** libcompat/strnlen.c:31-40 strnlen: [cp] is the offset, [maxlen] counts down *)
Fixpoint strnlen_loop (maxlen cp : nat) (str : cells byte) : res nat :=
  match maxlen with
  | O => Ok cp
  | S p => let* c := aget str cp in if beq c NUL then Ok cp else strnlen_loop p (S cp) str
  end.
Definition strnlen (str : cells byte) (maxlen : nat) : res nat := strnlen_loop maxlen 0 str.

(** libcompat/strndup.c:37-51 strndup; [mem] tells whether malloc succeeds *)
Definition strndup (mem : bool) (str : cells byte) (maxlen : nat) : res (option (cells byte)) :=
  let* len := strnlen str maxlen in
  if mem then
    let copy := repeat None (len + 1) in
    let* copy := acopy copy 0 str 0 len in
    let* copy := aset copy len NUL in
    Ok (Some copy)
  else Ok None.

(** libcompat/memdup.c:36-46 memdup *)
Definition memdup (mem : bool) (data : cells byte) (size : nat) : res (option (cells byte)) :=
  if mem then let* m := acopy (repeat None size) 0 data 0 size in Ok (Some m) else Ok None.

(** libcompat/strdup.c:36-47 strdup *)
Definition strdup (mem : bool) (str : cells byte) : res (option (cells byte)) :=
  let* s := mstr str in
  let len := length s + 1 in
  if mem then let* m := acopy (repeat None len) 0 str 0 len in Ok (Some m) else Ok None.

(** strncmp(a, b, n) == 0 of the C library, on strings *)
Definition strncmp_eq (a b : list byte) (n : nat) : bool := bytes_eqb (firstn n a) (firstn n b).

(** libcompat/strstr.c:35-48 strstr: [sp] walks over the haystack; the strings are C strings
    (no NUL inside), so [skipn sp h] is the string at [sp] *)
Fixpoint strstr_loop (fuel sp : nat) (h needle : list byte) : res (option nat) :=
  match fuel with
  | O => Fuel
  | S f =>
      let* c := chr h sp in
      if beq c NUL then Ok None
      else if strncmp_eq (skipn sp h) needle (length needle) then Ok (Some sp)
      else strstr_loop f (S sp) h needle
  end.
Definition strstr_compat (h needle : list byte) : res (option nat) := strstr_loop (S (length h)) 0 h needle.

(** tolower() of the C library in the C locale, on an int: its behaviour is undefined
    unless the argument is an unsigned char value or EOF (-1).  The two functions below
    pass a plain (signed) char. *)
Definition tolower_int (x : Z) : res Z :=
  if ((0 <=? x) && (x <? 256))%Z then Ok (Z.of_N (code (tolower (ascii_of_N (Z.to_N x)))))
  else if (x =? -1)%Z then Ok (-1)%Z else UB.

(** libcompat/strcasecmp.c:33-61 strcasecmp: [i] is the offset both pointers have reached *)
Fixpoint strcasecmp_loop (fuel i : nat) (s1 s2 : list byte) : res Z :=
  match fuel with
  | O => Fuel
  | S f =>
      let* a := chr s1 i in let* b := chr s2 i in
      if beq a NUL && beq b NUL then Ok 0%Z
      else if beq a NUL then Ok (-1)%Z
      else if beq b NUL then Ok 1%Z
      else
        let* x := tolower_int (scode a) in let* y := tolower_int (scode b) in
        if (x <? y)%Z then Ok (-1)%Z
        else if (y <? x)%Z then Ok 1%Z
        else strcasecmp_loop f (S i) s1 s2
  end.
Definition strcasecmp (s1 s2 : list byte) : res Z := strcasecmp_loop (S (length s1 + length s2)) 0 s1 s2.

(** libcompat/strncasecmp.c:33-61 strncasecmp *)
Fixpoint strncasecmp_loop (n i : nat) (s1 s2 : list byte) : res Z :=
  match n with
  | O => Ok 0%Z
  | S n' =>
      let* a := chr s1 i in let* b := chr s2 i in
      if beq a NUL && beq b NUL then Ok 0%Z
      else if beq a NUL then Ok (-1)%Z
      else if beq b NUL then Ok 1%Z
      else
        let* x := tolower_int (scode a) in let* y := tolower_int (scode b) in
        if (x <? y)%Z then Ok (-1)%Z
        else if (y <? x)%Z then Ok 1%Z
        else strncasecmp_loop n' (S i) s1 s2
  end.
Definition strncasecmp (s1 s2 : list byte) (n : nat) : res Z := strncasecmp_loop n 0 s1 s2.

(** libcompat/strcasestr.c:36-48 strcasestr: strncasecmp is the one of libcompat; the string
    at [sp] is [skipn sp h] *)
Fixpoint strcasestr_loop (fuel sp : nat) (h needle : list byte) : res (option nat) :=
  match fuel with
  | O => Fuel
  | S f =>
      let* c := chr h sp in
      if beq c NUL then Ok None
      else
        let* r := strncasecmp (skipn sp h) needle (length needle) in
        if (r =? 0)%Z then Ok (Some sp) else strcasestr_loop f (S sp) h needle
  end.
Definition strcasestr (h needle : list byte) : res (option nat) := strcasestr_loop (S (length h)) 0 h needle.

(** libcompat/strrstr.c:43-59 strrstr: [p] is the offset of the candidate; the loop stops
    when [p > str] fails, that is at offset 0 *)
Fixpoint strrstr_loop (p : nat) (str pat : list byte) : res (option nat) :=
  match p with
  | O => Ok None
  | S q =>
      let* a := chr str p in let* b := chr pat 0 in
      if beq a b && strncmp_eq (skipn p str) pat (length pat) then Ok (Some p)
      else strrstr_loop q str pat
  end.
Definition strrstr (str pat : list byte) : res (option nat) :=
  let len := length str in
  let patlen := length pat in
  if len <? patlen then Ok None
  else strrstr_loop (len - patlen) str pat.

(** libcompat/strchrnul.c:9-21 strchrnul; strchr is the C library's, which finds the
    terminator when asked for NUL *)
Definition strchrnul (s : list byte) (c : byte) : nat :=
  match strchr s c with
  | None => length s
  | Some p => p
  end.

(** libcompat/strsep.c:52-77 strsep: the do-while over [delim], whose terminator counts *)
Fixpoint strsep_delim (fuel i : nat) (delim : list byte) (c : byte) : res bool :=
  match fuel with
  | O => Fuel
  | S f =>
      let* sc := chr delim i in
      if beq sc c then Ok true
      else if negb (beq sc NUL) then strsep_delim f (S i) delim c else Ok false
  end.
(** libcompat/strsep.c:52-77 strsep: the loop; result: memory, new [*stringp] *)
Fixpoint strsep_loop (fuel s : nat) (m : cells byte) (delim : list byte) : res (cells byte * option nat) :=
  match fuel with
  | O => Fuel
  | S f =>
      let* c := aget m s in
      let* hit := strsep_delim (S (length delim)) 0 delim c in
      if hit then
        if beq c NUL then Ok (m, None)
        else let* m := aset m s NUL in Ok (m, Some (S s))
      else strsep_loop f (S s) m delim
  end.
(** libcompat/strsep.c:52-77 strsep: memory, new [*stringp], returned token *)
Definition strsep (m : cells byte) (stringp : option nat) (delim : list byte)
  : res (cells byte * option nat * option nat) :=
  match stringp with
  | None => Ok (m, None, None)
  | Some s => let* ' (m, p) := strsep_loop (S (length m)) s m delim in Ok (m, p, Some s)
  end.

(** the usual loop: while ((tok = strsep(&p, delim)) != NULL) ... ; the tokens are the
    offsets at which they start *)
Fixpoint strsep_all (fuel : nat) (m : cells byte) (p : option nat) (delim : list byte) : res (cells byte * list nat) :=
  match fuel with
  | O => Fuel
  | S f =>
      let* ' (m, p, tok) := strsep m p delim in
      match tok with
      | None => Ok (m, [])
      | Some t => let* ' (m, ts) := strsep_all f m p delim in Ok (m, t :: ts)
      end
  end.

(** libcompat/stpncpy.c:39-60 stpncpy: [++i] on an [int] at INT_MAX is undefined.
    dst and src are different arrays. *)
Definition int_succ (i : nat) : res nat := if (Z.of_nat i <? INT_MAX)%Z then Ok (S i) else UB.
Fixpoint stpncpy_fill (fuel j : nat) (dst : cells byte) (len : nat) : res (cells byte) :=
  match fuel with
  | O => Fuel
  | S f =>
      if j <? len then
        let* dst := aset dst j NUL in let* j := int_succ j in stpncpy_fill f j dst len
      else Ok dst
  end.
Fixpoint stpncpy_loop (fuel i : nat) (dst src : cells byte) (len : nat) : res (cells byte * nat) :=
  match fuel with
  | O => Fuel
  | S f =>
      if i <? len then
        let* b := aget src i in
        let* dst := aset dst i b in
        if beq b NUL then
          let* j := int_succ i in
          let* dst := stpncpy_fill (S len) j dst len in Ok (dst, i)
        else let* i := int_succ i in stpncpy_loop f i dst src len
      else Ok (dst, len)
  end.
Definition stpncpy (dst src : cells byte) (len : nat) : res (cells byte * nat) :=
  stpncpy_loop (S len) 0 dst src len.

(** A stdio input stream: the bytes not read yet, whether the read after them fails
    (instead of reporting the end of the file), and the two sticky flags. *)
Record stream := Stream { rest : list byte; bad : bool; eof : bool; err : bool }.

(** getc(stream): None is EOF *)
Definition getc (s : stream) : option byte * stream :=
  match rest s with
  | c :: t => (Some c, Stream t (bad s) (eof s) (err s))
  | [] => if bad s then (None, Stream [] true (eof s) true) else (None, Stream [] false true (err s))
  end.

Section Getline.
  (** [mem n]: realloc to [n] bytes succeeds;  [ssize_max]: SSIZE_MAX *)
  Variable mem : nat -> bool.
  Variable ssize_max : N.

  (** libcompat/getline.c:52-124 getdelim: the reading loop.  State: buffer ([*lineptr] and its
      allocation), [*n], [bytes], [pos].  [inl] is a return of -1 from inside the loop. *)
  Fixpoint getdelim_loop (fuel : nat) (buf : cells byte) (n bytes pos : nat) (d : byte) (s : stream)
    : res ((cells byte * nat * stream) + (cells byte * nat * nat * nat * stream)) :=
    match fuel with
    | O => Fuel
    | S f =>
        let (c, s) := getc s in
        match c with
        | None => Ok (inr (buf, n, bytes, pos, s))
        | Some c =>
            if (ssize_max <=? N.of_nat (bytes + 1))%N then Ok (inl (buf, n, s))
            else
              let bytes := bytes + 1 in
              let* ' (fail, buf, n, pos) :=
                if n - 1 <=? bytes then
                  if mem (n + 4096) then Ok (false, arealloc buf (n + 4096), n + 4096, bytes - 1)
                  else Ok (true, buf, n, pos)
                else Ok (false, buf, n, pos) in
              if fail : bool then Ok (inl (buf, n, s))
              else
                let* buf := aset buf pos c in
                if beq c d then Ok (inr (buf, n, bytes, S pos, s))
                else getdelim_loop f buf n bytes (S pos) d s
        end
    end.

  (** libcompat/getline.c:52-124 getdelim with non-NULL arguments: new [*lineptr], [*n], the
      stream, and the result *)
  Definition getdelim (lineptr : option (cells byte)) (n : nat) (d : byte) (s : stream)
    : res (option (cells byte) * nat * stream * Z) :=
    let* ' (fail, lineptr, buf, n) :=
      match lineptr with
      | Some b => if n <? 4 then if mem 4096 then let b := arealloc b 4096 in Ok (false, Some b, b, 4096)
                                 else Ok (true, lineptr, b, n)
                  else Ok (false, Some b, b, n)
      | None => if mem 4096 then let b := arealloc [] 4096 in Ok (false, Some b, b, 4096)
                else Ok (true, None, [], n)
      end in
    if fail : bool then Ok (lineptr, n, s, (-1)%Z)
    else
      let* r := getdelim_loop (S (length (rest s))) buf n 0 0 d s in
      match r with
      | inl (buf, n, s) => Ok (Some buf, n, s, (-1)%Z)
      | inr (buf, n, bytes, pos, s) =>
          if err s || (eof s && (bytes =? 0)) then Ok (Some buf, n, s, (-1)%Z)
          else let* buf := aset buf pos NUL in Ok (Some buf, n, s, Z.of_nat bytes)
      end.

  (** libcompat/getline.c:126-130 getline *)
  Definition getline (lineptr : option (cells byte)) (n : nat) (s : stream)
    : res (option (cells byte) * nat * stream * Z) :=
    getdelim lineptr n (ascii_of_nat 10) s.

  (** the first [k] bytes of a buffer *)
  Fixpoint read_cells (k : nat) (m : cells byte) : res (list byte) :=
    match k, m with
    | O, _ => Ok []
    | S k, Some c :: m => let* t := read_cells k m in Ok (c :: t)
    | _, _ => UB
    end.

  (** the usual loop: while ((len = getline(&line, &size, stream)) != -1) use(line, len); *)
  Fixpoint getline_all (fuel : nat) (lineptr : option (cells byte)) (n : nat) (s : stream) : res (list (list byte)) :=
    match fuel with
    | O => Fuel
    | S f =>
        let* ' (lineptr, n, s, ret) := getline lineptr n s in
        if (ret =? -1)%Z then Ok []
        else
          let* line := read_cells (Z.to_nat ret) (match lineptr with Some b => b | None => [] end) in
          let* ls := getline_all f lineptr n s in
          Ok (line :: ls)
    end.
End Getline.
