(** Model of libutils/pcre_wrap.c and BufferSearchAndReplace of libutils/buffer.c.
    PCRE itself is an oracle; allocations succeed. *)
From Verif Require Import Prelude Str Libc BufModel CompatModel.
Set Implicit Arguments.

(** what pcre_exec returns and leaves in its offset vector: a positive number of pairs
    (start, end), 0 when the vector is too small, or a negative error code *)
Inductive exec_result := Matched (groups : list (Z * Z)) | TooSmall | Failed (code : Z).
Definition PCRE_ERROR_NOMATCH : Z := -1.
(** a compiled pattern: its number of capturing groups, and matching a subject from an
    offset *)
Record pcre := mkPcre { capturecount : Z; pcre_exec : list byte -> nat -> exec_result }.

(** libutils/pcre_wrap.h:16-26 *)
Definition MAX_SUBMATCHES : nat := 33.
Definition PCRE_WRAP_WARN_BADREF : Z := -14.

(** option bits of pcre.h, and libutils/pcre_wrap.h:29-30 *)
Definition PCRE_CASELESS : N := 1.
Definition PCRE_MULTILINE : N := 2.
Definition PCRE_DOTALL : N := 4.
Definition PCRE_EXTENDED : N := 8.
Definition PCRE_UNGREEDY : N := 512.
Definition PCRE_WRAP_GLOBAL : N := 1.
Definition PCRE_WRAP_TRIVIAL : N := 2.
Definition PCRE_WRAP_SUCCESS : N := 4.

(** pcre_wrap.c:56-85 pcre_wrap_parse_perl_options: [rc] and [*flags] *)
Fixpoint parse_options (options : list byte) (rc flags : N) : N * N :=
  match options with
  | [] => (rc, flags)
  | c :: t =>
      if beq c "g" then parse_options t rc (N.lor flags PCRE_WRAP_GLOBAL)
      else if beq c "i" then parse_options t (N.lor rc PCRE_CASELESS) flags
      else if beq c "m" then parse_options t (N.lor rc PCRE_MULTILINE) flags
      else if beq c "s" then parse_options t (N.lor rc PCRE_DOTALL) flags
      else if beq c "x" then parse_options t (N.lor rc PCRE_EXTENDED) flags
      else if beq c "U" then parse_options t (N.lor rc PCRE_UNGREEDY) flags
      else if beq c "T" then parse_options t rc (N.lor flags PCRE_WRAP_TRIVIAL)
      else parse_options t rc flags
  end.
Definition pcre_wrap_parse_perl_options (options : list byte) : N * N := parse_options options 0 0.

(** libutils/pcre_wrap.h:39-46 pcre_wrap_substitute *)
Record substitute := mkSub {
  text : cells byte;
  backrefs : nat;
  block_offset : cells nat;
  block_length : cells nat;
  backref : cells Z;
  backref_count : cells Z }.

(** isdigit((int) c) of a plain (signed) char: undefined for negative values *)
Definition isdigit_int (c : byte) : res bool := if (code c <? 128)%N then Ok (isdigit c) else UB.

(** pcre_wrap.c:87-249 pcre_wrap_compile_replacement: the loop over the digits of a numeric
    reference; [v] is [rstruct->backref[refnum]], an int *)
Fixpoint digits_loop (fuel : nat) (replacement : list byte) (sourcepos : nat) (v : Z) : res (nat * Z) :=
  match fuel with
  | O => Fuel
  | S f =>
      if sourcepos <? length replacement then
        let sourcepos := S sourcepos in
        let* c := chr replacement sourcepos in
        let* d := isdigit_int c in
        if d : bool then
          let x := (v * 10 + scode c)%Z in
          if (x <=? INT_MAX)%Z then digits_loop f replacement sourcepos (x - 48)%Z else UB
        else Ok (sourcepos, v)
      else Ok (sourcepos, v)
  end.

Definition B_ref : list byte := lit "123456789".
Definition B_esc : list byte := lit "tnrfae0".
(** pcre_wrap.c:87-249 pcre_wrap_compile_replacement: the switch over escaped letters *)
Definition escaped (c : byte) : byte :=
  if beq c "t" then ascii_of_nat 9
  else if beq c "n" then ascii_of_nat 10
  else if beq c "r" then ascii_of_nat 13
  else if beq c "f" then ascii_of_nat 12
  else if beq c "a" then ascii_of_nat 7
  else if beq c "e" then ascii_of_nat 27
  else NUL.
Definition member (c : byte) (s : list byte) : bool := existsb (beq c) s.

(** the local variables of pcre_wrap_compile_replacement *)
Record rstate := mkR { textpos : nat; quoted : bool; sourcepos : nat; refnum : nat; sub : substitute; badref : bool }.

Definition put_char (st : rstate) (c : byte) (skip : nat) : res rstate :=
  let s := sub st in
  let* t := aset (text s) (textpos st) c in
  Ok (mkR (S (textpos st)) false (sourcepos st + skip) (refnum st)
          (mkSub t (backrefs s) (block_offset s) (block_length s) (backref s) (backref_count s)) (badref st)).

(** pcre_wrap.c:87-249 pcre_wrap_compile_replacement: what follows a reference [v] ending in front
    of [pos] *)
Definition end_reference (st : rstate) (pos : nat) (v : Z) (bad : bool) : res rstate :=
  let s := sub st in
  let* refs := aset (backref s) (refnum st) v in
  if (v <? Z.of_nat (MAX_SUBMATCHES + 2))%Z then
    let* n := aget (backref_count s) (Z.to_nat v) in
    let* counts := aset (backref_count s) (Z.to_nat v) (n + 1)%Z in
    let* offs := aset (block_offset s) (S (refnum st)) (textpos st) in
    Ok (mkR (textpos st) (quoted st) pos (S (refnum st)) (mkSub (text s) (backrefs s) offs (block_length s) refs counts) bad)
  else
    Ok (mkR (textpos st) (quoted st) pos (refnum st) (mkSub (text s) (backrefs s) (block_offset s) (block_length s) refs (backref_count s)) true).

(** pcre_wrap.c:87-249 pcre_wrap_compile_replacement: the main loop, for non-trivial jobs *)
Fixpoint replacement_loop (fuel : nat) (replacement : list byte) (captures : Z) (st : rstate) : res rstate :=
  match fuel with
  | O => Fuel
  | S f =>
      let length := length replacement in
      if sourcepos st <? length then
        let* c := chr replacement (sourcepos st) in
        let* next := chr replacement (sourcepos st + 1) in
        let plainchar (st : rstate) :=
          let* st := put_char st c 1 in replacement_loop f replacement captures st in
        if beq c "\" && (beq next NUL || negb (member next B_ref)) then
          if quoted st then
            let* st := put_char st c 1 in replacement_loop f replacement captures st
          else if negb (beq next NUL) && member next B_esc then
            let* st := put_char st (escaped next) 2 in replacement_loop f replacement captures st
          else
            replacement_loop f replacement captures (mkR (textpos st) true (S (sourcepos st)) (refnum st) (sub st) (badref st))
        else if (beq c "\" || beq c "$") && negb (quoted st) && (sourcepos st <? length - 1) then
          let s := sub st in
          let* off := aget (block_offset s) (refnum st) in
          let* lens := aset (block_length s) (refnum st) (textpos st - off) in
          let st := mkR (textpos st) (quoted st) (sourcepos st) (refnum st)
                        (mkSub (text s) (backrefs s) (block_offset s) lens (backref s) (backref_count s)) (badref st) in
          let* d := isdigit_int next in
          if d : bool then
            let* v0 := aget (backref s) (refnum st) in
            let* ' (pos, v) := digits_loop (S length) replacement (sourcepos st) v0 in
            let* st := end_reference st pos v (badref st || (captures <? v)%Z) in
            replacement_loop f replacement captures st
          else if beq c "$" && member next (lit "'`+&") then
            let v := if beq next "+" then captures
                     else if beq next "&" then 0%Z
                     else if beq next "`" then Z.of_nat MAX_SUBMATCHES
                     else Z.of_nat (MAX_SUBMATCHES + 1) in
            let* st := end_reference st (sourcepos st + 2) v (badref st) in
            replacement_loop f replacement captures st
          else plainchar st
        else plainchar st
      else Ok st
  end.

(** pcre_wrap.c:87-249 pcre_wrap_compile_replacement: the substitute, and whether [*errptr] became
    PCRE_WRAP_WARN_BADREF *)
Definition pcre_wrap_compile_replacement (replacement : list byte) (trivial : bool) (captures : Z) : res (substitute * bool) :=
  let length := length replacement in
  let zero := mkSub (repeat (Some NUL) (length + 1)) 0 (repeat (Some 0) MAX_SUBMATCHES) (repeat (Some 0) MAX_SUBMATCHES)
                    (repeat (Some 0%Z) MAX_SUBMATCHES) (repeat (Some 0%Z) (MAX_SUBMATCHES + 2)) in
  let* st :=
    if trivial then
      let* t := acopy (text zero) 0 (block replacement) 0 (length + 1) in
      Ok (mkR length false 0 0 (mkSub t 0 (block_offset zero) (block_length zero) (backref zero) (backref_count zero)) false)
    else replacement_loop (S length) replacement captures (mkR 0 false 0 0 zero false) in
  let s := sub st in
  let* off := aget (block_offset s) (refnum st) in
  let* lens := aset (block_length s) (refnum st) (textpos st - off) in
  Ok (mkSub (text s) (refnum st) (block_offset s) lens (backref s) (backref_count s), badref st).

(** libutils/pcre_wrap.h:67-74 pcre_wrap_job *)
Record job := mkJob { pattern : pcre; flags : N; subst : substitute }.

Section Compile.
  (** pcre_compile, pcre_study and pcre_fullinfo: the compiled pattern, or None when one of
      them fails *)
  Variable pcre_compile : list byte -> N -> option pcre.
  (** pcre_wrap.c:283-341 pcre_wrap_compile with non-NULL arguments; the error code is left out *)
  Definition pcre_wrap_compile (pattern substitute options : list byte) : res (option job) :=
    let ' (rc, flags) := pcre_wrap_parse_perl_options options in
    match pcre_compile pattern rc with
    | None => Ok None
    | Some p =>
        let* ' (s, _) := pcre_wrap_compile_replacement substitute (N.testbit flags 1) (capturecount p) in
        Ok (Some (mkJob p flags s))
    end.
End Compile.

(** size_t arithmetic *)
Definition SIZE_MOD : Z := 2 ^ 64.
Definition usz (z : Z) : Z := z mod SIZE_MOD.

(** libutils/pcre_wrap.h:55-60 pcre_wrap_match; the arrays hold only the submatches found: the
    entries for the text before and behind the match are never read, see [execute_refs].
    Offsets and lengths are as pcre_exec gave them. *)
Definition match_ := list (Z * Z).
Definition m_offset (p : Z * Z) : Z := fst p.
Definition m_length (p : Z * Z) : Z := usz (snd p - fst p).

(** the memory the result needs for the submatches *)
Fixpoint submatch_sizes (m : match_) (i : nat) (counts : cells Z) (newsize : Z) : res Z :=
  match m with
  | [] => Ok newsize
  | p :: r => let* n := aget counts i in submatch_sizes r (S i) counts (usz (newsize + m_length p * n))
  end.

(** pcre_wrap.c:343-501 pcre_wrap_execute: the searching loop; result: the matches, the size of the
    result and the last return value of pcre_exec ([inl]: submatches < PCRE_ERROR_NOMATCH) *)
Fixpoint search_loop (fuel : nat) (j : job) (subject : list byte) (offset : nat) (matches : list match_) (newsize : Z)
  : res (Z + list match_ * Z) :=
  match fuel with
  | O => Fuel
  | S f =>
      match pcre_exec (pattern j) subject offset with
      | TooSmall => Ok (inr (matches, newsize))
      | Failed code => if (code <? PCRE_ERROR_NOMATCH)%Z then Ok (inl code) else Ok (inr (matches, newsize))
      | Matched [] => UB
      | Matched ((o0, o1) :: r) =>
          let groups := (o0, o1) :: r in
          if MAX_SUBMATCHES <? length groups then UB else
          let* newsize := submatch_sizes groups 0 (backref_count (subst j)) newsize in
          let* t := mstr (text (subst j)) in
          let newsize := usz (newsize + (Z.of_nat (length t) - m_length (o0, o1))) in
          let* before := aget (backref_count (subst j)) MAX_SUBMATCHES in
          let newsize := usz (newsize + o0 * before) in
          let* behind := aget (backref_count (subst j)) (MAX_SUBMATCHES + 1) in
          let newsize := usz (newsize + (Z.of_nat (length subject) - o1) * behind) in
          let matches := matches ++ [groups] in
          if negb (N.testbit (flags j) 0) then Ok (inr (matches, newsize))
          else if (o1 =? Z.of_nat offset)%Z then
            if offset <? length subject then search_loop f j subject (S offset) matches newsize
            else Ok (inr (matches, newsize))
          else search_loop f j subject (Z.to_nat o1) matches newsize
      end
  end.

(** memcpy(result + at, src + from, n) with [n] a size_t computed in Z *)
Definition put (result : cells byte) (pos : nat) (src : cells byte) (from n : Z) : res (cells byte * nat) :=
  if (0 <=? from)%Z && (0 <=? n)%Z then
    let* r := acopy result pos src (Z.to_nat from) (Z.to_nat n) in Ok (r, pos + Z.to_nat n)
  else UB.

(** pcre_wrap.c:343-501 pcre_wrap_execute: copying the segments of the substitute for one match *)
Fixpoint segments_loop (fuel : nat) (s : substitute) (subject : cells byte) (m : match_) (segment : nat) (result : cells byte) (pos : nat)
  : res (cells byte * nat) :=
  match fuel with
  | O => Fuel
  | S f =>
      if segment <=? backrefs s then
        let* off := aget (block_offset s) segment in
        let* len := aget (block_length s) segment in
        let* ' (result, pos) := put result pos (text s) (Z.of_nat off) (Z.of_nat len) in
        if segment =? backrefs s then segments_loop f s subject m (S segment) result pos
        else
          let* ref := aget (backref s) segment in
          if (ref <? Z.of_nat (MAX_SUBMATCHES + 2))%Z && (ref <? Z.of_nat (length m))%Z then
            match nth_error m (Z.to_nat ref) with
            | None => UB
            | Some p =>
                if (0 <? m_length p)%Z then
                  let* ' (result, pos) := put result pos subject (m_offset p) (m_length p) in
                  segments_loop f s subject m (S segment) result pos
                else segments_loop f s subject m (S segment) result pos
            end
          else segments_loop f s subject m (S segment) result pos
      else Ok (result, pos)
  end.
(** pcre_wrap.c:343-501 pcre_wrap_execute: the loop over the matches *)
Fixpoint matches_loop (s : substitute) (subject : cells byte) (ms : list match_) (offset : Z) (result : cells byte) (pos : nat)
  : res (cells byte * nat * Z) :=
  match ms with
  | [] => Ok (result, pos, offset)
  | [] :: _ => UB
  | (p :: m) :: r =>
      let* ' (result, pos) := put result pos subject offset (m_offset p - offset) in
      let* ' (result, pos) := segments_loop (S (S (backrefs s))) s subject (p :: m) 0 result pos in
      matches_loop s subject r (m_offset p + m_length p) result pos
  end.
(** pcre_wrap.c:343-501 pcre_wrap_execute: a negative error code, or the result, its length and the
    number of matches *)
Definition pcre_wrap_execute (j : job) (subject : list byte) : res (Z + cells byte * nat * nat) :=
  let slen := length subject in
  (* (int) subject_length, and offsets are ints *)
  if (INT_MAX <? Z.of_nat slen)%Z then UB else
  let* r := search_loop (S (S slen)) j subject 0 [] (Z.of_nat slen) in
  match r with
  | inl code => Ok (inl code)
  | inr (matches, newsize) =>
      let newsize := Z.to_nat newsize in
      let* result := aset (repeat None (newsize + 1)) newsize NUL in
      let* ' (result, pos, offset) := matches_loop (subst j) (map Some subject) matches 0 result 0 in
      let* ' (result, pos) := put result pos (map Some subject) offset (Z.of_nat slen - offset) in
      Ok (inr (result, newsize, length matches))
  end.

(** libutils/buffer.c:442-469 BufferSearchAndReplace: the buffer, and whether NULL was returned;
    the subject is the contents of the buffer *)
Section Replace.
  Variable pcre_compile : list byte -> N -> option pcre.
  Definition BufferSearchAndReplace (b : Buffer) (pattern substitute options : list byte) : res (Buffer * bool) :=
    let* j := pcre_wrap_compile pcre_compile pattern substitute options in
    match j with
    | None => Ok (b, false)
    | Some j =>
        let* subject := read_cells (bused b) (bmem b) in
        let* r := pcre_wrap_execute j subject in
        match r with
        | inl _ => Ok (b, false)
        | inr (result, len, _) =>
            let* b := BufferSet b result len in Ok (b, true)
        end
    end.
End Replace.
