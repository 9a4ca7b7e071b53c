(** What a buffer is: a mode and a byte string, and the effect of each call on them. *)
From Verif Require Import Prelude Str Libc BufModel.
Set Implicit Arguments.

(** [aterm]: the byte string is known to be followed by a NUL *)
Record abuf := mkA { amode : bmode; abytes : list byte; aterm : bool }.

Inductive bop :=
| OSet (bs : list byte) | OAppend (bs : list byte) | OString (s : list byte) | OChar (c : byte)
| OPrintf (text : list byte) | OAppendF (text : list byte)
| OClear | OTrim (max : nat) | OMode (m : bmode) | OCanonify | ORewrite (p : byte -> bool) (invert : bool).

(** bytes given to a buffer in C string mode end at the first NUL *)
Definition seen (m : bmode) (bs : list byte) : list byte :=
  match m with CSTRING => upto_nul bs | BYTEARRAY => bs end.
Definition is_cstring (m : bmode) : bool := match m with CSTRING => true | BYTEARRAY => false end.

(** letters and digits are kept, other bytes become underscores *)
Definition canon_byte (c : byte) : byte :=
  let n := code c in
  if ((48 <=? n) && (n <=? 57) || (65 <=? n) && (n <=? 90) || (97 <=? n) && (n <=? 122))%N then c else "_"%char.

Definition step (st : abuf) (o : bop) : abuf :=
  let m := amode st in let x := abytes st in let t := aterm st in
  match o with
  | OSet bs => mkA m (seen m bs) (is_cstring m || (length bs =? 0))
  | OAppend bs => mkA m (x ++ seen m bs) (if length bs =? 0 then t else is_cstring m)
  | OString s => mkA m (x ++ s) true
  | OChar c => mkA m (x ++ [c]) (is_cstring m)
  | OPrintf s => mkA m s true
  | OAppendF s => mkA m (x ++ s) true
  | OClear => mkA m [] true
  | OTrim n => mkA m (firstn n x) (if n <? length x then true else t)
  | OMode BYTEARRAY => mkA BYTEARRAY x t
  | OMode CSTRING => mkA CSTRING (upto_nul x) (existsb (beq NUL) x || t)
  | OCanonify => mkA m (map canon_byte x) t
  | ORewrite p inv => let y := filter (fun c => if inv then negb (p c) else p c) x in
                      mkA m y (is_cstring m || (length y =? 0))
  end.

(** what a caller must respect: strings are strings, no NUL character is appended in C
    string mode; canonifying needs a C string followed by its NUL; rewriting needs a
    text without NUL *)
Definition legal (st : abuf) (o : bop) : Prop :=
  match o with
  | OString s | OPrintf s | OAppendF s => is_cstr s
  | OChar c => amode st = CSTRING -> c <> NUL
  | OCanonify => aterm st = true /\ is_cstr (abytes st)
  | ORewrite _ _ => is_cstr (abytes st)
  | _ => True
  end.
Fixpoint legal_history (st : abuf) (os : list bop) : Prop :=
  match os with [] => True | o :: t => legal st o /\ legal_history (step st o) t end.

(** bytes an operation can add *)
Definition weight (o : bop) : nat :=
  match o with
  | OSet s | OAppend s | OString s | OPrintf s | OAppendF s => length s
  | OChar _ => 1
  | _ => 0
  end.
Definition total (os : list bop) : nat := fold_right (fun o n => weight o + n) 0 os.

(** the concrete buffer is in the state [st]: size, mode and contents agree, there is
    room for at least one more byte, and the NUL is there when promised *)
Definition represents (b : Buffer) (st : abuf) : Prop :=
  BufferMode b = amode st /\ BufferSize b = length (abytes st) /\
  length (bmem b) = BufferCapacity b /\ BufferSize b < BufferCapacity b /\
  firstn (BufferSize b) (bmem b) = map Some (abytes st) /\
  (aterm st = true -> nth_error (bmem b) (BufferSize b) = Some (Some NUL)).

(** calling the functions *)
Definition call (b : Buffer) (o : bop) : res Buffer :=
  match o with
  | OSet bs => BufferSet b (map Some bs) (length bs)
  | OAppend bs => BufferAppend b (map Some bs) (length bs)
  | OString s => BufferAppendString b s
  | OChar c => BufferAppendChar b c
  | OPrintf s => let* ' (b, _) := BufferPrintf b s in Ok b
  | OAppendF s => BufferAppendF b s
  | OClear => BufferClear b
  | OTrim n => BufferTrimToMaxLength b n
  | OMode m => BufferSetMode b m
  | OCanonify => BufferCanonify b
  | ORewrite p inv => BufferRewrite b p inv
  end.
Definition calls (b : res Buffer) (os : list bop) : res Buffer := fold_left (fun r o => let* b := r in call b o) os b.
