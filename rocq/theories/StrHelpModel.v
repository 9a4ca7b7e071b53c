(** Model of the NULL-tolerant string helpers of libutils/string_lib.c and of the
    lifetime of the arrays String2StringArray makes: strings and arrays of pointers live
    in one heap each; addresses are not reused and an access to freed memory is UB. *)
From Verif Require Import Prelude Str Libc CompatModel ListModel.
Set Implicit Arguments.

(** xstrdup, xstrndup (libutils/alloc.c:91-104): without memory the program ends *)
Definition must (A : Type) (r : res (option A)) : res A :=
  let* o := r in match o with Some x => Ok x | None => Abort end.

(** libutils/string_lib.c:171-179 SafeStringDuplicate *)
Definition SafeStringDuplicate (mem : bool) (str : option (cells byte)) : res (option (cells byte)) :=
  match str with None => Ok None | Some s => let* d := must (strdup mem s) in Ok (Some d) end.

(** libutils/string_lib.c:183-191 SafeStringNDuplicate *)
Definition SafeStringNDuplicate (mem : bool) (str : option (cells byte)) (size : nat) : res (option (cells byte)) :=
  match str with None => Ok None | Some s => let* d := must (strndup mem s size) in Ok (Some d) end.

(** libutils/string_lib.c:195-203 SafeStringLength: strlen converted to int (modulo 2^32) *)
Definition SafeStringLength (str : option (cells byte)) : res Z :=
  match str with
  | None => Ok 0%Z
  | Some s => let* t := mstr s in
              Ok ((Z.of_nat (length t) + 2 ^ 31) mod 2 ^ 32 - 2 ^ 31)%Z
  end.

(** libutils/string_lib.c:905-913 NULLStringToEmpty: the result of NULL is the empty literal *)
Definition NULLStringToEmpty (str : option (cells byte)) : cells byte :=
  match str with None => [Some NUL] | Some s => s end.

(** libutils/string_lib.h:114-117 StringContains *)
Definition StringContains (haystack needle : cells byte) : res bool :=
  let* h := mstr haystack in let* n := mstr needle in
  Ok (match strstr h n with Some _ => true | None => false end).

(** libutils/string_lib.h:119-122 StringContainsChar *)
Definition StringContainsChar (haystack : cells byte) (needle : byte) : res bool :=
  let* h := mstr haystack in
  Ok (match strchr h needle with Some _ => true | None => false end).

(** * Arrays of strings *)
Record sheap := mkSH { strs_ : heap (cells byte); arrs_ : heap (cells (option nat)) }.

(** libutils/string_lib.c:1193-1200: the separators of the string *)
Fixpoint separators (s : list byte) (sep : byte) : nat :=
  match s with [] => 0 | c :: t => (if beq c sep then 1 else 0) + separators t sep end.

(** arr[i] = xcalloc(len + 1, 1); memcpy(arr[i], sp, len), string_lib.c:1221-1222 *)
Definition put_piece (w : sheap) (a i : nat) (sp : list byte) (len : nat) : res sheap :=
  let* piece := acopy (repeat (Some NUL) (len + 1)) 0 (block sp) 0 len in
  let (p, hs) := halloc (strs_ w) piece in
  let* arr := hload (arrs_ w) a in
  let* arr := aset arr i (Some p) in
  let* ha := hstore (arrs_ w) a arr in
  Ok (mkSH hs ha).

(** the loop of string_lib.c:1207-1226 *)
Fixpoint pieces_loop (fuel : nat) (w : sheap) (a i : nat) (sp : list byte) (sep : byte) : res sheap :=
  match fuel with
  | O => Fuel
  | S g =>
      match strchr sp sep with
      | None => put_piece w a i sp (length sp)
      | Some j =>
          let* w := put_piece w a i sp j in
          if j <? length sp then pieces_loop g w a (S i) (skipn (j + 1) sp) sep
          else UB                      (* separator NUL: esp is past the terminator *)
      end
  end.

(** libutils/string_lib.c:1179-1227 String2StringArray, on the heaps (its value is modelled
    in EditModel) *)
Definition String2StringArray_heap (w : sheap) (str : option (cells byte)) (sep : byte)
  : res (sheap * option nat) :=
  match str with
  | None => Ok (w, None)
  | Some m =>
      let* s := mstr m in
      let (a, ha) := halloc (arrs_ w) (repeat (Some None) (separators s sep + 2)) in
      let* w := pieces_loop (S (length s)) (mkSH (strs_ w) ha) a 0 s sep in
      Ok (w, Some a)
  end.

(** the loop of string_lib.c:1238-1242 *)
Fixpoint free_loop (fuel : nat) (w : sheap) (a i : nat) : res sheap :=
  match fuel with
  | O => Fuel
  | S g =>
      let* arr := hload (arrs_ w) a in
      let* x := aget arr i in
      match x with
      | None => Ok w
      | Some p =>
          let* hs := hfree (strs_ w) p in
          let* arr := aset arr i None in
          let* ha := hstore (arrs_ w) a arr in
          free_loop g (mkSH hs ha) a (S i)
      end
  end.

(** libutils/string_lib.c:1229-1245 FreeStringArray; the fuel is the length of the array, past
    which a read is UB anyway *)
Definition FreeStringArray (w : sheap) (strs : option nat) : res sheap :=
  match strs with
  | None => Ok w
  | Some a =>
      let* arr := hload (arrs_ w) a in
      let* w := free_loop (S (length arr)) w a 0 in
      let* ha := hfree (arrs_ w) a in
      Ok (mkSH (strs_ w) ha)
  end.
