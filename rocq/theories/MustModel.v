(** Model of libutils/mustache.c.

    A template is the list of its bytes (no NUL); a pointer into it is an offset, the byte
    at the length is the terminator, reading beyond it is UB.  The output Buffer is its
    contents (what appending does to a Buffer is C21).  Seq hash_stack is a list, the last
    element is the innermost scope; NULL is [None].  JSON elements are values: writing a
    tree with {{%x}} or {{$x}} sorts the members of its objects in place, so the model
    only covers writing trees that are sorted already (anything else is UB here).
    [real_text] is what StringFromDouble gives for a real primitive. *)
From Verif Require Import Prelude Str Libc EditModel NumModel JsonModel.
Set Implicit Arguments.
Local Open Scope char_scope.

(** the members of all objects are in name order *)
Fixpoint json_sorted (j : json) : bool :=
  match j with
  | JPrim _ _ => true
  | JArr cs => forallb json_sorted cs
  | JObj kvs =>
      forallb (fun kv => json_sorted (snd kv)) kvs &&
      (fix asc (l : list (list byte * json)) : bool :=
         match l with
         | (k, _) :: r => match r with (k', _) :: _ => lex_le k k' && asc r | [] => true end
         | [] => true
         end) kvs
  end.

Section R.
Variable real_text : list byte -> list byte.

(** mustache.c:35-48 TagType *)
Inductive tagtype := TVar | TUnescaped | TSerialized | TCompact | TSection | TSectionEnd | TInverted | TComment | TDelim | TErr | TNone.
(** mustache.c:50-57 Mustache; for TErr and TNone begin and end may be NULL *)
Record mustache := mkM { mtype : tagtype; mbegin : option nat; mend : option nat; mcontent : nat; mlen : nat }.
(** mustache.c:59 *)
Definition MAX_DELIM : nat := 10.

Definition rdc (t : list byte) (i : nat) : res byte := if (i <=? length t)%nat then Ok (nth i t NUL) else UB.
(** [len] bytes at [i] *)
Definition txt (t : list byte) (i len : nat) : list byte := firstn len (skipn i t).
Definition sees (t : list byte) (i : nat) (p : list byte) : bool := prefixb p (skipn i t).
Definition find_from (t : list byte) (i : nat) (p : list byte) : option nat := option_map (fun k => i + k) (strstr (skipn i t) p).

(** mustache.c:59-62 IsSpace *)
Definition IsSpace (c : byte) : bool := beq c B_t || beq c " ".

(** mustache.c:64-132 IsTagStandalone: the loop back from the tag, [n] bytes before it *)
Fixpoint scan_back (n : nat) (t : list byte) (line_begin : nat) : option nat :=
  match n with
  | O => Some line_begin
  | S m =>
      let c := nth m t NUL in
      if IsSpace c then scan_back m t m
      else if beq c B_n then Some (S m) else None
  end.
(** mustache.c:64-132 IsTagStandalone: the loop after the tag *)
Fixpoint scan_fwd (fuel : nat) (t : list byte) (cur : nat) : res (option nat) :=
  match fuel with
  | O => Fuel
  | S f =>
      let* c := rdc t cur in
      if IsSpace c then scan_fwd f t (S cur)
      else if beq c B_n then Ok (Some (S cur))
      else if beq c B_r then
        let* d := rdc t (S cur) in
        if beq d B_n then Ok (Some (S (S cur))) else scan_fwd f t (S cur)
      else if beq c NUL then Ok (Some cur)
      else Ok None
  end.
(** mustache.c:64-132 IsTagStandalone; start is the start of the template *)
Definition IsTagStandalone (t : list byte) (tag_start tag_end : nat) : res (option (nat * nat)) :=
  match scan_back tag_start t 0 with
  | None => Ok None
  | Some lb => let* le := scan_fwd (S (length t)) t tag_end in
               Ok (option_map (fun e => (lb, e)) le)
  end.

(** mustache.c:134-148 IsTagTypeRenderable *)
Definition IsTagTypeRenderable (ty : tagtype) : bool :=
  match ty with TComment | TDelim | TErr | TInverted | TSection | TSectionEnd => false | _ => true end.

(** xstrndup of a StringRef into the string at [i]; a null reference is not a string *)
Definition ref_dup (t : list byte) (i : nat) (r : option (nat * nat)) : res (list byte) :=
  match r with Some (o, l) => Ok (txt t (i + o) l) | None => UB end.
(** mustache.c:150-212 LookupVariable: the search from the innermost scope outwards *)
Fixpoint lookup_base (rstack : list (option json)) (key : list byte) : option json :=
  match rstack with
  | [] => None
  | Some (JObj kvs) :: r => match JsonObjectGet kvs key with Some v => Some v | None => lookup_base r key end
  | _ :: r => lookup_base r key
  end.
(** mustache.c:150-212 LookupVariable: the components after the first *)
Fixpoint lookup_comps (n : nat) (i : nat) (t : list byte) (name len : nat) (v : json) : res (option json) :=
  match n with
  | O => Ok (Some v)
  | S m =>
      match v with
      | JObj kvs =>
          let* r := StringGetToken (block (skipn name t)) len i (lit ".") in
          let* comp := ref_dup t name r in
          match JsonObjectGet kvs comp with Some v => lookup_comps m (S i) t name len v | None => Ok None end
      | _ => Ok None
      end
  end.
(** mustache.c:150-212 LookupVariable; the name is the [len] bytes at [name] *)
Definition LookupVariable (stack : list (option json)) (t : list byte) (name len : nat) : res (option json) :=
  massert (0 <? length stack)%nat (
    let* num := StringCountTokens (block (skipn name t)) len (lit ".") in
    let* r := StringGetToken (block (skipn name t)) len 0 (lit ".") in
    let* base := ref_dup t name r in
    let top := if bytes_eqb (lit "-top-") base then List.hd None stack else None in
    match (match lookup_base (rev stack) base with Some v => Some v | None => top end) with
    | None => Ok None
    | Some v => lookup_comps (num - 1) 1 t name len v
    end).

(** mustache.c:214-314 NextTag: blanks around the content *)
Fixpoint skip_blanks (fuel : nat) (t : list byte) (content len : nat) : res (nat * nat) :=
  match fuel with
  | O => Fuel
  | S f =>
      let* c := rdc t content in
      if beq c " " || beq c B_t then
        match len with O => UB | S l => skip_blanks f t (S content) l end
      else Ok (content, len)
  end.
Fixpoint trim_blanks (t : list byte) (content len : nat) : nat :=
  match len with
  | O => O
  | S l => let c := nth (content + l) t NUL in
           if beq c " " || beq c B_t then trim_blanks t content l else len
  end.
(** mustache.c:214-314 NextTag: what the character after the delimiter says: the type, whether it
    belongs to the tag, and the extra closing character *)
Definition sigil (c : byte) : tagtype * bool * option byte :=
  if beq c "#" then (TSection, true, None)
  else if beq c "^" then (TInverted, true, None)
  else if beq c "/" then (TSectionEnd, true, None)
  else if beq c "!" then (TComment, true, None)
  else if beq c "=" then (TDelim, true, Some "=")
  else if beq c "{" then (TUnescaped, true, Some "}")
  else if beq c "&" then (TUnescaped, true, None)
  else if beq c "%" then (TSerialized, true, None)
  else if beq c "$" then (TCompact, true, None)
  else (TVar, false, None).
(** mustache.c:214-314 NextTag *)
Definition NextTag (t : list byte) (input : nat) (ds de : list byte) : res mustache :=
  match find_from t input ds with
  | None => Ok (mkM TNone None None 0 0)
  | Some b =>
      let content := b + length ds in
      let* c := rdc t content in
      let '(ty, step, extra) := sigil c in
      let content := if step : bool then S content else content in
      let finish stop :=
        (let* ' (content', len) := skip_blanks (S (length t)) t content (stop - content) in
         let len := trim_blanks t content' len in
         Ok (content', len)) in
      match extra with
      | Some x =>
          match find_from t content [x] with
          | Some e =>
              if sees t (S e) de then
                let* ' (content', len) := finish e in
                Ok (mkM ty (Some b) (Some (S e + length de)) content' len)
              else Ok (mkM TErr (Some b) None content 0)
          | None => Ok (mkM TErr (Some b) None content 0)
          end
      | None =>
          match find_from t content de with
          | Some e =>
              let* ' (content', len) := finish e in
              Ok (mkM ty (Some b) (Some (e + length de)) content' len)
          | None => Ok (mkM TErr (Some b) None content 0)
          end
      end
  end.

(** mustache.c:316-343 RenderHTMLContent *)
Fixpoint RenderHTMLContent (input : list byte) : list byte :=
  match input with
  | [] => []
  | c :: r =>
      (if beq c "&" then lit "&amp;"
       else if beq c """" then lit "&quot;"
       else if beq c "<" then lit "&lt;"
       else if beq c ">" then lit "&gt;"
       else [c]) ++ RenderHTMLContent r
  end.
(** mustache.c:345-360 RenderContent, always called with html = false *)
Definition RenderContent (out content : list byte) (skip : bool) : list byte := if skip then out else out ++ content.

(** mustache.c:362-417 RenderVariablePrimitive *)
Definition RenderVariablePrimitive (out : list byte) (p : ptype) (v : list byte) (escaped : bool) (key : option (list byte))
  : res (list byte) :=
  let text s := if escaped then RenderHTMLContent s else s in
  match key with
  | Some k => Ok (out ++ text k)
  | None =>
      match p with
      | PString => Ok (out ++ text v)
      | PInt => let* z := JsonPrimitiveGetAsInteger v in Ok (out ++ sdec z)
      | PReal => Ok (out ++ real_text v)
      | PBool => Ok (out ++ (if JsonPrimitiveGetAsBool v then lit "true" else lit "false"))
      | PNull => Ok out
      end
  end.
(** mustache.c:419-434 RenderVariableContainer *)
Definition RenderVariableContainer (out : list byte) (j : json) (compact : bool) : res (list byte) :=
  if json_sorted j then Ok (out ++ fst (if compact then JsonWriteCompact j else JsonWrite j 0)) else UB.
(** mustache.c:436-512 RenderVariable; the output and the result *)
Definition RenderVariable (out : list byte) (t : list byte) (content len : nat) (ty : tagtype) (stack : list (option json))
  (key : option (list byte)) : res (list byte * bool) :=
  let escape := match ty with TVar => true | _ => false end in
  let pretty := match ty with TSerialized => true | _ => false end in
  let compact := match ty with TCompact => true | _ => false end in
  let item_mode := bytes_eqb (txt t content len) (lit ".") in
  let key_mode := bytes_eqb (txt t content len) (lit "@") in
  let* var := (if item_mode || key_mode then Ok (last stack None) else LookupVariable stack t content len) in
  if key_mode && (match key with None => true | Some _ => false end) then Ok (out, false)
  else
    match var with
    | None => Ok (out, true)
    | Some (JPrim p v) =>
        let* out := RenderVariablePrimitive out p v escape (if key_mode then key else None) in Ok (out, true)
    | Some j =>
        if pretty || compact then let* out := RenderVariableContainer out j compact in Ok (out, true)
        else if key_mode then
          let* out := RenderVariablePrimitive out PNull [] escape key in Ok (out, true)
        else if item_mode then Ok (out, false)
        else Abort
    end.

(** mustache.c:514-549 SetDelimiters: whether they were accepted, and the delimiters afterwards.
    Each is in an array of MUSTACHE_MAX_DELIM_SIZE characters. *)
Definition set_delim (t : list byte) (i : nat) (r : option (nat * nat)) (old : list byte) : res (option (list byte)) :=
  match r with
  | None => UB
  | Some (o, l) => if (MAX_DELIM <? l)%nat then Ok None
                   else if (l <? MAX_DELIM)%nat then Ok (Some (txt t (i + o) l)) else UB
  end.
Definition SetDelimiters (t : list byte) (content len : nat) (ds de : list byte) : res (bool * list byte * list byte) :=
  let seps := [" "; B_t] in
  let* num := StringCountTokens (block (skipn content t)) len seps in
  if negb (num =? 2)%nat then Ok (false, ds, de)
  else
    let* r := StringGetToken (block (skipn content t)) len 0 seps in
    let* d := set_delim t content r ds in
    match d with
    | None => Ok (false, ds, de)
    | Some ds =>
        let* r := StringGetToken (block (skipn content t)) len 1 seps in
        let* d := set_delim t content r de in
        match d with None => Ok (false, ds, de) | Some de => Ok (true, ds, de) end
    end.

(** mustache.c:551-596 IsKeyExtensionVar *)
Definition IsKeyExtensionVar (ty : tagtype) (t : list byte) (i : nat) (ds de : list byte) : bool :=
  match ty with
  | TVar => sees t i ds && sees t (i + length ds) (lit "@") && sees t (i + length ds + 1) de
  | TUnescaped =>
      (sees t i ds && sees t (i + length ds) (lit "&@") && sees t (i + length ds + 2) de) ||
      ((length ds =? 2)%nat && (length de =? 2)%nat && bytes_eqb ds (lit "{{") && bytes_eqb de (lit "}}") && sees t i (lit "{{{@}}}"))
  | _ => false
  end.
(** mustache.c:605-667 ShouldIterateObject *)
Fixpoint ShouldIterateObject (fuel : nat) (t : list byte) (input : nat) (ds de : list byte) : res bool :=
  match fuel with
  | O => Fuel
  | S f =>
      let* tag := NextTag t input ds de in
      let go := (match mend tag with Some e => ShouldIterateObject f t e ds de | None => UB end) in
      match mtype tag with
      | TErr | TNone | TSection | TSectionEnd => Ok false
      | TVar | TUnescaped =>
          match mbegin tag with
          | Some b => if IsKeyExtensionVar (mtype tag) t b ds de then Ok true else go
          | None => UB
          end
      | TDelim =>
          let* ' (ok, ds, de) := SetDelimiters t (mcontent tag) (mlen tag) ds de in
          if ok : bool then (match mend tag with Some e => ShouldIterateObject f t e ds de | None => UB end) else Ok false
      | _ => go
      end
  end.

(** what Render changes: the output, the stack of scopes and the delimiters *)
Record rstate := mkR { rout : list byte; rstack : list (option json); rds : list byte; rde : list byte }.
Definition with_out (st : rstate) o := mkR o (rstack st) (rds st) (rde st).
Definition with_stack (st : rstate) s := mkR (rout st) s (rds st) (rde st).
(** the children of a container with the key {{@}} gives *)
Definition keyed (j : json) : list (list byte * json) :=
  match j with
  | JArr cs => map (fun p => (udec (N.of_nat (fst p)), snd p)) (combine (seq 0 (length cs)) cs)
  | JObj kvs => kvs
  | JPrim _ _ => []
  end.

(** mustache.c:669-897 Render: true or false, the state afterwards, and *section_end where it was
    set; [section] tells whether section is not NULL.  Without a next tag the rest of the
    template is appended: tag.begin - input is then computed from NULL, BufferAppend stops
    at the terminator. *)
Fixpoint Render (fuel : nat) (t : list byte) (input : option nat) (key : option (list byte)) (skip section : bool) (st : rstate)
  : res (bool * rstate * option nat) :=
  match fuel with
  | O => Fuel
  | S f =>
      match input with
      | None => Ok (false, st, None)
      | Some i =>
          let* tag := NextTag t i (rds st) (rde st) in
          let* alone := (if IsTagTypeRenderable (mtype tag) then Ok None
                         else match mbegin tag, mend tag with
                              | Some b, Some e => IsTagStandalone t b e
                              | _, _ => Ok None
                              end) in
          let* ' (text, input) :=
            (match alone, mbegin tag with
             | Some (lb, le), _ => if (lb <? i)%nat then UB else Ok (txt t i (lb - i), Some le)
             | None, Some b => Ok (txt t i (b - i), mend tag)
             | None, None => Ok (skipn i t, mend tag)
             end) in
          let st := with_out st (RenderContent (rout st) text skip) in
          let next st := Render f t input key skip section st in
          let sub k skip st := Render f t input k skip true st in
          match mtype tag with
          | TErr => Ok (false, st, None)
          | TDelim =>
              let* ' (ok, ds, de) := SetDelimiters t (mcontent tag) (mlen tag) (rds st) (rde st) in
              let st := mkR (rout st) (rstack st) ds de in
              if ok : bool then next st else Ok (false, st, None)
          | TComment => next st
          | TNone => Ok (true, st, None)
          | TVar | TUnescaped | TSerialized | TCompact =>
              if skip then next st
              else if (0 <? mlen tag)%nat then
                let* ' (out, ok) := RenderVariable (rout st) t (mcontent tag) (mlen tag) (mtype tag) (rstack st) key in
                if ok : bool then next (with_out st out) else Ok (false, with_out st out, None)
              else next (with_out st (rout st ++ rds st ++ rde st))
          | TInverted | TSection =>
              let inverted := match mtype tag with TInverted => true | _ => false end in
              let* var := LookupVariable (rstack st) t (mcontent tag) (mlen tag) in
              let push st v := with_stack st (rstack st ++ [v]) in
              let st := push st var in
              let after st e := Render f t e key skip section st in
              let single skip' :=
                (let* ' (ok, st, e) := sub None skip' st in
                 if ok : bool then after st e else Ok (false, st, None)) in
              let iterate (v : json) :=
                ((fix each (cs : list (list byte * json)) (st : rstate) (e : option nat) : res (bool * rstate * option nat) :=
                    match cs with
                    | [] => after st e
                    | (k, c) :: r =>
                        let* ' (ok, st, e') := sub (Some k) (skip || inverted) (push st (Some c)) in
                        if ok : bool then each r st (match e' with Some x => Some x | None => e end) else Ok (false, st, None)
                    end) (keyed v) st None) in
              let container v := if (0 <? JsonLength v)%nat then iterate v else single (negb inverted) in
              match var with
              | None => single (skip || negb inverted)
              | Some (JPrim PBool v) => single (skip || xorb (negb (JsonPrimitiveGetAsBool v)) inverted)
              | Some (JPrim _ _) => Ok (false, st, None)
              | Some (JObj kvs) =>
                  match input with
                  | None => UB
                  | Some i =>
                      let* it := ShouldIterateObject (S (length t)) t i (rds st) (rde st) in
                      if it : bool then container (JObj kvs) else single (skip || inverted)
                  end
              | Some (JArr cs) => container (JArr cs)
              end
          | TSectionEnd =>
              if negb section then Ok (false, st, None)
              else match rstack st with
                   | [] => UB
                   | _ => Ok (true, with_stack st (removelast (rstack st)), input)
                   end
          end
      end
  end.

(** mustache.c:899-920 MustacheRender: the result and what is in the buffer afterwards *)
Definition MustacheRender (out t : list byte) (hash : json) : res (bool * list byte) :=
  let* ' (ok, st, _) := Render (S (length t)) t (Some 0) None false false (mkR out [Some hash] (lit "{{") (lit "}}")) in
  Ok (ok, rout st).
End R.
