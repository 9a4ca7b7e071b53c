(** Model of libcompat/inet_ntop.c and libcompat/inet_pton.c.

    Addresses are arrays of bytes as numbers; destination and temporary buffers are arrays of
    cells, text given to the functions is the bytes before its NUL.  inet_pton6 is modelled
    as it stands in the file, although INET6 is nowhere defined, so that inet_pton does not
    offer it. *)
From Verif Require Import Prelude Str Libc IpModel.
Set Implicit Arguments.
Local Open Scope N_scope.

Inductive family := AF_INET | AF_INET6 | AF_other.
Inductive error := EAFNOSUPPORT | ENOSPC.

(** snprintf(m + off, size, ...) of [text] *)
Definition msnprintf (m : cells byte) (off size : nat) (text : list byte) : res (cells byte) :=
  match size with
  | O => Ok m
  | S k => let t := firstn k text in acopy m off (block t) 0 (S (length t))
  end.

(** ** inet_ntop *)
(** libcompat/inet_ntop.c:77-92 inet_ntop4; the destination is [m + off]; None: NULL, ENOSPC *)
Definition inet_ntop4 (src : list N) (m : cells byte) (off size : nat) : res (option (cells byte)) :=
  let* a := nget src 0 in let* b := nget src 1 in let* c := nget src 2 in let* d := nget src 3 in
  let text := udec a ++ lit "." ++ udec b ++ lit "." ++ udec c ++ lit "." ++ udec d in
  let* tmp := msnprintf (repeat None 16) 0 16 text in
  let len := length text in
  if (size <=? len)%nat then Ok None
  else let* m := acopy m off tmp 0 (len + 1) in Ok (Some m).

(** libcompat/inet_ntop.c:121-123 inet_ntop6, the loop filling words[]: [k] bytes to go *)
Fixpoint words_loop (k i : nat) (src words : list N) : res (list N) :=
  match k with
  | O => Ok words
  | S k =>
      let* w := nget words (i / 2) in let* b := nget src i in
      let* words := nset words (i / 2) (N.lor w (N.shiftl b (N.shiftl (1 - N.of_nat (i mod 2)) 3))) in
      words_loop k (S i) src words
  end.
(** a run of zeros: base and len; None: base is -1 *)
Definition run := option (nat * nat).
(** if (best.base == -1 || cur.len > best.len) best = cur *)
Definition better (best : run) (cur : nat * nat) : run :=
  match best with None => Some cur | Some (b, l) => if (l <? snd cur)%nat then Some cur else best end.
(** libcompat/inet_ntop.c:124-139 inet_ntop6, the loop looking for runs of zeros *)
Fixpoint runs_loop (i : nat) (words : list N) (best cur : run) : run * run :=
  match words with
  | [] => (best, cur)
  | w :: words =>
      if w =? 0 then
        runs_loop (S i) words best (match cur with None => Some (i, 1%nat) | Some (b, l) => Some (b, S l) end)
      else match cur with
           | Some c => runs_loop (S i) words (better best c) None
           | None => runs_loop (S i) words best None
           end
  end.
(** libcompat/inet_ntop.c:140-145 inet_ntop6, the run to be replaced *)
Definition best_run (words : list N) : run :=
  let (best, cur) := runs_loop 0 words None None in
  let best := match cur with Some c => better best c | None => best end in
  match best with Some (b, l) => if (l <? 2)%nat then None else best | None => None end.

(** libcompat/inet_ntop.c:150-173 inet_ntop6, the loop writing tmp, [k] words to go;
    None: inet_ntop4 returned NULL *)
Fixpoint format_loop (k i : nat) (src words : list N) (best : run) (tmp : cells byte) (tp : nat) : res (option (cells byte * nat)) :=
  match k with
  | O => Ok (Some (tmp, tp))
  | S k =>
      if match best with Some (b, l) => (b <=? i)%nat && (i <? b + l)%nat | None => false end then
        let* ' (tmp, tp) := if match best with Some (b, _) => (i =? b)%nat | None => false end
                            then let* tmp := aset tmp tp ":"%char in Ok (tmp, S tp) else Ok (tmp, tp) in
        format_loop k (S i) src words best tmp tp
      else
        let* ' (tmp, tp) := if negb (i =? 0)%nat then let* tmp := aset tmp tp ":"%char in Ok (tmp, S tp) else Ok (tmp, tp) in
        let* w5 := nget words 5 in
        if (i =? 6)%nat && match best with Some (b, l) => (b =? 0)%nat && ((l =? 6)%nat || (l =? 5)%nat && (w5 =? 65535)) | None => false end then
          let* r := inet_ntop4 (skipn 12 src) tmp tp (46 - tp) in
          match r with
          | None => Ok None
          | Some tmp => let* s := mstr (skipn tp tmp) in Ok (Some (tmp, (tp + length s)%nat))
          end
        else
          let* w := nget words i in
          let* tmp := msnprintf tmp tp 5 (uhex w) in
          massert (length (uhex w) <? 5)%nat (format_loop k (S i) src words best tmp (tp + length (uhex w)))
  end.
(** libcompat/inet_ntop.c:101-189 inet_ntop6; None: NULL, ENOSPC *)
Definition inet_ntop6 (src : list N) (m : cells byte) (size : nat) : res (option (cells byte)) :=
  let* words := words_loop 16 0 src (repeat 0 8) in
  let best := best_run words in
  let* r := format_loop 8 0 src words best (repeat None 46) 0 in
  match r with
  | None => Ok None
  | Some (tmp, tp) =>
      let* ' (tmp, tp) := if match best with Some (b, l) => (b + l =? 8)%nat | None => false end
                          then let* tmp := aset tmp tp ":"%char in Ok (tmp, S tp) else Ok (tmp, tp) in
      let* tmp := aset tmp tp NUL in
      let tp := S tp in
      if (size <? tp)%nat then Ok None
      else let* m := acopy m 0 tmp 0 tp in Ok (Some m)
  end.
(** libcompat/inet_ntop.c:49-64 inet_ntop: the buffer, and NULL with errno or dst *)
Definition inet_ntop (af : family) (src : list N) (m : cells byte) (size : nat) : res (cells byte * option error) :=
  let result r := Ok (match r with Some m => (m, None) | None => (m, Some ENOSPC) end) in
  match af with
  | AF_INET => let* r := inet_ntop4 src m 0 size in result r
  | AF_INET6 => let* r := inet_ntop6 src m size in result r
  | AF_other => Ok (m, Some EAFNOSUPPORT)
  end.

(** ** inet_pton *)
Definition digits : list byte := lit "0123456789".
(** the local variables of inet_pton4 *)
Record p4 := mkP4 { q_tmp : list N; q_tp : nat; q_saw : bool; q_octets : nat }.
(** libcompat/inet_pton.c:91-112 inet_pton4, the loop; None: return 0 *)
Fixpoint pton4_loop (s : p4) (src : list byte) : res (option p4) :=
  match src with
  | [] => Ok (Some s)
  | ch :: src =>
      match strchr digits ch with
      | Some pch =>
          let* v := nget (q_tmp s) (q_tp s) in
          let new := v * 10 + N.of_nat pch in
          if 255 <? new then Ok None
          else
            let* tmp := nset (q_tmp s) (q_tp s) new in
            if negb (q_saw s) then
              if (4 <? S (q_octets s))%nat then Ok None
              else pton4_loop (mkP4 tmp (q_tp s) true (S (q_octets s))) src
            else pton4_loop (mkP4 tmp (q_tp s) true (q_octets s)) src
      | None =>
          if beq ch "."%char && q_saw s then
            if (q_octets s =? 4)%nat then Ok None
            else
              let* tmp := nset (q_tmp s) (S (q_tp s)) 0 in
              pton4_loop (mkP4 tmp (S (q_tp s)) false (q_octets s)) src
          else Ok None
      end
  end.
(** libcompat/inet_pton.c:79-117 inet_pton4; the destination is [m + off]; None: return 0.
    Simplification: the bytes of tmp behind the first are 0 at first (they are written before they are read). *)
Definition inet_pton4 (src : list byte) (m : list N) (off : nat) : res (option (list N)) :=
  let* r := pton4_loop (mkP4 [0; 0; 0; 0] 0 false 0) src in
  match r with
  | None => Ok None
  | Some s =>
      if (q_octets s <? 4)%nat then Ok None
      else let* m := acopy m off (q_tmp s) 0 4 in Ok (Some m)
  end.

Definition xdigits_l : list byte := lit "0123456789abcdef".
Definition xdigits_u : list byte := lit "0123456789ABCDEF".
(** the local variables of inet_pton6 *)
Record p6 := mkP6 { x_tmp : list N; x_tp : nat; x_colonp : option nat; x_curtok : list byte; x_saw : bool; x_val : N }.
(** *tp++ = (unsigned char) (val >> 8) & 0xff; *tp++ = (unsigned char) val & 0xff; *)
Definition put_word (tmp : list N) (tp : nat) (val : N) : res (list N) :=
  let* tmp := nset tmp tp (N.land (u8 (N.shiftr val 8)) 255) in
  nset tmp (S tp) (N.land (u8 val) 255).
(** libcompat/inet_pton.c:155-191 inet_pton6, the loop; None: return 0 *)
Fixpoint pton6_loop (s : p6) (src : list byte) : res (option p6) :=
  match src with
  | [] => Ok (Some s)
  | ch :: src =>
      match match strchr xdigits_l ch with Some p => Some p | None => strchr xdigits_u ch end with
      | Some pch =>
          let val := N.lor (N.shiftl (x_val s) 4) (N.of_nat pch) in
          if 65535 <? val then Ok None
          else pton6_loop (mkP6 (x_tmp s) (x_tp s) (x_colonp s) (x_curtok s) true val) src
      | None =>
          if beq ch ":"%char then
            if negb (x_saw s) then
              match x_colonp s with
              | Some _ => Ok None
              | None => pton6_loop (mkP6 (x_tmp s) (x_tp s) (Some (x_tp s)) src (x_saw s) (x_val s)) src
              end
            else if (16 <? x_tp s + 2)%nat then Ok None
            else
              let* tmp := put_word (x_tmp s) (x_tp s) (x_val s) in
              pton6_loop (mkP6 tmp (x_tp s + 2) (x_colonp s) src false 0) src
          else if beq ch "."%char && (x_tp s + 4 <=? 16)%nat then
            let* r := inet_pton4 (x_curtok s) (x_tmp s) (x_tp s) in
            match r with
            | Some tmp => Ok (Some (mkP6 tmp (x_tp s + 4) (x_colonp s) (x_curtok s) false (x_val s)))
            | None => Ok None
            end
          else Ok None
      end
  end.
(** libcompat/inet_pton.c:203-209 inet_pton6, the shift by hand: [k] bytes to go, i = n - k + 1 *)
Fixpoint shift_loop (k i : nat) (tmp : list N) (colonp n : nat) : res (list N) :=
  match k with
  | O => Ok tmp
  | S k =>
      let* v := nget tmp (colonp + n - i) in
      let* tmp := nset tmp (16 - i) v in
      let* tmp := nset tmp (colonp + n - i) 0 in
      shift_loop k (S i) tmp colonp n
  end.
(** libcompat/inet_pton.c:133-216 inet_pton6; None: return 0 *)
Definition inet_pton6 (src : list byte) (m : list N) : res (option (list N)) :=
  let first src :=
    let* r := pton6_loop (mkP6 (repeat 0 16) 0 None src false 0) src in
    match r with
    | None => Ok None
    | Some s =>
        let* r :=
          if x_saw s then
            if (16 <? x_tp s + 2)%nat then Ok None
            else let* tmp := put_word (x_tmp s) (x_tp s) (x_val s) in Ok (Some (tmp, (x_tp s + 2)%nat))
          else Ok (Some (x_tmp s, x_tp s)) in
        match r with
        | None => Ok None
        | Some (tmp, tp) =>
            let* ' (tmp, tp) :=
              match x_colonp s with
              | Some colonp => let n := (tp - colonp)%nat in let* tmp := shift_loop n 1 tmp colonp n in Ok (tmp, 16%nat)
              | None => Ok (tmp, tp)
              end in
            if negb (tp =? 16)%nat then Ok None
            else let* m := acopy m 0 tmp 0 16 in Ok (Some m)
        end
    end in
  match src with
  | c :: rest =>
      if beq c ":"%char then
        match rest with
        | c' :: _ => if beq c' ":"%char then first rest else Ok None
        | [] => Ok None
        end
      else first src
  | [] => first src
  end.
(** libcompat/inet_pton.c:50-67 inet_pton: the result and what becomes of the destination *)
Definition inet_pton (af : family) (src : list byte) (m : list N) : res (list N * (error + bool)) :=
  match af with
  | AF_INET =>
      let* r := inet_pton4 src m 0 in
      Ok (match r with Some m => (m, inr true) | None => (m, inr false) end)
  | _ => Ok (m, inl EAFNOSUPPORT)
  end.
