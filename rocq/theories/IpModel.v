(** Model of libutils/ip_address.c.  Parsers take the C string BufferData points to. *)
From Verif Require Import Prelude Str Libc BufModel.
Set Implicit Arguments.
Local Open Scope N_scope.

(** conversions to uint8_t and uint16_t *)
Definition u8 (n : N) : N := n mod 2 ^ 8.
Definition u16 (n : N) : N := n mod 2 ^ 16.
(** a[i] = v in an array of numbers *)
Definition nset (a : list N) (i : nat) (v : N) : res (list N) := if (i <? length a)%nat then Ok (upd a i v) else UB.
Definition nget (a : list N) (i : nat) : res N := match nth_error a i with Some v => Ok v | None => UB end.

(** libutils/ip_address.c:32-44 IPV4Address, IPV6Address, IPAddress; a port that was never
    written is indeterminate *)
Record IPV4Address := mkIP4 { octets : list N; port4 : N }.
Record IPV6Address := mkIP6 { sixteen : list N; port6 : option N }.
Inductive IPAddress := IP4 (a : IPV4Address) | IP6 (a : IPV6Address).

Definition isxdigit (c : byte) : bool := isdigit c || in_range 65 70 c || in_range 97 102 c.
(** libutils/ip_address.c:46-47 Char2Dec *)
Definition Char2Dec (o : N) (c : byte) : N := o * 10 + code c - 48.
(** libutils/ip_address.c:55-72 Char2Hex *)
Definition Char2Hex (beginning : N) (c : byte) : N :=
  let number := beginning * 16 in
  if (97 <=? code c) && (code c <=? 102) then number + (code c - 97 + 10)
  else if (65 <=? code c) && (code c <=? 70) then number + (code c - 65 + 10)
  else number + (code c - 48).

(** ** IPv4 *)
(** the local variables of the parser *)
Record st4 := mk4 { oct : N; prt : N; periods : nat; ports : nat; chars : nat; has_digit : bool; state : nat; dst : IPV4Address }.
(** one character; None: return -1 *)
(** libutils/ip_address.c:124-366 IPV4_parser, the switch: the state and whether it changed *)
Definition switch4 (s : st4) (c : byte) : res (option (st4 * bool)) :=
  let is_digit := isdigit c in let is_period := beq c "."%char in let is_port := beq c ":"%char in
  let go v := mk4 v (prt s) (periods s) (ports s) (chars s) true (state s) (dst s) in
  let move n d := mk4 (oct s) (prt s) (periods s) (ports s) (chars s) (has_digit s) n d in
  match state s with
  | 0%nat | 1%nat | 2%nat =>
      if is_digit then Ok (Some (go (Char2Dec (oct s) c), false))
      else if is_period then
        let* o := nset (octets (dst s)) (state s) (u8 (oct s)) in
        Ok (Some (move (S (state s)) (mkIP4 o (port4 (dst s))), true))
      else Ok (Some (move 7%nat (dst s), true))
  | 3%nat =>
      if is_digit then Ok (Some (go (Char2Dec (oct s) c), false))
      else if is_port then
        let* o := nset (octets (dst s)) (state s) (u8 (oct s)) in
        Ok (Some (move 5%nat (mkIP4 o (port4 (dst s))), true))
      else Ok (Some (move 7%nat (dst s), true))
  | 4%nat => Ok (Some (s, false))
  | 5%nat =>
      if is_digit then Ok (Some (mk4 (oct s) (Char2Dec (prt s) c) (periods s) (ports s) (chars s) (has_digit s) (state s) (dst s), false))
      else Ok (Some (move 7%nat (dst s), true))
  | _ => Ok None
  end.
Definition step4 (s : st4) (c : byte) : res (option st4) :=
  let s := mk4 (oct s) (prt s) (if beq c "."%char then S (periods s) else periods s) (if beq c ":"%char then S (ports s) else ports s)
               (chars s) (has_digit s) (state s) (dst s) in
  let* r := switch4 s c in
  match r with
  | None => Ok None
  | Some (s, state_change) =>
      let s := mk4 (oct s) (prt s) (periods s) (ports s) (S (chars s)) (has_digit s) (state s) (dst s) in
      if 255 <? oct s then Ok None
      else if 65535 <? prt s then Ok None
      else if (1 <? periods s)%nat then Ok None
      else if (1 <? ports s)%nat then Ok None
      else if state_change : bool then
        if has_digit s then Ok (Some (mk4 0 0 0%nat 0%nat 0%nat false (state s) (dst s))) else Ok None
      else Ok (Some s)
  end.
Fixpoint loop4 (s : st4) (source : list byte) : res (option st4) :=
  match source with
  | [] => Ok (Some s)
  | c :: source => let* r := step4 s c in match r with Some s => loop4 s source | None => Ok None end
  end.
(** libutils/ip_address.c:124-366 IPV4_parser with an address to fill; None: -1 *)
Definition IPV4_parser (source : list byte) : res (option IPV4Address) :=
  let* r := loop4 (mk4 0 0 0 0 0 false 0 (mkIP4 [0; 0; 0; 0] 0)) source in
  match r with
  | None => Ok None
  | Some s =>
      if (state s =? 0)%nat || (state s =? 1)%nat || (state s =? 2)%nat then Ok None
      else
        let* a := if (state s =? 3)%nat then
            if (chars s =? 0)%nat then Ok None else let* o := nset (octets (dst s)) 3 (u8 (oct s)) in Ok (Some (mkIP4 o (port4 (dst s))))
          else Ok (Some (dst s)) in
        match a with
        | None => Ok None
        | Some a =>
            let* a := if (state s =? 5)%nat then
                if (chars s =? 0)%nat then Ok None else Ok (Some (mkIP4 (octets a) (u16 (prt s))))
              else Ok (Some a) in
            if (state s =? 6)%nat then Ok None else Ok a
        end
  end.

(** ** IPv6 *)
Record st6 := mk6 { six : N; unsorted : list N; up : nat; bracket : bool; prt6 : N; chars6 : nat; upper : bool;
  compress : bool; already : bool; state6 : nat; dst6 : IPV6Address }.
(** the record with a new state and, where they change, other fields *)
Definition to6 (s : st6) (n : nat) : st6 :=
  mk6 (six s) (unsorted s) (up s) (bracket s) (prt6 s) (chars6 s) (upper s) (compress s) (already s) n (dst6 s).
Definition error6 (s : st6) : res (option (st6 * bool)) := Ok (Some (to6 s 11%nat, true)).
Definition hex6 (s : st6) (c : byte) : res (option (st6 * bool)) :=
  if upper s then error6 s
  else Ok (Some (mk6 (Char2Hex (six s) c) (unsorted s) (up s) (bracket s) (prt6 s) (chars6 s) (upper s) (compress s) (already s) (state6 s) (dst6 s), false)).
(** address->sixteen[i] = sixteen *)
Definition store6 (s : st6) (i : nat) : res st6 :=
  let* a := nset (sixteen (dst6 s)) i (u16 (six s)) in
  Ok (mk6 (six s) (unsorted s) (up s) (bracket s) (prt6 s) (chars6 s) (upper s) (compress s) (already s) (state6 s) (mkIP6 a (port6 (dst6 s)))).
(** unsorted_sixteen[unsorted_pointer] = sixteen; ++unsorted_pointer *)
Definition push6 (s : st6) : res st6 :=
  let* u := nset (unsorted s) (up s) (six s) in
  Ok (mk6 (six s) u (S (up s)) (bracket s) (prt6 s) (chars6 s) (upper s) (compress s) (already s) (state6 s) (dst6 s)).
Definition set_bracket (s : st6) (b : bool) : st6 :=
  mk6 (six s) (unsorted s) (up s) b (prt6 s) (chars6 s) (upper s) (compress s) (already s) (state6 s) (dst6 s).
Definition set_compressed (s : st6) : st6 :=
  mk6 (six s) (unsorted s) (up s) (bracket s) (prt6 s) (chars6 s) (upper s) true true (state6 s) (dst6 s).
(** libutils/ip_address.c:424-951 IPV6_parser, the switch *)
Definition switch6 (s : st6) (c : byte) : res (option (st6 * bool)) :=
  let is_start := beq c "["%char in let is_end := beq c "]"%char in let is_colon := beq c ":"%char in
  let is_hexdigit := isxdigit c in let is_digit := isdigit c in
  match state6 s with
  | 0%nat =>
      if is_start then if (chars6 s =? 0)%nat then Ok (Some (set_bracket s true, false)) else error6 s
      else if is_hexdigit then hex6 s c
      else if is_colon then let* s := store6 s 0 in Ok (Some (to6 s 1%nat, true))
      else error6 s
  | 1%nat =>
      if is_hexdigit then hex6 s c
      else if is_colon then
        let* s := if (chars6 s =? 0)%nat then Ok (set_compressed s) else store6 s (state6 s) in
        Ok (Some (to6 s (S (state6 s)), true))
      else error6 s
  | 2%nat | 3%nat | 4%nat | 5%nat | 6%nat =>
      if is_hexdigit then hex6 s c
      else if is_colon then
        if (chars6 s =? 0)%nat then if already s then error6 s else Ok (Some (set_compressed s, false))
        else
          let* s := if compress s then push6 s else store6 s (state6 s) in
          Ok (Some (to6 s (S (state6 s)), true))
      else if is_end then
        if bracket s && compress s then let* s := push6 (set_bracket s false) in Ok (Some (to6 s 8%nat, true))
        else error6 s
      else error6 s
  | 7%nat =>
      if is_hexdigit then hex6 s c
      else if is_end then
        if bracket s then let* s := store6 (set_bracket s false) (state6 s) in Ok (Some (to6 s (S (state6 s)), true))
        else error6 s
      else error6 s
  | 8%nat => if is_colon then Ok (Some (to6 s 9%nat, true)) else error6 s
  | 9%nat =>
      if is_digit then
        Ok (Some (mk6 (six s) (unsorted s) (up s) (bracket s) (Char2Dec (prt6 s) c) (chars6 s) (upper s) (compress s) (already s) (state6 s) (dst6 s), false))
      else error6 s
  | 10%nat => Ok (Some (s, false))
  | _ => Ok None
  end.
Definition step6 (s : st6) (c : byte) : res (option st6) :=
  let up_ := if isxdigit c then if isalpha c then isupper c else upper s else upper s in
  let s := mk6 (six s) (unsorted s) (up s) (bracket s) (prt6 s) (chars6 s) up_ (compress s) (already s) (state6 s) (dst6 s) in
  let* r := switch6 s c in
  match r with
  | None => Ok None
  | Some (s, state_change) =>
      let s := mk6 (six s) (unsorted s) (up s) (bracket s) (prt6 s) (S (chars6 s)) (upper s) (compress s) (already s) (state6 s) (dst6 s) in
      if 65535 <? six s then Ok None
      else if 65535 <? prt6 s then Ok None
      else if state_change : bool then
        Ok (Some (mk6 0 (unsorted s) (up s) (bracket s) 0 0 false (compress s) (already s) (state6 s) (dst6 s)))
      else Ok (Some s)
  end.
Fixpoint loop6 (s : st6) (source : list byte) : res (option st6) :=
  match source with
  | [] => Ok (Some s)
  | c :: source => let* r := step6 s c in match r with Some s => loop6 s source | None => Ok None end
  end.
(** the loop that puts the unsorted groups at the end of the address: [pick i] is the index
    used in unsorted_sixteen for position 7 - i *)
Fixpoint place (k i : nat) (pick : nat -> nat) (u : list N) (a : list N) : res (list N) :=
  match k with
  | O => Ok a
  | S k => let* v := nget u (pick i) in let* a := nset a (7 - i) (u16 v) in place k (S i) pick u a
  end.
Definition init6 : st6 := mk6 0 [0; 0; 0; 0; 0; 0] 0 false 0 0 false false false 0 (mkIP6 [0; 0; 0; 0; 0; 0; 0; 0] (Some 0)).
(** libutils/ip_address.c:424-951 IPV6_parser with an address to fill; None: -1 *)
Definition IPV6_parser (source : list byte) : res (option IPV6Address) :=
  let* r := loop6 init6 source in
  match r with
  | None => Ok None
  | Some s =>
      let st := state6 s in
      if (st =? 0)%nat || (st =? 1)%nat then Ok None
      else if (st =? 2)%nat || (st =? 3)%nat || (st =? 4)%nat || (st =? 5)%nat || (st =? 6)%nat then
        if bracket s then Ok None
        else
          let* s := push6 s in
          if compress s then
            let* a := place (up s) 0 (fun i => (up s - i - 1)%nat) (unsorted s) (sixteen (dst6 s)) in
            Ok (Some (mkIP6 a (port6 (dst6 s))))
          else Ok None
      else if (st =? 7)%nat then
        if (chars6 s =? 0)%nat then Ok None
        else if bracket s then Ok None
        else let* s := store6 s 7 in Ok (Some (dst6 s))
      else if (st =? 8)%nat then
        if compress s then
          let* a := place (up s) 0 (fun i => i) (unsorted s) (sixteen (dst6 s)) in
          Ok (Some (mkIP6 a (port6 (dst6 s))))
        else Ok (Some (dst6 s))
      else if (st =? 9)%nat then
        if (chars6 s =? 0)%nat then Ok None
        else Ok (Some (mkIP6 (sixteen (dst6 s)) (Some (u16 (prt6 s)))))
      else if (st =? 11)%nat then Ok None
      else Ok (Some (dst6 s))
  end.

(** libutils/ip_address.c:953-990 IPAddressNew *)
Definition IPAddressNew (pad : list byte) : res (option IPAddress) :=
  let* a := IPV4_parser pad in
  match a with
  | Some a => Ok (Some (IP4 a))
  | None => let* b := IPV6_parser pad in
            match b with Some b => Ok (Some (IP6 b)) | None => Ok None end
  end.
(** libutils/ip_address.c:1271-1333 IPAddressIsIPAddress with a place for the address; *address is
    left alone when the result is false *)
Definition IPAddressIsIPAddress (pad : list byte) (old : option IPAddress) : res (bool * option IPAddress) :=
  let* a := IPAddressNew pad in
  Ok (match a with Some a => (true, Some a) | None => (false, old) end).

(** ** hexadecimal notation of procfs *)
(** sscanf's %Nx: white space, then at most w characters of an optional sign, an optional
    0x and digits *)
Definition hex_val (c : byte) : N := Char2Hex 0 c.
Definition unhex (s : list byte) : N := fold_left Char2Hex s 0.
Definition scan_x (w : nat) (s : list byte) : option (N * list byte) :=
  let '(_, s) := span isspace s in
  let t := firstn w s in
  let '(neg, sg, t) := match t with
    | c :: t' => if beq c "-"%char then (true, 1%nat, t') else if beq c "+"%char then (false, 1%nat, t') else (false, 0%nat, t)
    | [] => (false, 0%nat, t) end in
  let '(px, t) := match t with
    | c :: d :: t' => if beq c "0"%char && (beq d "x"%char || beq d "X"%char) then (2%nat, t') else (0%nat, t)
    | _ => (0%nat, t) end in
  let '(ds, _) := span isxdigit t in
  match ds with
  | [] => None
  | _ => Some ((if neg : bool then (2 ^ 32 - unhex ds) mod 2 ^ 32 else unhex ds), skipn (sg + px + length ds) s)
  end.
Definition scan_colon (s : list byte) : option (list byte) := match s with c :: r => if beq c ":"%char then Some r else None | [] => None end.
Fixpoint scan_xs (ws : list nat) (s : list byte) : option (list N * list byte) :=
  match ws with
  | [] => Some ([], s)
  | w :: ws => match scan_x w s with
      | Some (v, s) => match scan_xs ws s with Some (vs, s) => Some (v :: vs, s) | None => None end
      | None => None end
  end.
(** libutils/ip_address.c:82-112 IPV4_hex_parser *)
Definition IPV4_hex_parser (source : list byte) : option IPV4Address :=
  let short := if (length source =? 8)%nat then scan_xs [2; 2; 2; 2]%nat source else None in
  match short with
  | Some (v, _) => Some (mkIP4 (map u8 (rev v)) 0)
  | None =>
      if (length source =? 13)%nat then
        match scan_xs [2; 2; 2; 2]%nat source with
        | Some (v, r) => match scan_colon r with
            | Some r => match scan_x 4 r with Some (p, _) => Some (mkIP4 (map u8 (rev v)) (u16 p)) | None => None end
            | None => None end
        | None => None end
      else None
  end.
(** libutils/ip_address.c:374-411 IPV6_hex_parser: the format without a port leaves the port of
    the freshly allocated structure unset *)
Definition IPV6_hex_parser (source : list byte) : option IPV6Address :=
  let ws := repeat 4%nat 8 in
  let short := if (length source =? 32)%nat then scan_xs ws source else None in
  match short with
  | Some (v, _) => Some (mkIP6 (map u16 v) None)
  | None =>
      if (length source =? 37)%nat then
        match scan_xs ws source with
        | Some (v, r) => match scan_colon r with
            | Some r => match scan_x 4 r with Some (p, _) => Some (mkIP6 (map u16 v) (Some (u16 p))) | None => None end
            | None => None end
        | None => None end
      else None
  end.
(** libutils/ip_address.c:992-1029 IPAddressNewHex *)
Definition IPAddressNewHex (pad : list byte) : option IPAddress :=
  match IPV4_hex_parser pad with
  | Some a => Some (IP4 a)
  | None => match IPV6_hex_parser pad with Some b => Some (IP6 b) | None => None end
  end.

(** ** printing *)
Definition hex_char (d : N) : byte := ascii_of_N (if d <? 10 then 48 + d else 87 + d).
Fixpoint uhex_aux (fuel : nat) (n : N) (acc : list byte) : list byte :=
  match fuel with
  | O => acc
  | S f => let acc' := hex_char (n mod 16) :: acc in if n <? 16 then acc' else uhex_aux f (n / 16) acc'
  end.
(** printf("%x") *)
Definition uhex (n : N) : list byte := uhex_aux (S (N.size_nat n)) n [].
(** libutils/ip_address.c:1055-1103 IPAddressGetAddress (BIG_ENDIAN is a nonzero constant of
    endian.h on every glibc system, so the first branch of the #if is the one compiled) *)
Definition IPAddressGetAddress (a : IPAddress) : res Buffer :=
  let text := match a with
    | IP4 a => let o i := udec (nth i (octets a) 0) in o 0%nat ++ lit "." ++ o 1%nat ++ lit "." ++ o 2%nat ++ lit "." ++ o 3%nat
    | IP6 a => let o i := uhex (nth i (sixteen a) 0) in
        o 0%nat ++ lit ":" ++ o 1%nat ++ lit ":" ++ o 2%nat ++ lit ":" ++ o 3%nat ++ lit ":" ++ o 4%nat ++ lit ":" ++ o 5%nat ++ lit ":" ++ o 6%nat ++ lit ":" ++ o 7%nat
    end in
  let* b := BufferNew in let* ' (b, _) := BufferPrintf b text in Ok b.
(** libutils/ip_address.c:1105-1127 IPAddressGetPort *)
Definition IPAddressGetPort (a : IPAddress) : res N :=
  match a with IP4 a => Ok (port4 a) | IP6 a => match port6 a with Some p => Ok p | None => UB end end.

(** ** comparison *)
(** libutils/ip_address.c:1132-1143 IPV4Compare and libutils/ip_address.c:1148-1159 IPV6Compare: the loop
    over [k] elements from [i] on *)
Fixpoint same_loop (k i : nat) (a b : list N) : res bool :=
  match k with
  | O => Ok true
  | S k => let* x := nget a i in let* y := nget b i in if x =? y then same_loop k (S i) a b else Ok false
  end.
(** libutils/ip_address.c:1161-1185 IPAddressIsEqual; NULL arguments are None *)
Definition IPAddressIsEqual (a b : option IPAddress) : res Z :=
  match a, b with
  | Some (IP4 a), Some (IP4 b) => let* r := same_loop 4 0 (octets a) (octets b) in Ok (if r : bool then 1%Z else 0%Z)
  | Some (IP6 a), Some (IP6 b) => let* r := same_loop 8 0 (sixteen a) (sixteen b) in Ok (if r : bool then 1%Z else 0%Z)
  | _, _ => Ok (-1)%Z
  end.
(** libutils/ip_address.c:1190-1206 IPV4CompareLess and libutils/ip_address.c:1211-1227 IPV6CompareLess *)
Fixpoint less_loop (k i : nat) (a b : list N) : res bool :=
  match k with
  | O => Ok false
  | S k => let* x := nget a i in let* y := nget b i in
           if y <? x then Ok false else if x <? y then Ok true else less_loop k (S i) a b
  end.
(** libutils/ip_address.c:1229-1269 IPAddressCompareLess *)
Definition IPAddressCompareLess (a b : option IPAddress) : res bool :=
  match a, b with
  | None, _ | _, None => Ok true
  | Some (IP4 a), Some (IP4 b) => less_loop 4 0 (octets a) (octets b)
  | Some (IP6 a), Some (IP6 b) => less_loop 8 0 (sixteen a) (sixteen b)
  | Some (IP4 _), Some (IP6 _) => Ok true
  | Some (IP6 _), Some (IP4 _) => Ok false
  end.
