(** Textual forms of IPv4 and IPv6 addresses (RFC 4291, 2.2), and the forms libcompat's
    inet_ntop produces and inet_pton accepts.  Uses the numerals of IpSpec.v. *)
From Verif Require Import Prelude Str Libc IpSpec.
Set Implicit Arguments.
Local Open Scope N_scope.

(** four decimal numbers up to 255 with dots between them; leading zeros are allowed *)
Definition quad (s : list byte) (o : list N) : Prop :=
  exists a b c d va vb vc vd, numeral 255 a va /\ numeral 255 b vb /\ numeral 255 c vc /\ numeral 255 d vd /\
    s = a ++ lit "." ++ b ++ lit "." ++ c ++ lit "." ++ d /\ o = [va; vb; vc; vd].
(** ... without leading zeros *)
Definition short (ds : list byte) : Prop := hd NUL ds = "0"%char -> ds = lit "0".
Definition short_quad (s : list byte) (o : list N) : Prop :=
  exists a b c d va vb vc vd, numeral 255 a va /\ numeral 255 b vb /\ numeral 255 c vc /\ numeral 255 d vd /\
    short a /\ short b /\ short c /\ short d /\ s = a ++ lit "." ++ b ++ lit "." ++ c ++ lit "." ++ d /\ o = [va; vb; vc; vd].

(** one to four hexadecimal digits of either case *)
Definition hex_group (g : list byte) (v : N) : Prop := exists w, (1 <= w <= 4)%nat /\ hexnum w g v.
(** ... with any number of leading zeros *)
Definition long_group (g : list byte) (v : N) : Prop := exists w, (1 <= w)%nat /\ hexnum w g v /\ v <= 65535.

(** parts of an address and the 16 bit numbers they denote; the last may be a dotted quad *)
Inductive words (G : list byte -> N -> Prop) : list (list byte) -> list N -> Prop :=
| words_nil : words G [] []
| words_group g v gs vs : G g v -> words G gs vs -> words G (g :: gs) (v :: vs)
| words_quad q a b c d : quad q [a; b; c; d] -> words G [q] [256 * a + b; 256 * c + d].

(** the text [s] denotes the address [vs] *)
Definition text6 (s : list byte) (vs : list N) : Prop :=
  (exists gs, words hex_group gs vs /\ length vs = 8%nat /\ s = colons gs) \/
  (exists pre pvs post qvs, Forall2 hex_group pre pvs /\ words hex_group post qvs /\ (length pvs + length qvs <= 7)%nat /\
     s = compressed pre post /\ vs = expanded pvs qvs).
(** the 16 bytes of an address, most significant first *)
Definition bytes_of (vs : list N) : list N := flat_map (fun v => [v / 256; v mod 256]) vs.

(** what inet_pton6 makes of text: also groups with more leading zeros, a colon at the end behind a
    group, and [::] standing for nothing (then the groups behind it count as zeros) *)
Definition ending (gs : list (list byte)) (t : list byte) : Prop :=
  t = [] \/ t = lit ":" /\ exists g v, last gs [] = g /\ long_group g v.
Definition lenient6 (s : list byte) (vs : list N) : Prop :=
  (exists gs t, words long_group gs vs /\ length vs = 8%nat /\ ending gs t /\ s = colons gs ++ t) \/
  (exists pre pvs post qvs t, Forall2 long_group pre pvs /\ words long_group post qvs /\ (length pvs + length qvs <= 8)%nat /\
     ending post t /\ s = compressed pre post ++ t /\
     vs = if (length pvs + length qvs =? 8)%nat then pvs ++ repeat 0 (length qvs) else expanded pvs qvs).

(** the words [b], ..., [b + l - 1] are all zero *)
Definition zeros_at (vs : list N) (b l : nat) : Prop := (b + l <= length vs)%nat /\ forall i, (b <= i < b + l)%nat -> nth i vs 1 = 0.
(** the first of the longest runs of at least two zero words *)
Definition first_longest (vs : list N) (b l : nat) : Prop :=
  (2 <= l)%nat /\ zeros_at vs b l /\ forall b' l', zeros_at vs b' l' -> (l' < l \/ l' = l /\ b <= b')%nat.
(** lower case hexadecimal without leading zeros *)
Definition short_group (g : list byte) (v : N) : Prop := group g v /\ short g.
(** the address as inet_ntop writes it: the first of the longest runs of zero words is [::]; the last
    two words are a dotted quad after six zeros, and after five zeros and ffff *)
Inductive canonical6 (vs : list N) : list byte -> Prop :=
| canonical_all gs : (forall b, ~ zeros_at vs b 2) -> Forall2 short_group gs vs -> canonical6 vs (colons gs)
| canonical_run b l pre post : first_longest vs b l ->
    ~ (b = 0 /\ l = 6)%nat -> ~ (b = 0%nat /\ l = 5%nat /\ nth 5 vs 0 = 65535) ->
    Forall2 short_group pre (firstn b vs) -> Forall2 short_group post (skipn (b + l) vs) ->
    canonical6 vs (compressed pre post)
| canonical_compatible q x y : first_longest vs 0 6 -> skipn 6 vs = [x; y] ->
    short_quad q [x / 256; x mod 256; y / 256; y mod 256] -> canonical6 vs (lit "::" ++ q)
| canonical_mapped q x y : first_longest vs 0 5 -> skipn 5 vs = [65535; x; y] ->
    short_quad q [x / 256; x mod 256; y / 256; y mod 256] -> canonical6 vs (lit "::ffff:" ++ q).
