(** Textual forms of IP addresses. *)
From Verif Require Import Prelude Str Libc IpModel.
Set Implicit Arguments.
Local Open Scope N_scope.

(** [ds] is a decimal numeral denoting [v], at most [max]; leading zeros are allowed *)
Definition numeral (max : N) (ds : list byte) (v : N) : Prop :=
  ds <> [] /\ (forall c, In c ds -> isdigit c = true) /\ v = undec ds /\ v <= max.

(** xxx.xxx.xxx.xxx[:ppppp] *)
Definition dotted_quad (s : list byte) (o : list N) (port : N) : Prop :=
  exists a b c d va vb vc vd tail,
    numeral 255 a va /\ numeral 255 b vb /\ numeral 255 c vc /\ numeral 255 d vd /\
    s = a ++ "."%char :: b ++ "."%char :: c ++ "."%char :: d ++ tail /\ o = [va; vb; vc; vd] /\
    (tail = [] /\ port = 0 \/ exists p, tail = ":"%char :: p /\ numeral 65535 p port).

(** at most three octets with their periods, then a numeral and one more character that
    cannot follow it *)
Definition cut_short (s : list byte) (o : list N) : Prop :=
  exists l ds v x, (length l <= 3)%nat /\ Forall (fun p => numeral 255 (fst p) (snd p)) l /\ numeral 255 ds v /\
    s = flat_map (fun p => fst p ++ ["."%char]) l ++ ds ++ [x] /\
    isdigit x = false /\ x <> (if (length l <? 3)%nat then "."%char else ":"%char) /\
    o = map snd l ++ repeat 0 (4 - length l).

(** lower case hexadecimal numerals *)
Definition hexdigits : list byte := lit "0123456789abcdef".
Definition group (g : list byte) (v : N) : Prop :=
  exists ds : list nat, ds <> [] /\ Forall (fun d => (d < 16)%nat) ds /\ g = map (fun d => nth d hexdigits NUL) ds /\
    v = fold_left (fun a d => 16 * a + N.of_nat d) ds 0 /\ v <= 65535.
Definition groups (gs : list (list byte)) (vs : list N) : Prop := Forall2 group gs vs.

(** groups between colons, and the two textual forms *)
Definition colons (gs : list (list byte)) : list byte := join [":"%char] gs.
Definition compressed (before after : list (list byte)) : list byte := colons before ++ lit "::" ++ colons after.
(** the numbers a compressed text denotes *)
Definition expanded (before after : list N) : list N := before ++ repeat 0 (8 - length before - length after) ++ after.
(** the shapes of compressed text that keep within what the parser can follow *)
Definition manageable (k m : nat) : Prop := ((k <= 1)%nat /\ (m <= 5)%nat) \/ ((2 <= k <= 6)%nat /\ (k + m <= 7)%nat).

(** [g] is [w] hexadecimal digits of either case denoting [v] *)
Definition upper_hexdigits : list byte := lit "0123456789ABCDEF".
Definition hexnum (w : nat) (g : list byte) (v : N) : Prop :=
  length g = w /\ exists ds : list nat, Forall2 (fun c d => (d < 16)%nat /\ (c = nth d hexdigits NUL \/ c = nth d upper_hexdigits NUL)) g ds /\
    v = fold_left (fun a d => 16 * a + N.of_nat d) ds 0.
