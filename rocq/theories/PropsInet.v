(** C103, C104: inet_ntop and inet_pton of libcompat. *)
From Verif Require Import Prelude PreludeFacts Str StrFacts Libc LibcFacts MemSpec IpModel IpSpec InetModel InetSpec InetProofs InetProofs2 InetProofs5 InetProofs6 InetProofs7 InetProofs8.
Set Implicit Arguments.
Local Open Scope N_scope.

(** ** C103: IPv4 *)
(** inet_pton(AF_INET): text is accepted exactly if it is four numbers up to 255 between dots; then the
    four bytes are stored and nothing behind them, and otherwise nothing is stored *)
Theorem C103_pton src m : is_cstr src -> (4 <= length m)%nat ->
  (exists o, quad src o /\ inet_pton AF_INET src m = Ok (o ++ skipn 4 m, inr true)) \/
  (forall o, ~ quad src o) /\ inet_pton AF_INET src m = Ok (m, inr false).
Proof.
  intros CS L. unfold inet_pton. destruct (@pton4_exact src m 0 CS L) as [(o & Q & E)|[N E]]; rewrite E; cbn [bind]; [left|right; auto]. exists o. split; [exact Q|reflexivity].
Qed.
(** the text determines the address, and its bytes are bytes *)
Theorem C103_meaning src o o' : quad src o -> quad src o' -> o = o' /\ length o = 4%nat /\ Forall (fun v => v <= 255) o.
Proof. intros Q Q'. split; [now apply (quad_unique Q)|now apply (@quad_small src)]. Qed.

(** inet_ntop(AF_INET): the four bytes in decimal without leading zeros, with the terminating NUL, if they
    fit; otherwise ENOSPC and nothing stored.  Nothing behind the text changes, and 16 bytes suffice. *)
Theorem C103_ntop a b c d more m size : a <= 255 -> b <= 255 -> c <= 255 -> d <= 255 -> (size <= length m)%nat ->
  exists s, short_quad s [a; b; c; d] /\ is_cstr s /\ (length s <= 15)%nat /\
    inet_ntop AF_INET (a :: b :: c :: d :: more) m size =
    Ok (if (length s <? size)%nat then (map Some s ++ Some NUL :: skipn (S (length s)) m, None) else (m, Some ENOSPC)).
Proof.
  intros A B C D L. destruct (dots_quad A B C D) as (Q & LT & CS). exists (dots a b c d). split; [exact Q|]. split; [exact CS|]. split; [exact LT|].
  unfold inet_ntop. pose proof (@ntop4_spec _ _ _ _ more [] m 0 size A B C D eq_refl L) as E. cbn [map app] in E. rewrite E. cbn [bind].
  destruct (Nat.leb_spec size (length (dots a b c d))); destruct (Nat.ltb_spec (length (dots a b c d)) size); try lia; reflexivity.
Qed.
(** reading what was written gives the address back *)
Theorem C103_round_trip a b c d more m size m' dst : a <= 255 -> b <= 255 -> c <= 255 -> d <= 255 -> (size <= length m)%nat ->
  inet_ntop AF_INET (a :: b :: c :: d :: more) m size = Ok (m', None) -> (4 <= length dst)%nat ->
  exists s, mstr m' = Ok s /\ inet_pton AF_INET s dst = Ok (a :: b :: c :: d :: skipn 4 dst, inr true).
Proof.
  intros A B C D L E LD. destruct (@C103_ntop a b c d more m size A B C D L) as (s & Q & CS & LT & E'). rewrite E' in E. destruct (length s <? size)%nat; [|discriminate E]. injection E as <-.
  exists s. split; [apply mstr_holds; split; [exact CS|eexists; reflexivity]|].
  destruct (@C103_pton s dst CS LD) as [(o & Q' & R)|[N _]]; [|destruct (N _ (short_quad_quad Q))]. rewrite (quad_unique Q' (short_quad_quad Q)) in R. exact R.
Qed.
(** other families are refused *)
Theorem C103_other src m text dst size : inet_ntop AF_other src m size = Ok (m, Some EAFNOSUPPORT) /\ inet_pton AF_other text dst = Ok (dst, inl EAFNOSUPPORT).
Proof. split; reflexivity. Qed.
(** POSIX has numbers of one to three digits: numbers with more leading zeros are accepted too *)
Theorem C103_three_digits_refuted : exists src, inet_pton AF_INET src [9; 9; 9; 9; 9] = Ok ([127; 0; 0; 1; 9], inr true) /\ src = lit "0000127.0.00000.1".
Proof. eexists. split; [|reflexivity]. reflexivity. Qed.
(** inet_ntop writes IPv6 addresses, inet_pton refuses all of them *)
Theorem C103_ipv6_refuted : (forall text dst, inet_pton AF_INET6 text dst = Ok (dst, inl EAFNOSUPPORT)) /\
  exists m, inet_ntop AF_INET6 (repeat 0 15 ++ [1]) (repeat None 46) 46 = Ok (m, None) /\ mstr m = Ok (lit "::1").
Proof. split; [reflexivity|]. eexists. split; vm_compute; reflexivity. Qed.

Example C103_case : exists m, inet_ntop AF_INET [192; 168; 0; 255] (repeat None 16) 14 = Ok (m, None) /\ mstr m = Ok (lit "192.168.0.255") /\
  inet_ntop AF_INET [192; 168; 0; 255] (repeat None 16) 13 = Ok (repeat None 16, Some ENOSPC) /\
  inet_pton AF_INET (lit "192.168.0.255") [0; 0; 0; 0; 7] = Ok ([192; 168; 0; 255; 7], inr true) /\
  inet_pton AF_INET (lit "192.168.0.256") [0; 0; 0; 0; 7] = Ok ([0; 0; 0; 0; 7], inr false) /\
  inet_pton AF_INET (lit "192.168..1") [0; 0; 0; 0; 7] = Ok ([0; 0; 0; 0; 7], inr false).
Proof. eexists. split; [vm_compute; reflexivity|]. split; [reflexivity|]. split; [reflexivity|]. split; [reflexivity|]. split; reflexivity. Qed.
Print Assumptions C103_pton.
Print Assumptions C103_meaning.
Print Assumptions C103_ntop.
Print Assumptions C103_round_trip.
Print Assumptions C103_three_digits_refuted.
Print Assumptions C103_ipv6_refuted.

(** ** C104: IPv6 *)
(** sixteen bytes are an address of eight words in exactly one way *)
Theorem C104_address src : (16 <= length src)%nat -> Forall (fun v => v <= 255) (firstn 16 src) ->
  exists vs, src = bytes_of vs ++ skipn 16 src /\ length vs = 8%nat /\ Forall (fun v => v <= 65535) vs /\
    forall ws, length ws = 8%nat -> Forall (fun v => v <= 65535) ws -> src = bytes_of ws ++ skipn 16 src -> ws = vs.
Proof.
  intros L F. assert (L16 : length (firstn 16 src) = (2 * 8)%nat) by (rewrite firstn_length; lia). destruct (@words_of_bytes 8 _ L16 F) as (E & LW & FW).
  exists (words_of (firstn 16 src)). split; [rewrite E; symmetry; apply firstn_skipn|]. split; [exact LW|]. split; [exact FW|].
  intros ws L8 FS EQ. apply bytes_of_inj; [assumption|assumption|]. rewrite E. rewrite EQ. rewrite firstn_app_le by (rewrite bytes_of_length; lia). rewrite firstn_all2 by (rewrite bytes_of_length; lia). reflexivity.
Qed.
(** inet_ntop(AF_INET6): the canonical text with its NUL if it fits, else ENOSPC and nothing stored;
    46 bytes suffice *)
Theorem C104_ntop vs more m size : length vs = 8%nat -> Forall (fun v => v <= 65535) vs -> (size <= length m)%nat ->
  exists s, canonical6 vs s /\ is_cstr s /\ (length s <= 45)%nat /\
    inet_ntop AF_INET6 (bytes_of vs ++ more) m size =
    Ok (if (length s <? size)%nat then (map Some s ++ Some NUL :: skipn (S (length s)) m, None) else (m, Some ENOSPC)).
Proof.
  intros L F LM. exists (ftext6 vs (best_run vs)). split; [now apply ftext_canonical|]. split; [apply ftext6_cstr; assumption|]. split; [now apply (canonical_length L F)|].
  assert (BR : match best_run vs with Some (b, l) => (b + l <= 8 /\ 2 <= l)%nat | None => True end).
  { pose proof (best_run_spec vs L) as B. destruct (best_run vs) as [[b l]|]; [|exact Logic.I]. destruct B as (B1 & [B2 _] & _). lia. }
  unfold inet_ntop. rewrite (@ntop6_spec vs more (best_run vs) L F BR m size eq_refl LM). cbn [bind].
  destruct (Nat.leb_spec size (length (ftext6 vs (best_run vs)))); destruct (Nat.ltb_spec (length (ftext6 vs (best_run vs))) size); try lia; reflexivity.
Qed.
(** the canonical text denotes the address *)
Theorem C104_meaning vs s : length vs = 8%nat -> canonical6 vs s -> text6 s vs.
Proof. exact (@canonical_text vs s). Qed.
(** inet_pton6 accepts every textual form of RFC 4291 and stores the address it denotes *)
Theorem C104_pton6 src vs m : text6 src vs -> (16 <= length m)%nat -> inet_pton6 src m = Ok (Some (bytes_of vs ++ skipn 16 m)).
Proof. intros T L. apply pton6_complete; [now apply text6_lenient|exact L]. Qed.
(** ... what it accepts besides, and what it makes of it; other text stores nothing *)
Theorem C104_pton6_exact src m : is_cstr src -> (16 <= length m)%nat ->
  (exists vs, lenient6 src vs /\ inet_pton6 src m = Ok (Some (bytes_of vs ++ skipn 16 m))) \/
  (forall vs, ~ lenient6 src vs) /\ inet_pton6 src m = Ok None.
Proof. exact (@pton6_exact src m). Qed.
(** reading what was written gives the address back *)
Theorem C104_round_trip vs more m size m' dst : length vs = 8%nat -> Forall (fun v => v <= 65535) vs -> (size <= length m)%nat ->
  inet_ntop AF_INET6 (bytes_of vs ++ more) m size = Ok (m', None) -> (16 <= length dst)%nat ->
  exists s, mstr m' = Ok s /\ inet_pton6 s dst = Ok (Some (bytes_of vs ++ skipn 16 dst)).
Proof.
  intros L F LM E LD. destruct (@C104_ntop vs more m size L F LM) as (s & C & CS & LT & E'). rewrite E' in E. destruct (length s <? size)%nat; [|discriminate E]. injection E as <-.
  exists s. split; [apply mstr_holds; split; [exact CS|eexists; reflexivity]|]. apply C104_pton6; [now apply canonical_text|exact LD].
Qed.
(** text that is no address is accepted: a colon at the end, a [::] that stands for nothing (the groups
    behind it are lost), groups of more than four digits *)
Theorem C104_pton6_refuted :
  inet_pton6 (lit "1:2:3:4:5:6:7:8:") (repeat 0 16) = Ok (Some (bytes_of [1; 2; 3; 4; 5; 6; 7; 8])) /\
  inet_pton6 (lit "1:2:3:4::5:6:7:8") (repeat 9 16) = Ok (Some (bytes_of [1; 2; 3; 4; 0; 0; 0; 0])) /\
  inet_pton6 (lit "::000001") (repeat 0 16) = Ok (Some (bytes_of [0; 0; 0; 0; 0; 0; 0; 1])).
Proof. split; [reflexivity|]. split; reflexivity. Qed.

Example C104_case : exists m, inet_ntop AF_INET6 (bytes_of [8193; 3512; 0; 0; 1; 0; 0; 1]) (repeat None 46) 46 = Ok (m, None) /\ mstr m = Ok (lit "2001:db8::1:0:0:1") /\
  inet_pton6 (lit "2001:db8::1:0:0:1") (repeat 0 16) = Ok (Some (bytes_of [8193; 3512; 0; 0; 1; 0; 0; 1])).
Proof. eexists. split; [vm_compute; reflexivity|]. split; vm_compute; reflexivity. Qed.
Example C104_mapped : exists m, inet_ntop AF_INET6 (bytes_of [0; 0; 0; 0; 0; 65535; 258; 772]) (repeat None 46) 46 = Ok (m, None) /\ mstr m = Ok (lit "::ffff:1.2.3.4").
Proof. eexists. split; [vm_compute; reflexivity|]. vm_compute; reflexivity. Qed.
Print Assumptions C104_address.
Print Assumptions C104_ntop.
Print Assumptions C104_meaning.
Print Assumptions C104_pton6.
Print Assumptions C104_pton6_exact.
Print Assumptions C104_round_trip.
Print Assumptions C104_pton6_refuted.
