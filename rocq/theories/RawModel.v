(** Model of the parsing and construction of Ethernet, IPv4 and UDP headers:
    src/common_raw_packet.cpp and include/spead2/common_raw_packet.h.

    A frame is a byte list.  A packet_buffer (common_raw_packet.h:58-103) is an
    offset into it and a length.  Every access is checked against the frame: one
    that is not inside it gives [PFault].  Exceptions are [PErr].
    Multi-byte fields are given by their big endian value; the *_be accessors,
    which give them in storage order, are only compared with htobe constants. *)
From Coq Require Import ZArith List Bool.
From Verif Require Import Base.
Import ListNotations.
Open Scope Z_scope.

Inductive perr := LengthError | TypeError.
Inductive pres (A : Type) := PFault | PErr (e : perr) | POk (a : A).
Arguments PFault {A}.
Arguments PErr {A} e.
Arguments POk {A} a.
Definition pbind {A B} (x : pres A) (f : A -> pres B) : pres B := match x with PFault => PFault | PErr e => PErr e | POk a => f a end.

Record pbuf := { pb_off : Z; pb_len : Z }.

(** packet_buffer::get, common_raw_packet.h:66-72 *)
Definition get (mem : list Z) (b : pbuf) (off n : Z) : pres (list Z) :=
  if (0 <=? pb_off b + off) && (pb_off b + off + n <=? zlen mem) then POk (slice mem (pb_off b + off) n) else PFault.
Definition get_be (mem : list Z) (b : pbuf) (off n : Z) : pres Z := pbind (get mem b off n) (fun l => POk (be_decode l)).
(** packet_buffer::set, :74-78 *)
Definition store (mem : list Z) (off : Z) (l : list Z) : list Z := slice mem 0 off ++ l ++ slice mem (off + zlen l) (zlen mem - off - zlen l).
Definition set (mem : list Z) (b : pbuf) (off : Z) (l : list Z) : pres (list Z) :=
  if (0 <=? pb_off b + off) && (pb_off b + off + zlen l <=? zlen mem) then POk (store mem (pb_off b + off) l) else PFault.
Definition set_be (mem : list Z) (b : pbuf) (off : Z) (n : nat) (v : Z) : pres (list Z) := set mem b off (be_encode n v).

(** Constructors of udp_packet (common_raw_packet.cpp:165-170), ipv4_packet
    (:182-187), ethernet_frame (:230-235) and linux_sll_frame (:245-250). *)
Definition sized (min : Z) (b : pbuf) : pres pbuf := if pb_len b <? min then PErr LengthError else POk b.
Definition udp_min : Z := 8.
Definition ipv4_min : Z := 20.
Definition eth_min : Z := 14.
Definition sll_min : Z := 16.

(** udp_packet::payload, :172-178 *)
Definition udp_payload (mem : list Z) (b : pbuf) : pres pbuf :=
  pbind (get_be mem b 4 2) (fun len =>
  if (pb_len b <? len) || (len <? udp_min) then PErr LengthError
  else POk {| pb_off := pb_off b + udp_min; pb_len := len - udp_min |}).

(** ipv4_packet::header_length, version, is_fragment: :201-215 *)
Definition header_length (mem : list Z) (b : pbuf) : pres Z := pbind (get_be mem b 0 1) (fun v => POk (4 * Z.land v 15)).
Definition version (mem : list Z) (b : pbuf) : pres Z := pbind (get_be mem b 0 1) (fun v => POk (Z.shiftr v 4)).
Definition is_fragment (mem : list Z) (b : pbuf) : pres bool := pbind (get_be mem b 6 2) (fun v => POk (negb (Z.land v 16383 =? 0))).

(** ipv4_packet::payload_udp, :217-226 *)
Definition payload_udp (mem : list Z) (b : pbuf) : pres pbuf :=
  pbind (header_length mem b) (fun h =>
  pbind (get_be mem b 2 2) (fun len =>
  if h <? ipv4_min then PErr LengthError
  else if (pb_len b <? len) || (len <? h) then PErr LengthError
  else sized udp_min {| pb_off := pb_off b + h; pb_len := len - h |})).

(** payload_ipv4 of both kinds of frames, :237-241, :252-256 *)
Definition payload_ipv4 (min : Z) (b : pbuf) : pres pbuf := sized ipv4_min {| pb_off := pb_off b + min; pb_len := pb_len b - min |}.

(** udp_from_ipv4, :260-275 *)
Definition udp_from_ipv4 (mem : list Z) (ethertype : Z) (b : pbuf) : pres pbuf :=
  if negb (ethertype =? 2048) then PErr TypeError
  else pbind (version mem b) (fun v =>
       if negb (v =? 4) then PErr TypeError
       else pbind (is_fragment mem b) (fun f =>
            if f then PErr TypeError
            else pbind (get_be mem b 9 1) (fun p =>
                 if negb (p =? 17) then PErr TypeError
                 else pbind (payload_udp mem b) (udp_payload mem)))).

Inductive link := Ethernet | LinuxSll.
(** udp_from_ethernet and udp_from_linux_sll, :277-287, for a frame in a buffer
    of its size.  The arguments of udp_from_ipv4 can be evaluated in either
    order; they do not have side effects and only payload_ipv4 throws. *)
Definition udp_from (k : link) (mem : list Z) : pres pbuf :=
  let min := match k with Ethernet => eth_min | LinuxSll => sll_min end in
  let off := match k with Ethernet => 12 | LinuxSll => 14 end in
  pbind (sized min {| pb_off := 0; pb_len := zlen mem |}) (fun frame =>
  pbind (get_be mem frame off 2) (fun ty =>
  pbind (payload_ipv4 min frame) (fun ip => udp_from_ipv4 mem ty ip))).

(** ipv4_packet::update_checksum, :189-199.  The sum is a 32-bit unsigned. *)
Fixpoint sum_words (mem : list Z) (b : pbuf) (i : Z) (k : nat) (sum : Z) : pres Z :=
  match k with
  | O => POk sum
  | S k' => pbind (get_be mem b i 2) (fun w => sum_words mem b (i + 2) k' ((sum + w) mod 2 ^ 32))
  end.
Fixpoint fold_sum (fuel : nat) (sum : Z) : option Z :=
  if sum <=? 65535 then Some sum
  else match fuel with O => None | S f => fold_sum f (Z.land sum 65535 + Z.shiftr sum 16) end.
Definition update_checksum (mem : list Z) (b : pbuf) : pres (list Z) :=
  pbind (header_length mem b) (fun h =>
  pbind (set_be mem b 10 2 0) (fun mem1 =>
  pbind (sum_words mem1 b 0 (Z.to_nat (h / 2)) 0) (fun sum =>
  match fold_sum 32 sum with
  | None => PFault                                     (* does not terminate *)
  | Some s => set_be mem1 b 10 2 (Z.lxor s 65535)
  end))).

(** multicast_mac, :55-65, on the four bytes of the address *)
Definition multicast_mac (a : list Z) : list Z :=
  match a with [a0; a1; a2; a3] => [1; 0; 94; Z.land a1 127; a2; a3] | _ => [] end.
