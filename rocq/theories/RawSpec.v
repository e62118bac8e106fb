(** What a UDP/IPv4 frame is (RFC 791, RFC 768), and the checksum of RFC 1071. *)
From Coq Require Import ZArith List Bool.
From Verif Require Import Base RawModel.
Import ListNotations.
Open Scope Z_scope.

Definition at8 (f : list Z) (i : Z) : Z := nth (Z.to_nat i) f 0.
Definition at16 (f : list Z) (i : Z) : Z := 256 * at8 f i + at8 f (i + 1).

Definition link_len (k : link) : Z := match k with Ethernet => 14 | LinuxSll => 16 end.
(** The frame holds an unfragmented UDP datagram in an IPv4 packet; its payload
    is at [off], [len] bytes long. *)
Definition udp_frame (k : link) (f : list Z) (off len : Z) : Prop :=
  let L := link_len k in
  let ihl := at8 f L mod 16 in
  let total := at16 f (L + 2) in
  let udp := at16 f (L + 4 * ihl + 4) in
  L + 20 <= zlen f
  /\ at16 f (L - 2) = 2048
  /\ at8 f L / 16 = 4 /\ 5 <= ihl
  /\ at16 f (L + 6) mod 2 ^ 14 = 0                      (* no fragment offset, no more fragments *)
  /\ at8 f (L + 9) = 17
  /\ 4 * ihl + 8 <= total /\ L + total <= zlen f
  /\ 8 <= udp <= total - 4 * ihl
  /\ off = L + 4 * ihl + 8 /\ len = udp - 8.

(** Ones' complement sum of 16-bit words. *)
Definition oc_add (a b : Z) : Z := let s := a + b in if 65535 <? s then s - 65535 else s.
Definition oc_sum (l : list Z) : Z := fold_left oc_add l 0.
(** The [n] 16-bit words from [off]. *)
Definition words (f : list Z) (off : Z) (n : nat) : list Z := map (fun i => at16 f (off + 2 * Z.of_nat i)) (seq 0 n).
