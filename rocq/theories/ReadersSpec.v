(** What readers of whole packets have to achieve. *)
From Coq Require Import ZArith List Bool.
From Verif Require Import Base PacketSpec RecvPacketModel LiveHeapModel StreamModel GsoModel GsoSpec RawModel RawSpec ReadersModel.
Import ListNotations.
Open Scope Z_scope.

(** The packet in a datagram: if the datagram is not empty, not longer than [max] and
    exactly as long as the decoder says. *)
Definition whole (max : Z) (d : list Z) : list rpkt :=
  if (0 <? zlen d) && (zlen d <=? max) then
    match decode_packet d with
    | Accept h size => if size =? zlen d then [rpkt_of d h] else []
    | _ => []
    end
  else [].
(** [d] is exactly one packet. *)
Definition full (d : list Z) : Prop := bytes_ok d /\ exists h, decode_packet d = Accept h (zlen d).

(** A message of the kernel carries these datagrams: without receive offload one, cut off
    after max_size + 1 bytes; with it, one, or several that were coalesced. *)
Inductive carries (gro : bool) (max : Z) : msg -> list (list Z) -> Prop :=
| carries_one d : gro = false -> carries gro max {| m_data := slice d 0 (Z.min (zlen d) (max + 1)); m_seg := None |} [d]
| carries_whole d : gro = true -> carries gro max {| m_data := d; m_seg := None |} [d]
| carries_seg seg ds : gro = true -> 0 < seg -> coalesced seg ds -> carries gro max {| m_data := concat ds; m_seg := Some seg |} ds.

(** What a step of the UDP reader does to the stream *)
Inductive does (gro : bool) (max : Z) : ulabel -> op -> Prop :=
| does_recv ms dss : Forall2 (carries gro max) ms dss -> Forall (Forall bytes_ok) dss -> does gro max (URecv ms) (Batch (flat_map (whole max) (concat dss)) false)
| does_fail : does gro max UFail (Batch [] false)
| does_user st : does gro max (UUser st) (if st then Stop else Flush).

(** The datagram in an entry of a capture file *)
Definition frame_datagram (k : link) (e : entry) (d : list Z) : Prop :=
  match e with
  | Frame bytes len => len <= zlen bytes /\ exists off n, udp_frame k (slice bytes 0 len) off n /\ d = slice (slice bytes 0 len) off n
  | ReadError => False
  end.
Definition entry_datagrams (k : link) (e : entry) (ds : list (list Z)) : Prop :=
  (exists d, frame_datagram k e d /\ ds = [d]) \/ ((forall d, ~ frame_datagram k e d) /\ ds = []).
Definition entry_ok (e : entry) : Prop := match e with Frame bytes len => bytes_ok bytes /\ 0 <= len | ReadError => True end.
(** The packet in a datagram of any size *)
Definition any_size (d : list Z) : list rpkt := whole (zlen d) d.

(** Packets one after the other in memory, and the rest, which does not start with one *)
Definition no_packet_first (d : list Z) : Prop := forall p r, d = p ++ r -> ~ full p.
Definition packets_in (d : list Z) (ds : list (list Z)) (rest : list Z) : Prop := d = concat ds ++ rest /\ Forall full ds /\ no_packet_first rest.
