(** What a TCP reader should deliver, as a function of the byte stream alone. *)
From Coq Require Import ZArith List Bool.
From Verif Require Import Base PacketSpec RecvPacketModel LiveHeapModel.
Import ListNotations.
Open Scope Z_scope.

(** The list without its first [n] elements. *)
Definition zskip (n : Z) (d : list Z) : list Z := skipn (Z.to_nat n) d.

(** The packet in exactly these bytes, if they are an acceptable packet. *)
Definition whole_packet (d : list Z) : list rpkt :=
  match decode_packet d with
  | Accept h size => if size =? zlen d then [rpkt_of d h] else []
  | _ => []
  end.

(** The packets in a byte stream.  [win] is how far ahead the item pointers of
    a packet are looked for.  A malformed header is skipped; packets longer
    than [max] are skipped; if the item pointers do not fit in the window the
    window is skipped. *)
Fixpoint packets_in (fuel : nat) (max win : Z) (d : list Z) : list rpkt :=
  match fuel with
  | O => []
  | S fuel' =>
      match get_packet_size (slice d 0 win) with
      | None => []
      | Some r =>
          if r =? 0 then
            if win <=? zlen d then packets_in fuel' max win (zskip win d) else []
          else if r <? 0 then packets_in fuel' max win (zskip 8 d)
          else if max <? r then packets_in fuel' max win (zskip r d)
          else if zlen d <? r then []
          else whole_packet (slice d 0 r) ++ packets_in fuel' max win (zskip r d)
      end
  end.
Definition stream_packets (max win : Z) (d : list Z) : list rpkt := packets_in (S (length d)) max win d.

(** Delivery up to and including the packet at which the stream stops. *)
Fixpoint until_stop (stop : list rpkt -> bool) (acc l : list rpkt) : list rpkt :=
  if stop acc then acc
  else match l with
       | [] => acc
       | p :: l' => until_stop stop (acc ++ [p]) l'
       end.

(** No header met in the stream announces item pointers that exceed half the
    window. *)
Fixpoint small_headers (fuel : nat) (max win : Z) (d : list Z) : Prop :=
  match fuel with
  | O => True
  | S fuel' =>
      (forall hab n, header_at d hab n -> 8 + 8 * n <= win / 2) /\
      match get_packet_size (slice d 0 win) with
      | None => True
      | Some r =>
          if r =? 0 then
            if win <=? zlen d then small_headers fuel' max win (zskip win d) else True
          else if r <? 0 then small_headers fuel' max win (zskip 8 d)
          else if max <? r then small_headers fuel' max win (zskip r d)
          else if zlen d <? r then True
          else small_headers fuel' max win (zskip r d)
      end
  end.
Definition headers_fit (max win : Z) (d : list Z) : Prop := small_headers (S (length d)) max win d.
