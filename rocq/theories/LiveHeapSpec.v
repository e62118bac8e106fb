(** Vocabulary for the properties of heap reassembly. *)
From Coq Require Import ZArith List Bool.
From Verif Require Import Base CodecModel RecvPacketModel LiveHeapModel.
Import ListNotations.
Open Scope Z_scope.

(** [p] is what the packet decoder produced from some bytes. *)
Definition decoded (p : rpkt) : Prop :=
  exists data h size, bytes_ok data /\ decode_packet data = Accept h size /\ p = rpkt_of data h.

(** Byte [x] of the heap payload is carried by packet [p]. *)
Definition carries (p : rpkt) (x : Z) : Prop := rp_off p <= x < rp_off p + rp_plen p.

(** The two packets carry a common payload byte. *)
Definition overlap (p q : rpkt) : Prop := exists x, carries p x /\ carries q x.

(** The packets for which add_packet returned true. *)
Definition added (pkts : list rpkt) (bs : list bool) : list rpkt :=
  map fst (filter snd (combine pkts bs)).

(** Sum of payload lengths. *)
Definition total_payload (pkts : list rpkt) : Z := fold_right (fun p a => rp_plen p + a) 0 pkts.

(** Byte [x] lies in one of the half-open ranges. *)
Definition in_ranges (m : list (Z * Z)) (x : Z) : Prop := exists r, In r m /\ fst r <= x < snd r.

(** Ranges in increasing order with a gap between successive ones. *)
Fixpoint separated (m : list (Z * Z)) : Prop :=
  match m with
  | [] => True
  | r :: m' => fst r <= snd r /\ (forall q, In q m' -> snd r < fst q) /\ separated m'
  end.

(** First occurrences, in order. *)
Definition first_occurrences (l : list Z) : list Z :=
  fold_left (fun acc p => if mem_z p acc then acc else acc ++ [p]) l [].

(** Pointers that a heap keeps: everything but ids 1 to 4. *)
Definition kept (hab p : Z) : bool := let id := get_id hab p in (id =? 0) || (4 <? id).

(** A stream-stop control item. *)
Definition stop_item (hab p : Z) : bool :=
  is_immediate p && (get_id hab p =? STREAM_CTRL_ID) && (get_immediate hab p =? 2).

(** What a packet says about the length of the heap payload: its heap length,
    or if absent the end of its payload; and the addresses of addressed
    items. *)
Definition pkt_extent (p : rpkt) : list Z :=
  (if 0 <=? rp_hlen p then rp_hlen p else rp_off p + rp_plen p)
  :: map (get_address (rp_hab p)) (filter (fun q => negb (is_immediate q)) (rp_ptrs p)).
Definition zmax0 (l : list Z) : Z := fold_right Z.max 0 l.
