(** Independent description of the SPEAD-64 wire format, used to state
    properties about packets.  Does not mention the decoder or generator. *)
From Coq Require Import ZArith List Bool.
From Verif Require Import Base CodecModel.
Import ListNotations.
Open Scope Z_scope.

(** A packet: 0x53 0x04, item-id width, address width, 2 reserved bytes,
    16-bit item count, item pointers (64-bit big endian), payload. *)
Definition wire_packet (hab rsv : Z) (ptrs payload : list Z) : list Z :=
  [83; 4; 8 - hab / 8; hab / 8] ++ be_encode 2 rsv ++ be_encode 2 (zlen ptrs)
  ++ flat_map (be_encode 8) ptrs ++ payload.

(** The pointer is an immediate with the given id. *)
Definition imm_with_id (hab id p : Z) : bool := is_immediate p && (get_id hab p =? id).

(** Value of the last immediate with the given id. *)
Fixpoint last_imm (hab id : Z) (ptrs : list Z) : option Z :=
  match ptrs with
  | [] => None
  | p :: rest =>
      match last_imm hab id rest with
      | Some v => Some v
      | None => if imm_with_id hab id p then Some (get_immediate hab p) else None
      end
  end.

(** Value of the first immediate with the given id. *)
Fixpoint first_imm (hab id : Z) (ptrs : list Z) : option Z :=
  match ptrs with
  | [] => None
  | p :: rest =>
      if imm_with_id hab id p then Some (get_immediate hab p) else first_imm hab id rest
  end.

(** Heap cnt, heap length, payload offset, payload length immediates. *)
Definition special_ptr (hab p : Z) : bool :=
  imm_with_id hab HEAP_CNT_ID p || imm_with_id hab HEAP_LENGTH_ID p
  || imm_with_id hab PAYLOAD_OFFSET_ID p || imm_with_id hab PAYLOAD_LENGTH_ID p.

Fixpoint skip_specials (hab : Z) (ptrs : list Z) : list Z :=
  match ptrs with
  | [] => []
  | p :: rest => if special_ptr hab p then skip_specials hab rest else ptrs
  end.

Definition word_ok (p : Z) : Prop := 0 <= p < 2 ^ 64.

(** The number of leading specials. *)
Definition skipped (hab : Z) (ptrs : list Z) : Z := zlen ptrs - zlen (skip_specials hab ptrs).

(** [data] starts with the packet described by the other arguments. *)
Record packet_at (data : list Z) (hab : Z) (ptrs payload : list Z)
    (cnt : Z) (hlen : option Z) (off : Z) : Prop := {
  pa_flavour : flavour_ok hab = true;
  pa_ptrs : Forall word_ok ptrs;
  pa_count : zlen ptrs < 65536;
  pa_bytes : exists rsv rest, 0 <= rsv < 65536 /\ data = wire_packet hab rsv ptrs payload ++ rest;
  pa_cnt : last_imm hab HEAP_CNT_ID ptrs = Some cnt;
  pa_hlen : last_imm hab HEAP_LENGTH_ID ptrs = hlen;
  pa_off : last_imm hab PAYLOAD_OFFSET_ID ptrs = Some off;
  pa_plen : last_imm hab PAYLOAD_LENGTH_ID ptrs = Some (zlen payload);
  pa_fits : forall l, hlen = Some l -> off + zlen payload <= l
}.

(** [data] starts with an 8-byte header announcing [n] item pointers. *)
Definition header_at (data : list Z) (hab n : Z) : Prop :=
  flavour_ok hab = true /\ 0 <= n < 65536 /\
  exists rsv rest, 0 <= rsv < 65536 /\
    data = [83; 4; 8 - hab / 8; hab / 8] ++ be_encode 2 rsv ++ be_encode 2 n ++ rest.
