(** Independent description of what a heap should look like on the wire. *)
From Coq Require Import ZArith List Bool.
From Verif Require Import Base CodecModel PacketSpec SendPacketModel.
Import ListNotations.
Open Scope Z_scope.

(** The item's value travels in the heap payload (rather than in its pointer):
    it is a buffer that may not, or does not fit to, be an immediate. *)
Definition addressed (hab : Z) (it : item) : bool :=
  match it with
  | Inline _ _ => false
  | Buffer _ allow d => negb (allow && (zlen d <=? hab / 8))
  end.

(** The user's payload: concatenated values of the addressed items. *)
Definition heap_payload (hab : Z) (items : list item) : list Z :=
  flat_map item_data (filter (addressed hab) items).

(** The item pointers, in order; an addressed item's pointer holds the offset
    of its value in the payload. *)
Fixpoint heap_pointers (hab : Z) (items : list item) (addr : Z) : list Z :=
  match items with
  | [] => []
  | Inline id v :: rest => encode_immediate hab id v :: heap_pointers hab rest addr
  | Buffer id allow d :: rest =>
      if allow && (zlen d <=? hab / 8)
      then encode_immediate hab id (be_decode d) :: heap_pointers hab rest addr
      else encode_address hab id addr :: heap_pointers hab rest (addr + zlen d)
  end.

(** Documented preconditions on an item: id and in-place value fit the flavour,
    buffers contain bytes. *)
Definition item_ok (hab : Z) (it : item) : Prop :=
  match it with
  | Inline id v => 0 <= id < 2 ^ (63 - hab) /\ 0 <= v < 2 ^ hab
  | Buffer id _ d => 0 <= id < 2 ^ (63 - hab) /\ bytes_ok d
  end.

(** The four pointers that start every packet. *)
Definition special_ptrs (hab cnt hlen off plen : Z) : list Z :=
  [encode_immediate hab HEAP_CNT_ID cnt; encode_immediate hab HEAP_LENGTH_ID hlen;
   encode_immediate hab PAYLOAD_OFFSET_ID off; encode_immediate hab PAYLOAD_LENGTH_ID plen].
