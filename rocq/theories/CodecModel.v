(** Model of the SPEAD item-pointer codec.

    /repo/include/spead2/send_utils.h, /repo/include/spead2/recv_utils.h,
    /repo/include/spead2/common_defines.h, /repo/src/common_flavour.cpp.
    64-bit words are integers; the encoders' asserts appear as the predicate
    [encodable], which theorems take as an explicit precondition. *)
From Coq Require Import ZArith List Bool.
From Verif Require Import Base.
Import ListNotations.
Open Scope Z_scope.

(** include/spead2/common_defines.h: item id constants. *)
Definition NULL_ID := 0.
Definition HEAP_CNT_ID := 1.
Definition HEAP_LENGTH_ID := 2.
Definition PAYLOAD_OFFSET_ID := 3.
Definition PAYLOAD_LENGTH_ID := 4.
Definition DESCRIPTOR_ID := 5.
Definition STREAM_CTRL_ID := 6.
Definition DESCRIPTOR_NAME_ID := 16.
Definition DESCRIPTOR_DESCRIPTION_ID := 17.
Definition DESCRIPTOR_SHAPE_ID := 18.
Definition DESCRIPTOR_FORMAT_ID := 19.
Definition DESCRIPTOR_ID_ID := 20.
Definition DESCRIPTOR_DTYPE_ID := 21.
(** include/spead2/common_defines.h: stream control codes. *)
Definition CTRL_STREAM_START := 0.
Definition CTRL_DESCRIPTOR_REISSUE := 1.
Definition CTRL_STREAM_STOP := 2.
Definition CTRL_DESCRIPTOR_UPDATE := 3.
(** include/spead2/common_defines.h: immediate_mask and magic_version. *)
Definition immediate_mask := 2 ^ 63.
Definition magic_version := 21252. (* 0x5304 *)

(** src/common_flavour.cpp:28-43 (checks on heap_address_bits in the flavour
    constructor; version and item_pointer_bits are fixed to 4 and 64). *)
Definition flavour_ok (hab : Z) : bool :=
  (0 <? hab) && (hab <? 64) && (hab mod 8 =? 0).

(** include/spead2/send_utils.h:49-50, 56-57 (the asserts). *)
Definition encodable (hab id value : Z) : Prop :=
  0 <= id < 2 ^ (63 - hab) /\ 0 <= value < 2 ^ hab.

(** include/spead2/send_utils.h:47-52 pointer_encoder::encode_immediate *)
Definition encode_immediate (hab id value : Z) : Z :=
  Z.lor (Z.lor immediate_mask (Z.shiftl id hab)) value.

(** include/spead2/send_utils.h:54-59 pointer_encoder::encode_address *)
Definition encode_address (hab id address : Z) : Z :=
  Z.lor (Z.shiftl id hab) address.

(** include/spead2/recv_utils.h:61 *)
Definition address_mask (hab : Z) : Z := Z.shiftl 1 hab - 1.
(** include/spead2/recv_utils.h:62 *)
Definition id_mask (hab : Z) : Z := Z.shiftl 1 (63 - hab) - 1.
(** include/spead2/recv_utils.h:66-69 pointer_decoder::get_id *)
Definition get_id (hab p : Z) : Z := Z.land (Z.shiftr p hab) (id_mask hab).
(** include/spead2/recv_utils.h:75-78 pointer_decoder::get_address *)
Definition get_address (hab p : Z) : Z := Z.land p (address_mask hab).
(** include/spead2/recv_utils.h:84-87 pointer_decoder::get_immediate *)
Definition get_immediate (hab p : Z) : Z := get_address hab p.
(** include/spead2/recv_utils.h:90-93 pointer_decoder::is_immediate *)
Definition is_immediate (p : Z) : bool := negb (Z.shiftr p 63 =? 0).
