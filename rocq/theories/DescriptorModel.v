(** Model of descriptor encoding (/repo/src/send_heap.cpp:40-144) and decoding
    (/repo/src/recv_heap.cpp:42-50, 214-274). *)
From Coq Require Import ZArith List Bool.
From Verif Require Import Base CodecModel RecvPacketModel SendPacketModel LiveHeapModel RecvHeapModel.
Import ListNotations.
Open Scope Z_scope.

(** include/spead2/common_defines.h:100-120 descriptor.  Strings are byte
    lists and a format specifier character is its byte. *)
Record descriptor := {
  d_id : Z;
  d_name : list Z;
  d_description : list Z;
  d_format : list (Z * Z);
  d_shape : list Z;
  d_numpy : list Z
}.

(** include/spead2/common_defines.h:53-55: the two bug-compatibility bits that
    affect descriptors. *)
Record bug_compat := {
  bc_widths : bool;    (* BUG_COMPAT_DESCRIPTOR_WIDTHS *)
  bc_shape1 : bool     (* BUG_COMPAT_SHAPE_BIT_1 *)
}.

(** src/send_heap.cpp:65-66 and src/recv_heap.cpp:216-217, 238, 249 *)
Definition field_size (hab : Z) (bc : bug_compat) : Z := if bc_widths bc then 4 else 8 + 1 - hab / 8.
Definition shape_size (hab : Z) (bc : bug_compat) : Z := if bc_widths bc then 8 else 1 + hab / 8.

(** src/send_heap.cpp:47-53 store_bytes_be: the low [len] bytes of the 64-bit
    value.  (The asserts, which say that nothing is lost, are preconditions of
    the theorems.) *)
Definition store_bytes_be (len v : Z) : list Z := be_encode (Z.to_nat len) v.

(** src/send_heap.cpp:118-124 *)
Definition encode_format (hab : Z) (bc : bug_compat) (f : Z * Z) : list Z :=
  fst f :: store_bytes_be (field_size hab bc - 1) (snd f).
(** src/send_heap.cpp:126-133 *)
Definition encode_dim (hab : Z) (bc : bug_compat) (dim : Z) : list Z :=
  (if dim <? 0 then (if bc_shape1 bc then 2 else 1) else 0)
  :: store_bytes_be (shape_size hab bc - 1) (if dim <? 0 then 0 else dim).

(** src/send_heap.cpp:62-144 encode_descriptor; [None] = std::invalid_argument.
    The buffer of size total_size is filled in order, so it is the
    concatenation of what is stored. *)
Definition encode_descriptor (hab : Z) (bc : bug_compat) (d : descriptor) : option (list Z) :=
  if (d_id d <=? 0) || (Z.shiftl 1 (8 * 8 - 1 - hab) <=? d_id d) then None
  else
    let have_numpy := negb (zlen (d_numpy d) =? 0) in
    let n_items := 9 + (if have_numpy then 1 else 0) in
    let nfmt := zlen (d_format d) * field_size hab bc in
    let nshape := zlen (d_shape d) * shape_size hab bc in
    let payload_size := zlen (d_name d) + zlen (d_description d) + nfmt + nshape + zlen (d_numpy d) in
    let header := Z.lor (Z.lor (Z.lor (Z.shiftl 21252 48) (Z.shiftl (8 - hab / 8) 40))
                               (Z.shiftl (hab / 8) 32)) n_items in
    let o1 := zlen (d_name d) in
    let o2 := o1 + zlen (d_description d) in
    let o3 := o2 + nfmt in
    let o4 := o3 + nshape in
    let pointers :=
      [encode_immediate hab HEAP_CNT_ID 1;
       encode_immediate hab HEAP_LENGTH_ID payload_size;
       encode_immediate hab PAYLOAD_OFFSET_ID 0;
       encode_immediate hab PAYLOAD_LENGTH_ID payload_size;
       encode_immediate hab DESCRIPTOR_ID_ID (d_id d);
       encode_address hab DESCRIPTOR_NAME_ID 0;
       encode_address hab DESCRIPTOR_DESCRIPTION_ID o1;
       encode_address hab DESCRIPTOR_FORMAT_ID o2;
       encode_address hab DESCRIPTOR_SHAPE_ID o3]
      ++ (if have_numpy then [encode_address hab DESCRIPTOR_DTYPE_ID o4] else []) in
    Some (be_encode 8 header ++ flat_map (be_encode 8) pointers
          ++ d_name d ++ d_description d
          ++ flat_map (encode_format hab bc) (d_format d)
          ++ flat_map (encode_dim hab bc) (d_shape d)
          ++ d_numpy d).

(** src/recv_heap.cpp:239-244, 250-256: the loop over fields of [size] bytes;
    [n] bounds the number of iterations ([n = length] is always enough, as
    [size >= 1]). *)
Fixpoint fields (size : Z) (n : nat) (v : list Z) : list (Z * list Z) :=
  match n with
  | O => []
  | S n' =>
      if size <=? zlen v
      then match slice v 0 size with
           | [] => []
           | b :: rest => (b, rest) :: fields size n' (slice v size (zlen v - size))
           end
      else []
  end.

(** src/recv_heap.cpp:218 a default-constructed descriptor *)
Definition descriptor_empty : descriptor :=
  {| d_id := 0; d_name := []; d_description := []; d_format := []; d_shape := []; d_numpy := [] |}.

(** load_bytes_be of a list of at most 8 bytes (the field widths are at most 8). *)
Definition be_value (l : list Z) : option Z := load_bytes_be (Some l).

Fixpoint decode_formats (l : list (Z * list Z)) : option (list (Z * Z)) :=
  match l with
  | [] => Some []
  | (b, rest) :: l' =>
      match be_value rest, decode_formats l' with
      | Some v, Some r => Some ((b, v) :: r)
      | _, _ => None
      end
  end.
Fixpoint decode_dims (bc : bug_compat) (l : list (Z * list Z)) : option (list Z) :=
  match l with
  | [] => Some []
  | (b, rest) :: l' =>
      let variable := negb (Z.land b (if bc_shape1 bc then 2 else 1) =? 0) in
      match (if variable then Some (-1) else be_value rest), decode_dims bc l' with
      | Some v, Some r => Some (v :: r)
      | _, _ => None
      end
  end.

(** src/recv_heap.cpp:221-266 the loop body for an item with bytes [v];
    [None]: out-of-bounds access *)
Definition descriptor_field (hab : Z) (bc : bug_compat) (o : descriptor) (id : Z) (imm : bool) (v : list Z)
  : option descriptor :=
  if id =? DESCRIPTOR_ID_ID then
    if imm then
      match be_value v with
      | None => None
      | Some n => Some {| d_id := n; d_name := d_name o; d_description := d_description o;
                          d_format := d_format o; d_shape := d_shape o; d_numpy := d_numpy o |}
      end
    else Some o
  else if id =? DESCRIPTOR_NAME_ID then
    Some {| d_id := d_id o; d_name := v; d_description := d_description o;
            d_format := d_format o; d_shape := d_shape o; d_numpy := d_numpy o |}
  else if id =? DESCRIPTOR_DESCRIPTION_ID then
    Some {| d_id := d_id o; d_name := d_name o; d_description := v;
            d_format := d_format o; d_shape := d_shape o; d_numpy := d_numpy o |}
  else if id =? DESCRIPTOR_FORMAT_ID then
    match decode_formats (fields (field_size hab bc) (length v) v) with
    | None => None
    | Some l => Some {| d_id := d_id o; d_name := d_name o; d_description := d_description o;
                        d_format := d_format o ++ l; d_shape := d_shape o; d_numpy := d_numpy o |}
    end
  else if id =? DESCRIPTOR_SHAPE_ID then
    match decode_dims bc (fields (shape_size hab bc) (length v) v) with
    | None => None
    | Some l => Some {| d_id := d_id o; d_name := d_name o; d_description := d_description o;
                        d_format := d_format o; d_shape := d_shape o ++ l; d_numpy := d_numpy o |}
    end
  else if id =? DESCRIPTOR_DTYPE_ID then
    Some {| d_id := d_id o; d_name := d_name o; d_description := d_description o;
            d_format := d_format o; d_shape := d_shape o; d_numpy := v |}
  else Some o.

Definition descriptor_step (hab : Z) (bc : bug_compat) (f : frozen) (o : option descriptor) (it : ritem)
  : option descriptor :=
  match o, ritem_value f it with
  | Some o, Some v => descriptor_field hab bc o (ri_id it) (ri_imm it) v
  | _, _ => None
  end.

(** src/recv_heap.cpp:214-274 to_descriptor *)
Definition to_descriptor (bc : bug_compat) (f : frozen) : option descriptor :=
  match fold_left (descriptor_step (fr_hab f) bc f) (fr_items f) (Some descriptor_empty) with
  | None => None
  | Some o =>
      if zlen (d_numpy o) =? 0 then Some o
      else Some {| d_id := d_id o; d_name := d_name o; d_description := d_description o;
                   d_format := []; d_shape := []; d_numpy := d_numpy o |}
  end.
