(** Model of packet decoding: /repo/src/recv_packet.cpp.

    A packet is the byte list [data]; its length is the [max_size]/[length]
    argument of the C++ functions.  Every load is checked: a load that is not
    entirely inside [data] makes the result [None] at the outermost level,
    which stands for an out-of-bounds read. *)
From Coq Require Import ZArith List Bool.
From Verif Require Import Base CodecModel.
Import ListNotations.
Open Scope Z_scope.

(** include/spead2/common_endian.h load_be<uint64_t>, with a bounds check. *)
Definition load_be64 (data : list Z) (off : Z) : option Z :=
  if (0 <=? off) && (off + 8 <=? zlen data)
  then Some (be_decode (slice data off 8)) else None.

(** src/recv_packet.cpp:38-44 extract_bits *)
Definition extract_bits (value first cnt : Z) : Z :=
  Z.land (Z.shiftr value first) (Z.shiftl 1 cnt - 1).

(** src/recv_packet.cpp:46-69 decode_header; on success returns
    (heap_address_bits, n_items). Outer option: out-of-bounds read. *)
Definition decode_header (data : list Z) : option (option (Z * Z)) :=
  match load_be64 data 0 with
  | None => None
  | Some header =>
      if negb (extract_bits header 48 16 =? magic_version) then Some None
      else
        let item_id_bits := extract_bits header 40 8 * 8 in
        let hab := extract_bits header 32 8 * 8 in
        if (item_id_bits =? 0) || (hab =? 0) then Some None
        else if negb (item_id_bits + hab =? 64) then Some None
        else Some (Some (hab, extract_bits header 0 16))
  end.

(** src/recv_packet.cpp:83-91: search for the first PAYLOAD_LENGTH immediate
    among the item pointers [i, i+k); -1 if absent. *)
Fixpoint find_payload_length (data : list Z) (hab i : Z) (k : nat) : option Z :=
  match k with
  | O => Some (-1)
  | S k' =>
      match load_be64 data (8 + i * 8) with
      | None => None
      | Some p =>
          if is_immediate p && (get_id hab p =? PAYLOAD_LENGTH_ID)
          then Some (get_immediate hab p)
          else find_payload_length data hab (i + 1) k'
      end
  end.

(** src/recv_packet.cpp:71-95 get_packet_size: 0 = truncated, -1 = malformed. *)
Definition get_packet_size (data : list Z) : option Z :=
  if zlen data <? 8 then Some 0
  else
    match decode_header data with
    | None => None
    | Some None => Some (-1)
    | Some (Some (hab, n_items)) =>
        if zlen data <? n_items * 8 + 8 then Some 0
        else
          match find_payload_length data hab 0 (Z.to_nat n_items) with
          | None => None
          | Some plen =>
              if plen =? -1 then Some (-1) else Some (plen + n_items * 8 + 8)
          end
    end.

(** include/spead2/recv_packet.h:34-57 packet_header.  The three pointers are
    kept as offsets into [data] ([packet] is offset 0). *)
Record packet_header := {
  ph_hab : Z;
  ph_n_items : Z;
  ph_heap_cnt : Z;
  ph_heap_length : Z;
  ph_payload_offset : Z;
  ph_payload_length : Z;
  ph_pointers : Z;
  ph_payload : Z
}.

(** Accumulator of the loop at src/recv_packet.cpp:113-150. *)
Record specials := {
  sp_cnt : Z;
  sp_hlen : Z;
  sp_off : Z;
  sp_plen : Z;
  sp_first : Z      (* first_regular *)
}.

(** src/recv_packet.cpp:112-119 initial values *)
Definition specials_init (n_items : Z) : specials :=
  {| sp_cnt := -1; sp_hlen := -1; sp_off := -1; sp_plen := -1; sp_first := n_items |}.

(** src/recv_packet.cpp:122-149 loop body for item pointer number [i] *)
Definition specials_step (hab i : Z) (s : specials) (p : Z) : specials :=
  let regular :=
    {| sp_cnt := sp_cnt s; sp_hlen := sp_hlen s; sp_off := sp_off s;
       sp_plen := sp_plen s; sp_first := Z.min (sp_first s) i |} in
  if is_immediate p then
    let id := get_id hab p in
    let v := get_immediate hab p in
    if id =? HEAP_CNT_ID then
      {| sp_cnt := v; sp_hlen := sp_hlen s; sp_off := sp_off s;
         sp_plen := sp_plen s; sp_first := sp_first s |}
    else if id =? HEAP_LENGTH_ID then
      {| sp_cnt := sp_cnt s; sp_hlen := v; sp_off := sp_off s;
         sp_plen := sp_plen s; sp_first := sp_first s |}
    else if id =? PAYLOAD_OFFSET_ID then
      {| sp_cnt := sp_cnt s; sp_hlen := sp_hlen s; sp_off := v;
         sp_plen := sp_plen s; sp_first := sp_first s |}
    else if id =? PAYLOAD_LENGTH_ID then
      {| sp_cnt := sp_cnt s; sp_hlen := sp_hlen s; sp_off := sp_off s;
         sp_plen := v; sp_first := sp_first s |}
    else regular
  else regular.

(** src/recv_packet.cpp:120-150 the loop *)
Fixpoint specials_loop (data : list Z) (hab i : Z) (k : nat) (s : specials) : option specials :=
  match k with
  | O => Some s
  | S k' =>
      match load_be64 data (8 + i * 8) with
      | None => None
      | Some p => specials_loop data hab (i + 1) k' (specials_step hab i s p)
      end
  end.

(** Result of decode_packet: [Reject] is the C++ return value 0. *)
Inductive decode_result :=
| OOB
| Reject
| Accept (h : packet_header) (size : Z).

(** src/recv_packet.cpp:97-176 decode_packet.  All sums are below 2^57, so the
    64-bit arithmetic is exact. *)
Definition decode_packet (data : list Z) : decode_result :=
  if zlen data <? 8 then Reject
  else
    match decode_header data with
    | None => OOB
    | Some None => Reject
    | Some (Some (hab, n_items)) =>
        if zlen data <? n_items * 8 + 8 then Reject
        else
          match specials_loop data hab 0 (Z.to_nat n_items) (specials_init n_items) with
          | None => OOB
          | Some s =>
              if (sp_cnt s =? -1) || (sp_off s =? -1) || (sp_plen s =? -1) then Reject
              else
                let size := sp_plen s + n_items * 8 + 8 in
                if zlen data <? size then Reject
                else if (0 <=? sp_hlen s) && (sp_hlen s <? sp_off s + sp_plen s) then Reject
                else
                  Accept {| ph_hab := hab;
                            ph_n_items := n_items - sp_first s;
                            ph_heap_cnt := sp_cnt s;
                            ph_heap_length := sp_hlen s;
                            ph_payload_offset := sp_off s;
                            ph_payload_length := sp_plen s;
                            ph_pointers := 8 + sp_first s * 8;
                            ph_payload := 8 + sp_first s * 8 + (n_items - sp_first s) * 8 |}
                         size
          end
    end.

(** The item pointers a consumer of the header will read
    (src/recv_live_heap.cpp:101-149 reads pointers[0..n_items)). *)
Definition header_pointers (data : list Z) (h : packet_header) : list Z :=
  map (fun i => be_decode (slice data (ph_pointers h + 8 * Z.of_nat i) 8))
      (seq 0 (Z.to_nat (ph_n_items h))).

(** The payload bytes a consumer of the header will read. *)
Definition header_payload (data : list Z) (h : packet_header) : list Z :=
  slice data (ph_payload h) (ph_payload_length h).
