(** Model of the packet generator: /repo/src/send_packet.cpp and
    /repo/include/spead2/send_packet.h.

    [std::size_t] and [s_item_pointer_t] values are integers; the only
    subtractions that could wrap are written with [usub].  An out-of-range
    vector index makes [next_packet] return [None].  The [assert]s (inactive
    in release builds) are evaluated into the flag [pk_asserts]; the range
    asserts of the pointer encoder are not included in that flag. *)
From Coq Require Import ZArith List Bool.
From Verif Require Import Base CodecModel.
Import ListNotations.
Open Scope Z_scope.

(** include/spead2/send_heap.h:42-117 item: either an in-place immediate or a
    reference to external bytes. *)
Inductive item :=
| Inline (id value : Z)
| Buffer (id : Z) (allow_immediate : bool) (data : list Z).

Definition item_id (it : item) : Z :=
  match it with Inline id _ => id | Buffer id _ _ => id end.

(** Unsigned 64-bit subtraction. *)
Definition usub (a b : Z) : Z := if b <=? a then a - b else a - b + 2 ^ 64.

(** src/send_packet.cpp:38-42 use_immediate *)
Definition use_immediate (it : item) (max_immediate_size : Z) : bool :=
  match it with
  | Inline _ _ => true
  | Buffer _ allow d => allow && (zlen d <=? max_immediate_size)
  end.

(** Length of the external buffer (only used for [Buffer]). *)
Definition item_len (it : item) : Z :=
  match it with Inline _ _ => 0 | Buffer _ _ d => zlen d end.
Definition item_data (it : item) : list Z :=
  match it with Inline _ _ => [] | Buffer _ _ d => d end.

(** include/spead2/send_packet.h:38-69: the members that stay constant. *)
Record gen_cfg := {
  g_hab : Z;          (* flavour of h *)
  g_items : list item;
  g_repeat : bool;    (* h.get_repeat_pointers() *)
  g_cnt : Z;
  g_mps : Z;          (* max_packet_size, after rounding *)
  g_m : Z;            (* max_item_pointers_per_packet *)
  g_psize : Z;        (* payload_size *)
  g_null : bool       (* need_null_item *)
}.

(** include/spead2/send_packet.h:40 prefix_size *)
Definition prefix_size := 40.

(** src/send_packet.cpp:63-69 the sum over non-immediate items *)
Definition real_payload_size (items : list item) (max_immediate_size : Z) : Z :=
  fold_left (fun acc it => if use_immediate it max_immediate_size then acc else acc + item_len it)
            items 0.

(** src/send_packet.cpp:44-92 constructor; [None] = std::invalid_argument.
    [max_packet_size &= ~7] is [mps - mps mod 8]. *)
Definition gen_ctor (hab : Z) (items : list item) (repeat_pointers : bool) (cnt mps_arg : Z)
  : option gen_cfg :=
  let mps := mps_arg - mps_arg mod 8 in
  let m := usub mps (prefix_size + 8) / 8 in
  if mps <? prefix_size + 2 * 8 then None
  else
    let payload_size := real_payload_size items (hab / 8) in
    let item_packets := zlen items / m + 1 in
    if repeat_pointers && (1 <? item_packets) then None
    else
      let min_payload_size := (item_packets - 1) * 8 + 1 in
      let short := payload_size <? min_payload_size in
      Some {| g_hab := hab; g_items := items; g_repeat := repeat_pointers; g_cnt := cnt;
              g_mps := mps; g_m := m;
              g_psize := if short then min_payload_size else payload_size;
              g_null := short |}.

(** include/spead2/send_packet.h:47-66: the mutable members. *)
Record gen_state := {
  s_nip : Z;      (* next_item_pointer *)
  s_naddr : Z;    (* next_address *)
  s_nitem : Z;    (* next_item *)
  s_nioff : Z;    (* next_item_offset *)
  s_poff : Z      (* payload_offset *)
}.

Definition gen_init : gen_state :=
  {| s_nip := 0; s_naddr := 0; s_nitem := 0; s_nioff := 0; s_poff := 0 |}.

(** src/send_packet.cpp:99-102 *)
Definition has_next_packet (c : gen_cfg) (s : gen_state) : bool := s_poff s <? g_psize c.

(** One generated packet.  [pk_words] are the 64-bit big-endian words written to
    [scratch] in order; [pk_len0] is the length of the first output buffer
    (a prefix of [scratch]); [pk_bufs] are the other output buffers. *)
Record packet := {
  pk_words : list Z;
  pk_len0 : Z;
  pk_bufs : list (list Z);
  pk_asserts : bool
}.

(** The bytes that go on the wire. *)
Definition packet_bytes (p : packet) : list Z :=
  slice (flat_map (be_encode 8) (pk_words p)) 0 (pk_len0 p) ++ concat (pk_bufs p).

(** src/send_packet.cpp:127-133 the header word *)
Definition header_word (max_immediate_size n_item_pointers : Z) : Z :=
  Z.lor (Z.lor (Z.lor (Z.shiftl 21252 48) (Z.shiftl (8 - max_immediate_size) 40))
               (Z.shiftl max_immediate_size 32))
        (n_item_pointers + 4).

(** src/send_packet.cpp:150-167 the item pointer for one item, with the address
    it would have; the result includes the updated address.  For a small buffer
    the encoded word's last [length] bytes are overwritten (memcpy). *)
Definition item_pointer (hab : Z) (it : item) (address : Z) : Z * Z :=
  match it with
  | Inline id v => (encode_immediate hab id v, address)
  | Buffer id allow d =>
      if allow && (zlen d <=? hab / 8)
      then (be_decode (slice (be_encode 8 (encode_immediate hab id 0)) 0 (8 - zlen d) ++ d), address)
      else (encode_address hab id address, address + zlen d)
  end.

(** src/send_packet.cpp:141-172 the item pointer loop: [k] iterations.
    Returns the pointers, the new next_item_pointer and next_address, and
    whether the asserts held. *)
Fixpoint emit_pointers (c : gen_cfg) (k : nat) (nip addr : Z) : option (list Z * Z * Z * bool) :=
  match k with
  | O => Some ([], nip, addr, true)
  | S k' =>
      if nip =? zlen (g_items c) then
        match emit_pointers c k' (nip + 1) addr with
        | None => None
        | Some (ps, nip', addr', ok) =>
            Some (encode_address (g_hab c) NULL_ID addr :: ps, nip', addr', ok && g_null c)
        end
      else
        match nth_error (g_items c) (Z.to_nat nip) with
        | None => None
        | Some it =>
            let (p, addr1) := item_pointer (g_hab c) it addr in
            match emit_pointers c k' (nip + 1) addr1 with
            | None => None
            | Some (ps, nip', addr', ok) => Some (p :: ps, nip', addr', ok)
            end
        end
  end.

(** Result of the payload loop: buffers, padding length, and position. *)
Record filled := {
  f_bufs : list (list Z);
  f_pad : Z;              (* bytes added to out[0] by the padding branch *)
  f_nitem : Z;
  f_nioff : Z;
  f_asserts : bool
}.

(** src/send_packet.cpp:176-209 the payload loop, by recursion over the items
    from [next_item] on ([rest = skipn next_item items]); [nout] is out.size().
    When an item is not exhausted the C++ loop ends, because then
    [send_bytes = packet_payload_length]. *)
Fixpoint fill_payload (c : gen_cfg) (rest : list item) (nitem nioff len nout : Z) : filled :=
  if len <=? 0 then
    {| f_bufs := []; f_pad := 0; f_nitem := nitem; f_nioff := nioff; f_asserts := true |}
  else
    match rest with
    | [] =>
        {| f_bufs := []; f_pad := len; f_nitem := nitem; f_nioff := nioff;
           f_asserts := g_null c && (len <=? 8) && (nout =? 1) |}
    | it :: rest' =>
        if use_immediate it (g_hab c / 8) then fill_payload c rest' (nitem + 1) 0 len nout
        else
          let send := Z.min (usub (item_len it) nioff) len in
          let buf := slice (item_data it) nioff send in
          if nioff + send =? item_len it then
            let f := fill_payload c rest' (nitem + 1) 0 (len - send) (nout + 1) in
            {| f_bufs := buf :: f_bufs f; f_pad := f_pad f; f_nitem := f_nitem f;
               f_nioff := f_nioff f; f_asserts := f_asserts f |}
          else
            {| f_bufs := [buf]; f_pad := 0; f_nitem := nitem; f_nioff := nioff + send;
               f_asserts := true |}
    end.

(** src/send_packet.cpp:104-211 next_packet, when has_next_packet (otherwise the
    output is empty; see [generate]). *)
Definition next_packet (c : gen_cfg) (s : gen_state) : option (packet * gen_state) :=
  let nip0 := if g_repeat c then 0 else s_nip s in
  let addr0 := if g_repeat c then 0 else s_naddr s in
  let hab := g_hab c in
  let n := Z.min (g_m c)
                 (usub (zlen (g_items c) + (if g_null c then 1 else 0)) nip0) in
  let plen := Z.min (g_psize c - s_poff s) (usub (usub (g_mps c) (n * 8)) prefix_size) in
  match emit_pointers c (Z.to_nat n) nip0 addr0 with
  | None => None
  | Some (ps, nip', addr', ok) =>
      let words :=
        header_word (hab / 8) n
        :: encode_immediate hab HEAP_CNT_ID (g_cnt c)
        :: encode_immediate hab HEAP_LENGTH_ID (g_psize c)
        :: encode_immediate hab PAYLOAD_OFFSET_ID (s_poff s)
        :: encode_immediate hab PAYLOAD_LENGTH_ID plen
        :: ps in
      let f := fill_payload c (skipn (Z.to_nat (s_nitem s)) (g_items c))
                            (s_nitem s) (s_nioff s) plen 1 in
      let words' := if 0 <? f_pad f then words ++ [0] else words in
      Some ({| pk_words := words';
               pk_len0 := prefix_size + 8 * n + f_pad f;
               pk_bufs := f_bufs f;
               pk_asserts := (0 <? plen) && ok && f_asserts f |},
            {| s_nip := nip'; s_naddr := addr'; s_nitem := f_nitem f; s_nioff := f_nioff f;
               s_poff := s_poff s + plen |})
  end.

(** Driving the generator: keep calling next_packet while has_next_packet
    (src/send_writer.cpp:106-198 does this), at most [fuel] times.
    Returns the packets and the final state. *)
Fixpoint generate (c : gen_cfg) (fuel : nat) (s : gen_state) : option (list packet * gen_state) :=
  match fuel with
  | O => Some ([], s)
  | S fuel' =>
      if has_next_packet c s then
        match next_packet c s with
        | None => None
        | Some (p, s') =>
            match generate c fuel' s' with
            | None => None
            | Some (ps, s'') => Some (p :: ps, s'')
            end
        end
      else Some ([], s)
  end.
