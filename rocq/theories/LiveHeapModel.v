(** Model of heap reassembly: /repo/src/recv_live_heap.cpp and
    /repo/include/spead2/recv_live_heap.h. *)
From Coq Require Import ZArith List Bool.
From Verif Require Import Base CodecModel RecvPacketModel.
Import ListNotations.
Open Scope Z_scope.

(** A decoded packet as seen by live_heap: the packet_header together with the
    item pointers and payload bytes it points to.  [pk_hlen] is -1 if the
    packet has no heap length. *)
Record rpkt := {
  rp_hab : Z;
  rp_cnt : Z;
  rp_hlen : Z;
  rp_off : Z;
  rp_plen : Z;
  rp_ptrs : list Z;
  rp_payload : list Z
}.

(** The view of a packet_header into the bytes it was decoded from. *)
Definition rpkt_of (data : list Z) (h : packet_header) : rpkt :=
  {| rp_hab := ph_hab h; rp_cnt := ph_heap_cnt h; rp_hlen := ph_heap_length h;
     rp_off := ph_payload_offset h; rp_plen := ph_payload_length h;
     rp_ptrs := header_pointers data h; rp_payload := header_payload data h |}.

(** Memory obtained from the allocator; [None] is an uninitialised byte. *)
Definition memory := list (option Z).

(** memcpy(dst + off, src, |src|); [None] when it is not entirely inside dst. *)
Definition mem_write (mem : memory) (off : Z) (src : memory) : option memory :=
  if (0 <=? off) && (off + zlen src <=? zlen mem)
  then Some (slice mem 0 off ++ src ++ slice mem (off + zlen src) (zlen mem - (off + zlen src)))
  else None.

Definition max_inline_pointers := 8.

(** include/spead2/recv_live_heap.h:72-160 the members of live_heap.  A null
    payload pointer is the empty memory; std::map is a list of (key, value)
    sorted by key; std::set is a list used only for membership. *)
Record live_heap := {
  lh_cnt : Z;
  lh_hab : Z;                  (* decoder *)
  lh_hlen : Z;                 (* heap_length *)
  lh_recv : Z;                 (* received_length *)
  lh_min : Z;                  (* min_length *)
  lh_eos : bool;               (* end_of_stream *)
  lh_ninline : Z;              (* n_inline_pointers *)
  lh_inline : list Z;          (* inline_pointers, always 8 elements *)
  lh_ext : list Z;             (* external_pointers *)
  lh_seen : list Z;            (* seen_pointers *)
  lh_mem : memory;             (* payload *)
  lh_reserved : Z;             (* payload_reserved *)
  lh_ranges : list (Z * Z)     (* payload_ranges *)
}.

(** src/recv_live_heap.cpp:35-42 constructor.  The content of the inline array
    is unspecified in C++; zero here. *)
Definition live_heap_new (p : rpkt) : live_heap :=
  {| lh_cnt := rp_cnt p; lh_hab := rp_hab p; lh_hlen := -1; lh_recv := 0; lh_min := 0;
     lh_eos := false; lh_ninline := 0; lh_inline := repeat 0 8; lh_ext := []; lh_seen := [];
     lh_mem := []; lh_reserved := 0; lh_ranges := [] |}.

(** src/recv_live_heap.cpp:44-60 payload_reserve: the new memory and
    payload_reserved; [None] if the copy of the old payload is out of bounds.
    The allocator (default: recv memory_allocator) returns [size] bytes of
    uninitialised memory; allocators returning null are not modelled. *)
Definition payload_reserve (mem : memory) (reserved size : Z) (exact : bool) : option (memory * Z) :=
  if reserved <? size then
    let size' := if negb exact && (size <? reserved * 2) then reserved * 2 else size in
    let new := repeat (@None Z) (Z.to_nat size') in
    match mem_write new 0 (slice mem 0 reserved) with
    | None => None
    | Some m => Some (m, size')
    end
  else Some (mem, reserved).

(** std::map::upper_bound: the elements with key <= k (in reverse order, so
    std::prev is the head) and the rest. *)
Fixpoint upper_bound (m : list (Z * Z)) (k : Z) (before : list (Z * Z)) : list (Z * Z) * list (Z * Z) :=
  match m with
  | [] => (before, [])
  | r :: m' => if fst r <=? k then upper_bound m' k (r :: before) else (before, m)
  end.

(** src/recv_live_heap.cpp:93-97: extend the new range into its successor. *)
Definition join_next (r : Z * Z) (after : list (Z * Z)) : list (Z * Z) :=
  match after with
  | n :: rest => if fst n =? snd r then (fst r, snd n) :: rest else r :: after
  | [] => [r]
  end.

(** src/recv_live_heap.cpp:62-99 add_payload_range; [None] = return false. *)
Definition add_payload_range (m : list (Z * Z)) (first last : Z) : option (list (Z * Z)) :=
  let (before, after) := upper_bound m first [] in
  if match after with n :: _ => fst n <? last | [] => false end then None
  else
    match before with
    | [] => Some (join_next (first, last) after)
    | prev :: before' =>
        if snd prev <? first then Some (rev_append before (join_next (first, last) after))
        else if snd prev =? first then Some (rev_append before' (join_next (fst prev, last) after))
        else None
    end.

(** The part of the state add_pointers works on. *)
Record pstore := {
  ps_min : Z;
  ps_eos : bool;
  ps_ninline : Z;
  ps_inline : list Z;
  ps_ext : list Z;
  ps_seen : list Z
}.

Fixpoint set_nth {A} (l : list A) (n : nat) (x : A) : list A :=
  match l, n with
  | [], _ => []
  | _ :: l', O => x :: l'
  | y :: l', S n' => y :: set_nth l' n' x
  end.

Definition mem_z (p : Z) (l : list Z) : bool := existsb (Z.eqb p) l.

(** src/recv_live_heap.cpp:124-137: store a pointer that was not seen.
    [None]: write outside inline_pointers. *)
Definition store_pointer (s : pstore) (p : Z) : option pstore :=
  let s1 :=
    if ps_ninline s =? max_inline_pointers then
      let inl := slice (ps_inline s) 0 (ps_ninline s) in
      {| ps_min := ps_min s; ps_eos := ps_eos s; ps_ninline := -1; ps_inline := ps_inline s;
         ps_ext := ps_ext s ++ inl; ps_seen := ps_seen s ++ inl |}
    else s in
  if 0 <=? ps_ninline s1 then
    if ps_ninline s1 <? max_inline_pointers then
      Some {| ps_min := ps_min s1; ps_eos := ps_eos s1; ps_ninline := ps_ninline s1 + 1;
              ps_inline := set_nth (ps_inline s1) (Z.to_nat (ps_ninline s1)) p;
              ps_ext := ps_ext s1; ps_seen := ps_seen s1 |}
    else None
  else
    Some {| ps_min := ps_min s1; ps_eos := ps_eos s1; ps_ninline := ps_ninline s1;
            ps_inline := ps_inline s1; ps_ext := ps_ext s1 ++ [p]; ps_seen := p :: ps_seen s1 |}.

(** src/recv_live_heap.cpp:105-147 one iteration of add_pointers *)
Definition add_pointer (hab : Z) (s : pstore) (p : Z) : option pstore :=
  let s0 := {| ps_min := if is_immediate p then ps_min s else Z.max (ps_min s) (get_address hab p);
               ps_eos := ps_eos s; ps_ninline := ps_ninline s; ps_inline := ps_inline s;
               ps_ext := ps_ext s; ps_seen := ps_seen s |} in
  let id := get_id hab p in
  if (id =? 0) || (PAYLOAD_LENGTH_ID <? id) then
    let seen := if 0 <=? ps_ninline s0
                then mem_z p (slice (ps_inline s0) 0 (ps_ninline s0))
                else mem_z p (ps_seen s0) in
    if seen then Some s0
    else
      match store_pointer s0 p with
      | None => None
      | Some s1 =>
          if (id =? STREAM_CTRL_ID) && is_immediate p && (get_immediate hab p =? CTRL_STREAM_STOP)
          then Some {| ps_min := ps_min s1; ps_eos := true; ps_ninline := ps_ninline s1;
                       ps_inline := ps_inline s1; ps_ext := ps_ext s1; ps_seen := ps_seen s1 |}
          else Some s1
      end
  else Some s0.

(** src/recv_live_heap.cpp:101-149 add_pointers *)
Fixpoint add_pointers (hab : Z) (s : pstore) (ptrs : list Z) : option pstore :=
  match ptrs with
  | [] => Some s
  | p :: rest =>
      match add_pointer hab s p with
      | None => None
      | Some s' => add_pointers hab s' rest
      end
  end.

(** Result of add_packet. *)
Inductive add_result :=
| Fault                         (* memory access outside an allocation *)
| Rejected
| Added (h : live_heap).

(** src/recv_live_heap.cpp:166-182 the initial checks *)
Definition inconsistent (h : live_heap) (p : rpkt) : bool :=
  ((0 <=? lh_hlen h) && (0 <=? rp_hlen p) && negb (rp_hlen p =? lh_hlen h))
  || ((0 <=? rp_hlen p) && (rp_hlen p <? lh_min h))
  || negb (rp_hab p =? lh_hab h).

(** src/recv_live_heap.cpp:185-205: is the packet new, and the new ranges *)
Definition new_packet (h : live_heap) (p : rpkt) (allow_out_of_order : bool) : option (list (Z * Z)) :=
  if allow_out_of_order then add_payload_range (lh_ranges h) (rp_off p) (rp_off p + rp_plen p)
  else if rp_off p =? lh_recv h then Some (lh_ranges h) else None.

(** src/recv_live_heap.cpp:211-224: heap_length, min_length, memory, reserved *)
Definition reserve_for (h : live_heap) (p : rpkt) : option (Z * Z * memory * Z) :=
  if 0 <=? rp_hlen p then
    if lh_hlen h <? 0 then
      let m := Z.max (lh_min h) (rp_hlen p) in
      match payload_reserve (lh_mem h) (lh_reserved h) m true with
      | None => None
      | Some (mem, res) => Some (rp_hlen p, m, mem, res)
      end
    else Some (lh_hlen h, lh_min h, lh_mem h, lh_reserved h)
  else
    let m := Z.max (lh_min h) (rp_off p + rp_plen p) in
    match payload_reserve (lh_mem h) (lh_reserved h) m false with
    | None => None
    | Some (mem, res) => Some (lh_hlen h, m, mem, res)
    end.

(** src/recv_live_heap.cpp:151-233 add_packet, with the default packet_memcpy
    (src/recv_stream.cpp:244-247: memcpy to payload + payload_offset). *)
Definition add_packet (h : live_heap) (p : rpkt) (allow_out_of_order : bool) : add_result :=
  if inconsistent h p then Rejected
  else
    match new_packet h p allow_out_of_order with
    | None => Rejected
    | Some ranges =>
        match reserve_for h p with
        | None => Fault
        | Some (hlen, minl, mem, res) =>
            match add_pointers (lh_hab h)
                    {| ps_min := minl; ps_eos := lh_eos h; ps_ninline := lh_ninline h;
                       ps_inline := lh_inline h; ps_ext := lh_ext h; ps_seen := lh_seen h |}
                    (rp_ptrs p) with
            | None => Fault
            | Some s =>
                let result mem' recv' :=
                  Added {| lh_cnt := lh_cnt h; lh_hab := lh_hab h; lh_hlen := hlen;
                           lh_recv := recv'; lh_min := ps_min s; lh_eos := ps_eos s;
                           lh_ninline := ps_ninline s; lh_inline := ps_inline s;
                           lh_ext := ps_ext s; lh_seen := ps_seen s;
                           lh_mem := mem'; lh_reserved := res; lh_ranges := ranges |} in
                if 0 <? rp_plen p then
                  match mem_write mem (rp_off p) (map Some (rp_payload p)) with
                  | None => Fault
                  | Some mem' => result mem' (lh_recv h + rp_plen p)
                  end
                else result mem (lh_recv h)
            end
        end
    end.

(** src/recv_live_heap.cpp:235-247 *)
Definition is_complete (h : live_heap) : bool :=
  (lh_recv h =? lh_hlen h) && (lh_recv h =? lh_min h).
Definition is_contiguous (h : live_heap) : bool := lh_recv h =? lh_min h.

(** src/recv_live_heap.cpp:264-278 [pointers_begin, pointers_end) *)
Definition lh_pointers (h : live_heap) : list Z :=
  if 0 <=? lh_ninline h then slice (lh_inline h) 0 (lh_ninline h) else lh_ext h.

(** Feeding a sequence of packets to a heap: the final heap and which packets
    were added; [None] if any of them faulted. *)
Fixpoint add_packets (h : live_heap) (ooo : bool) (pkts : list rpkt) : option (live_heap * list bool) :=
  match pkts with
  | [] => Some (h, [])
  | p :: rest =>
      match add_packet h p ooo with
      | Fault => None
      | Rejected =>
          match add_packets h ooo rest with
          | None => None
          | Some (h', bs) => Some (h', false :: bs)
          end
      | Added h1 =>
          match add_packets h1 ooo rest with
          | None => None
          | Some (h', bs) => Some (h', true :: bs)
          end
      end
  end.
