(** Model of frozen heaps: /repo/src/recv_heap.cpp and
    /repo/include/spead2/recv_heap.h. *)
From Coq Require Import ZArith List Bool.
From Verif Require Import Base CodecModel RecvPacketModel LiveHeapModel.
Import ListNotations.
Open Scope Z_scope.

(** include/spead2/recv_heap.h:41-53 item.  The pointer is kept as an offset
    into the immediate storage ([ri_imm]) or into the payload. *)
Record ritem := {
  ri_id : Z;
  ri_imm : bool;
  ri_start : Z;
  ri_len : Z;
  ri_value : Z       (* immediate_value; 0 when not immediate *)
}.

(** include/spead2/recv_heap.h:57-90 heap_base.  The choice between inline and
    allocated immediate storage only shows in its size; moves of heap_base
    (src/recv_heap.cpp:52-83), which copy or keep that storage, are not
    modelled. *)
Record frozen := {
  fr_cnt : Z;
  fr_hab : Z;
  fr_items : list ritem;
  fr_immediates : memory;
  fr_payload : memory
}.

(** include/spead2/recv_heap.h:76 *)
Definition inline_immediates := 24.

(** src/recv_heap.cpp:102-106 the sort key: address (or immediate value) and
    the immediate flag. *)
Definition sort_mask (hab : Z) : Z := Z.lor immediate_mask (Z.shiftl 1 hab - 1).
Definition sort_key (hab p : Z) : Z := Z.land p (sort_mask hab).

(** std::stable_sort: insertion sort that puts an element before the first one
    that is not smaller, from the right, hence stable. *)
Fixpoint insert_by (key : Z -> Z) (x : Z) (l : list Z) : list Z :=
  match l with
  | [] => [x]
  | y :: l' => if key x <=? key y then x :: l else y :: insert_by key x l'
  end.
Definition stable_sort (key : Z -> Z) (l : list Z) : list Z := fold_right (insert_by key) [] l.

(** State of the loop at src/recv_heap.cpp:133-175: items so far (in reverse
    order), the immediate storage and next_immediate as an offset. *)
Record load_state := {
  ld_items : list ritem;
  ld_imm : memory;
  ld_next : Z
}.

(** src/recv_heap.cpp:135-174 the loop body for one pointer and its successor
    (if any).  [None]: out-of-bounds write to the immediate storage. *)
Definition load_step (hab minl : Z) (keep_addressed : bool) (p : Z) (succ : option Z) (s : load_state)
  : option load_state :=
  let isz := hab / 8 in
  let id := get_id hab p in
  if id =? 0 then Some s
  else if is_immediate p then
    match mem_write (ld_imm s) (ld_next s) (map Some (slice (be_encode 8 p) (8 - isz) isz)) with
    | None => None
    | Some imm =>
        Some {| ld_items := {| ri_id := id; ri_imm := true; ri_start := ld_next s; ri_len := isz;
                               ri_value := get_immediate hab p |} :: ld_items s;
                ld_imm := imm; ld_next := ld_next s + isz |}
    end
  else if negb keep_addressed then Some s
  else
    let start := get_address hab p in
    let stop := match succ with
                | Some q => if is_immediate q then minl else get_address hab q
                | None => minl
                end in
    if start =? stop then Some s
    else
      Some {| ld_items := {| ri_id := id; ri_imm := false; ri_start := start; ri_len := stop - start;
                             ri_value := 0 |} :: ld_items s;
              ld_imm := ld_imm s; ld_next := ld_next s |}.

Fixpoint load_loop (hab minl : Z) (keep_addressed : bool) (ptrs : list Z) (s : load_state) : option load_state :=
  match ptrs with
  | [] => Some s
  | p :: rest =>
      match load_step hab minl keep_addressed p (hd_error rest) s with
      | None => None
      | Some s' => load_loop hab minl keep_addressed rest s'
      end
  end.

(** src/recv_heap.cpp:85-181 load *)
Definition load (h : live_heap) (keep_addressed keep_payload : bool) : option frozen :=
  let hab := lh_hab h in
  let ptrs := stable_sort (sort_key hab) (lh_pointers h) in
  let n_immediates := zlen (filter is_immediate ptrs) in
  let need := hab / 8 * n_immediates in
  let size := if inline_immediates <? need then need else inline_immediates in
  match load_loop hab (lh_min h) keep_addressed ptrs
          {| ld_items := []; ld_imm := repeat None (Z.to_nat size); ld_next := 0 |} with
  | None => None
  | Some s =>
      Some {| fr_cnt := lh_cnt h; fr_hab := hab; fr_items := rev (ld_items s);
              fr_immediates := ld_imm s;
              fr_payload := if keep_payload then lh_mem h else [] |}
  end.

(** src/recv_heap.cpp:206-212 heap::heap; the assert is [is_contiguous]. *)
Definition freeze (h : live_heap) : option frozen := load h true true.

(** Bytes of an item: [None] if its region is not inside its storage. *)
Definition ritem_bytes (f : frozen) (it : ritem) : option memory :=
  let mem := if ri_imm it then fr_immediates f else fr_payload f in
  if (0 <=? ri_start it) && (0 <=? ri_len it) && (ri_start it + ri_len it <=? zlen mem)
  then Some (slice mem (ri_start it) (ri_len it)) else None.

(** Reading initialised bytes; [None] if one is uninitialised. *)
Fixpoint all_init (m : memory) : option (list Z) :=
  match m with
  | [] => Some []
  | None :: _ => None
  | Some b :: m' => match all_init m' with None => None | Some l => Some (b :: l) end
  end.
Definition ritem_value (f : frozen) (it : ritem) : option (list Z) :=
  match ritem_bytes f it with None => None | Some m => all_init m end.

(** src/recv_heap.cpp:42-50 load_bytes_be: copies [len] bytes to the end of an
    8-byte local variable.  [None]: the copy starts before the variable (or the
    source is not readable).  [len] is converted from size_t to int; lengths for
    which that changes the value are treated like all others above 8. *)
Definition load_bytes_be (bytes : option (list Z)) : option Z :=
  match bytes with
  | None => None
  | Some l => if zlen l <=? 8 then Some (be_decode l) else None
  end.

(** src/recv_heap.cpp:183-193 is_ctrl_item; [None]: out-of-bounds access *)
Fixpoint ctrl_search (f : frozen) (items : list ritem) (code : Z) : option bool :=
  match items with
  | [] => Some false
  | it :: rest =>
      if ri_id it =? STREAM_CTRL_ID then
        match load_bytes_be (ritem_value f it) with
        | None => None
        | Some v => if v =? code then Some true else ctrl_search f rest code
        end
      else ctrl_search f rest code
  end.
Definition is_ctrl_item (f : frozen) (code : Z) : option bool := ctrl_search f (fr_items f) code.

(** src/recv_heap.cpp:322-337 incomplete_heap: immediates only, and the
    received ranges (synthesised in in-order mode). *)
Record incomplete := {
  ic_frozen : frozen;
  ic_hlen : Z;
  ic_recv : Z;
  ic_ranges : list (Z * Z)
}.
Definition freeze_incomplete (h : live_heap) (keep_payload keep_ranges : bool) : option incomplete :=
  match load h false keep_payload with
  | None => None
  | Some f =>
      Some {| ic_frozen := f; ic_hlen := lh_hlen h; ic_recv := lh_recv h;
              ic_ranges :=
                if keep_ranges then
                  match lh_ranges h with
                  | [] => if 0 <? lh_recv h then [(0, lh_recv h)] else []
                  | r => r
                  end
                else [] |}
  end.
