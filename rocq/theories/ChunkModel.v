(** Model of chunk_window and chunk_stream_state:
    /repo/include/spead2/recv_chunk_stream.h:219-359, :407-411, :423-432, :718-819 and
    /repo/src/recv_chunk_stream.cpp:172-215, :254-286.

    A chunk is known by a handle (an integer standing for its address).  The
    calls of the three callbacks (allocate_chunk, ready_chunk, head_updated) and
    the accesses to chunk memory are logged as events.  [None] stands for a
    failed assert, an access outside a vector, or a null dereference. *)
From Coq Require Import ZArith List Bool.
From Verif Require Import Base ConcBase.
Import ListNotations.
Open Scope Z_scope.

Definition u64 (x : Z) : Z := x mod 2 ^ 64.
Definition u64_max : Z := 2 ^ 64 - 1.

(** recv_chunk_stream.h:222-225 *)
Record window := { w_slots : list (option Z); w_head : Z; w_tail : Z; w_hpos : nat; w_tpos : nat }.

Inductive wev :=
| EAlloc (id : Z) (c : option Z)                          (* allocate_chunk(id) returned c *)
| EReady (c : Z)                                          (* ready_chunk(c) *)
| EHead (h : Z)                                           (* head_updated(h) *)
| EWrite (id : Z) (c : Z) (off len : Z)                   (* a heap placed in chunk id = c writes its payload *)
| EPresent (id : Z) (c : Z) (index : Z)                   (* ... sets a presence flag *)
| EExtra (id : Z) (c : Z).                                (* ... writes its extra data *)

(** recv_chunk_stream.cpp:104 *)
Definition window_new (max : nat) : window := {| w_slots := repeat None max; w_head := 0; w_tail := 0; w_hpos := 0; w_tpos := 0 |}.
Definition w_max (w : window) : nat := length (w_slots w).
(** ++pos, wrapping at the end of the vector (:239-241) *)
Definition next_pos (max p : nat) : nat := if Nat.eqb (S p) max then O else S p.
Definition w_empty (w : window) : bool := w_head w =? w_tail w.

(** :229-242 flush_head(ready) *)
Definition flush_head (w : window) : option (window * list wev) :=
  if w_head w <? w_tail w then
    match nth_error (w_slots w) (w_hpos w) with
    | None => None
    | Some o =>
        Some ({| w_slots := match o with Some _ => upd (w_slots w) (w_hpos w) None | None => w_slots w end;
                 w_head := u64 (w_head w + 1); w_tail := w_tail w; w_hpos := next_pos (w_max w) (w_hpos w); w_tpos := w_tpos w |},
              match o with Some c => [EReady c] | None => [] end)
    end
  else None.
(** :245-250 flush_head(ready, head_updated) *)
Definition flush_head_report (w : window) : option (window * list wev) :=
  match flush_head w with
  | None => None
  | Some (w', e) => Some (w', e ++ [EHead (w_head w')])
  end.
(** The loops on :260-261 and :273-274: flush while the window is not empty and
    the head is before [bound].  [n]: fuel (each round shrinks the window). *)
Fixpoint flush_loop (n : nat) (bound : Z) (w : window) : option (window * list wev) :=
  if negb (w_empty w) && (w_head w <? bound) then
    match n with
    | O => None
    | S n' => match flush_head w with
              | None => None
              | Some (w1, e1) => match flush_loop n' bound w1 with None => None | Some (w2, e2) => Some (w2, e1 ++ e2) end
              end
    end
  else Some (w, []).
Definition set_range (w : window) (h : Z) : window :=
  {| w_slots := w_slots w; w_head := h; w_tail := h; w_hpos := w_hpos w; w_tpos := w_tpos w |}.
(** :256-265 flush_all.  (Its loop has no bound on the head: [2 ^ 64].) *)
Definition flush_all (w : window) (next : Z) : option (window * list wev) :=
  match flush_loop (w_max w) (2 ^ 64) w with
  | None => None
  | Some (w1, e) => Some (set_range w1 next, e ++ if next =? w_head w then [] else [EHead next])
  end.
(** :268-279 flush_until *)
Definition flush_until (w : window) (target : Z) : option (window * list wev) :=
  if w_head w <? target then
    match flush_loop (w_max w) target w with
    | None => None
    | Some (w1, e) => Some (if w_head w1 <? target then set_range w1 target else w1, e ++ [EHead target])
    end
  else Some (w, []).

(** Position of a chunk in the storage (:292-295, :347-349) *)
Definition chunk_pos (w : window) (id : Z) : nat :=
  let pos := Z.to_nat (u64 (id - w_head w + Z.of_nat (w_hpos w))) in
  if Nat.leb (w_max w) pos then (pos - w_max w)%nat else pos.
(** :288-300 get_chunk(chunk_id) const; outer [None]: out of bounds. *)
Definition get_const (w : window) (id : Z) : option (option Z) :=
  if (w_head w <=? id) && (id <? w_tail w) then nth_error (w_slots w) (chunk_pos w id) else Some None.

(** The pieces of get_chunk(chunk_id, ...) (:310-354): *)
(** - :322-330 jump ahead *)
Definition gc_jump (w : window) (id : Z) : option (window * list wev) :=
  if (w_tail w <=? id) && (Z.of_nat (w_max w) <=? u64 (id - w_tail w))
  then flush_all w (u64 (id - (Z.of_nat (w_max w) - 1))) else Some (w, []).
(** - :333-334 make room *)
Definition gc_room (w : window) : option (window * list wev) :=
  if u64 (w_tail w - w_head w) =? Z.of_nat (w_max w) then flush_head_report w else Some (w, []).
(** - :335-344 store the chunk that was allocated (the chunk_id and stream_id
      fields of the chunk are not modelled) *)
Definition gc_store (w : window) (o : option Z) : option window :=
  if Nat.ltb (w_tpos w) (w_max w) then
    Some {| w_slots := upd (w_slots w) (w_tpos w) o; w_head := w_head w; w_tail := u64 (w_tail w + 1);
            w_hpos := w_hpos w; w_tpos := next_pos (w_max w) (w_tpos w) |}
  else None.
(** - :331-345 the loop; [alloc id] is what allocate_chunk returns for [id]
      (it is called at most once per id) *)
Fixpoint gc_loop (n : nat) (w : window) (id : Z) (alloc : Z -> option Z) : option (window * list wev) :=
  if w_tail w <=? id then
    match n with
    | O => None
    | S n' =>
        match gc_room w with
        | None => None
        | Some (w1, e1) =>
            match gc_store w1 (alloc (w_tail w1)) with
            | None => None
            | Some w2 =>
                match gc_loop n' w2 id alloc with
                | None => None
                | Some (w3, e3) => Some (w3, e1 ++ EAlloc (w_tail w1) (alloc (w_tail w1)) :: e3)
                end
            end
        end
    end
  else Some (w, []).
(** :310-354 *)
Definition get_chunk (w : window) (id : Z) (alloc : Z -> option Z) : option (window * list wev * option Z) :=
  if (0 <=? id) && (id <? 2 ^ 63) then                           (* the assert on :316 *)
    if w_head w <=? id then
      match gc_jump w id with
      | None => None
      | Some (w1, e1) =>
          match gc_loop (w_max w) w1 id alloc with
          | None => None
          | Some (w2, e2) =>
              match nth_error (w_slots w2) (chunk_pos w2 id) with
              | None => None
              | Some o => Some (w2, e1 ++ e2, o)
              end
          end
      end
    else Some (w, [], None)
  else None.

(** ** A chunk stream *)
(** heap_metadata (:423-432) *)
Record meta := { md_chunk_id : Z; md_index : Z; md_offset : Z; md_chunk : option Z }.
(** What the place function put into chunk_place_data. *)
Record placement := { pl_chunk_id : Z; pl_index : Z; pl_offset : Z; pl_extra_size : Z }.
(** [cs_heaps]: the metadata of every heap ever placed, in order (each lives as
    the deleter of its heap's payload pointer).  [cs_divide]: the packet
    presence payload size, 0 if disabled. *)
Record cstream := { cs_win : window; cs_heaps : list meta; cs_too_old : Z; cs_rejected : Z; cs_divide : Z }.
Definition cstream_new (max : nat) (divide : Z) : cstream :=
  {| cs_win := window_new max; cs_heaps := []; cs_too_old := 0; cs_rejected := 0; cs_divide := divide |}.

(** :407-411 chunk_too_old *)
Definition chunk_too_old (w : window) (id : Z) : bool := (id <? 0) || (id <? w_head w).

Definition no_meta : meta := {| md_chunk_id := -1; md_index := 0; md_offset := 0; md_chunk := None |}.
(** :728-819 allocate, from the call of the place function.  The extraction of
    the items for the place function (:735-757) and the bounds of the extra area
    (asserts on :805-806) are not modelled. *)
Definition cs_place (s : cstream) (p : placement) (alloc : Z -> option Z) : option (cstream * list wev) :=
  let id := pl_chunk_id p in
  if chunk_too_old (cs_win s) id then
    Some ({| cs_win := cs_win s; cs_heaps := cs_heaps s ++ [no_meta];
             cs_too_old := if 0 <=? id then u64 (cs_too_old s + 1) else cs_too_old s;
             cs_rejected := if 0 <=? id then cs_rejected s else u64 (cs_rejected s + 1); cs_divide := cs_divide s |}, [])
  else
    match get_chunk (cs_win s) id alloc with
    | None => None
    | Some (w, e, o) =>
        let m := match o with
                 | Some c => {| md_chunk_id := id; md_index := pl_index p; md_offset := pl_offset p; md_chunk := Some c |}
                 | None => no_meta
                 end in
        Some ({| cs_win := w; cs_heaps := cs_heaps s ++ [m]; cs_too_old := cs_too_old s; cs_rejected := cs_rejected s; cs_divide := cs_divide s |},
              e ++ match o with Some c => if 0 <? pl_extra_size p then [EExtra id c] else [] | None => [] end)
    end.
(** recv_chunk_stream.cpp:172-192 packet_memcpy for a packet with the given
    payload offset and length.  A heap whose chunk pointer is null has the
    address of a one-byte dummy as its payload pointer: copying to it is [None]
    too. *)
Definition cs_memcpy (s : cstream) (i : nat) (off len : Z) : option (cstream * list wev) :=
  match nth_error (cs_heaps s) i with
  | None => None
  | Some m =>
      if chunk_too_old (cs_win s) (md_chunk_id m) then Some (s, [])
      else match md_chunk m with
           | None => None
           | Some c => Some (s, EWrite (md_chunk_id m) c (md_offset m + off) len ::
                                if cs_divide s =? 0 then [] else [EPresent (md_chunk_id m) c (md_index m + off / cs_divide s)])
           end
  end.
(** :194-215 do_heap_ready *)
Definition cs_heap_ready (s : cstream) (i : nat) (complete : bool) : option (cstream * list wev) :=
  match nth_error (cs_heaps s) i with
  | None => None
  | Some m =>
      match complete, md_chunk m with
      | true, Some c =>
          if chunk_too_old (cs_win s) (md_chunk_id m)
          then Some ({| cs_win := cs_win s; cs_heaps := cs_heaps s; cs_too_old := u64 (cs_too_old s + 1); cs_rejected := cs_rejected s;
                        cs_divide := cs_divide s |}, [])
          else if cs_divide s =? 0 then Some (s, [EPresent (md_chunk_id m) c (md_index m)]) else Some (s, [])
      | _, _ => Some (s, [])
      end
  end.
(** :718-726 flush_chunks (called by stop and stop_received, recv_chunk_stream.cpp:268-281) *)
Definition cs_flush (s : cstream) : option (cstream * list wev) :=
  match flush_all (cs_win s) u64_max with
  | None => None
  | Some (w, e) => Some ({| cs_win := w; cs_heaps := cs_heaps s; cs_too_old := cs_too_old s; cs_rejected := cs_rejected s; cs_divide := cs_divide s |}, e)
  end.

Inductive cop :=
| CPlace (p : placement) (alloc : Z -> option Z)    (* first payload of a heap: the stream asks for memory *)
| CMemcpy (i : nat) (off len : Z)                   (* a packet of heap i is copied *)
| CHeapReady (i : nat) (complete : bool)            (* heap i leaves the stream *)
| CFlush.                                           (* stop, or end of stream *)
Definition cs_op (s : cstream) (o : cop) : option (cstream * list wev) :=
  match o with
  | CPlace p alloc => cs_place s p alloc
  | CMemcpy i off len => cs_memcpy s i off len
  | CHeapReady i complete => cs_heap_ready s i complete
  | CFlush => cs_flush s
  end.
Fixpoint cs_run (s : cstream) (l : list cop) : option (cstream * list wev) :=
  match l with
  | [] => Some (s, [])
  | o :: l' => match cs_op s o with
               | None => None
               | Some (s1, e1) => match cs_run s1 l' with None => None | Some (s2, e2) => Some (s2, e1 ++ e2) end
               end
  end.

(** Sequences of operations on a bare window. *)
Inductive wop := WGet (id : Z) (alloc : Z -> option Z) | WFlushUntil (t : Z) | WFlushAll.
Definition w_op (w : window) (o : wop) : option (window * list wev) :=
  match o with
  | WGet id alloc => match get_chunk w id alloc with None => None | Some (w', e, _) => Some (w', e) end
  | WFlushUntil t => flush_until w t
  | WFlushAll => flush_all w u64_max
  end.
Fixpoint w_run (w : window) (l : list wop) : option (window * list wev) :=
  match l with
  | [] => Some (w, [])
  | o :: l' => match w_op w o with
               | None => None
               | Some (w1, e1) => match w_run w1 l' with None => None | Some (w2, e2) => Some (w2, e1 ++ e2) end
               end
  end.
