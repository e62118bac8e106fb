(** Model of the asynchronous sender: the queue of send::stream
    (/repo/include/spead2/send_stream.h:292-401, /repo/src/send_stream.cpp:34-156)
    and the part of send::writer that takes packets from it and completes groups
    (/repo/src/send_writer.cpp:106-265, :285-306).

    Queue indices are std::size_t and wrap modulo 2^64.  A queue slot is raw
    storage: [None] when no queue_item is constructed in it; accessing or
    destroying such a slot is a [Fault], and so is constructing over a live item.

    User threads and the writer are interleaved; a step is a critical section of
    tail_mutex or head_mutex, one heap of a request, or one call of the
    transport.  The transport (udp, tcp, streambuf, inproc writers) is
    represented by its use of the writer's interface: it takes packets, has
    written them in order with any outcome, completes groups whose last packet
    has been written, and finally either posts itself or, when get_packet has
    returned EMPTY and nothing is in flight, requests a wakeup
    (send_udp.cpp:124-324, send_tcp.cpp:106-134, send_streambuf.cpp:48-91,
    send_inproc.cpp:65-95).  The ibverbs writer is not covered.

    Simplified: a packet_generator is the list of the packets it will produce
    (C04-C06 are about it); rates do not appear, as rate limiting only delays
    (a get_packet that returns SLEEP changes nothing here and sleep() posts a
    wakeup for later; C46). *)
From Coq Require Import ZArith List Bool.
From Verif Require Import Base ConcBase.
Import ListNotations.
Open Scope Z_scope.

Definition w64 (x : Z) : Z := x mod 2 ^ 64.

Record pkt := { p_id : Z; p_size : Z }.
(** A heap_reference (send_stream.h:67-83): the heap's packets, its flavour's
    heap address bits, cnt (negative: automatic) and substream. *)
Record heap_ref := { h_pkts : list pkt; h_hab : Z; h_cnt : Z; h_sub : Z }.
Inductive gmode := RoundRobin | Serial.
(** A request: [rq_id] names its completion handler; [rq_single]: made through
    async_send_heap, so that the null_unwinder is used (send_stream.cpp:128-136). *)
Record request := { rq_id : Z; rq_mode : gmode; rq_single : bool; rq_heaps : list heap_ref }.

(** queue_item, send_stream.h:125-163 *)
Record qitem := {
  q_pkts : list pkt; q_sub : Z; q_end : Z; q_next : Z; q_mode : gmode;
  q_bytes : Z; q_result : Z;            (* 0: no error *)
  q_handler : option Z; q_waiters : list nat }.

(** What callers can pass: flavours have 1 to 63 heap address bits, substream_index
    is a std::size_t and cnt an int64_t; the packet_generator of a heap produces
    at least one packet (SendPacketModel); async_send_heap passes one heap. *)
Definition heap_ok (h : heap_ref) : bool :=
  match h_pkts h with [] => false | _ => true end && (0 <? h_hab h) && (h_hab h <? 64) && (0 <=? h_sub h) && (h_cnt h <? 2 ^ 63).
Definition request_ok (rq : request) : bool :=
  forallb heap_ok (rq_heaps rq) && (negb (rq_single rq) || Nat.eqb (length (rq_heaps rq)) 1).

Definition err_invalid : Z := 22.
Definition err_would_block : Z := 11.

(** send_stream.cpp:44-54, the loop *)
Fixpoint pow2_above (fuel : nat) (size p2 : Z) : Z :=
  match fuel with O => p2 | S f => if p2 <? size then pow2_above f size (2 * p2) else p2 end.
Definition compute_queue_mask (size : Z) : Z := pow2_above 64 size 1 - 1.

Inductive upc :=
| UIdle
| UAdd (rq : request) (todo : list heap_ref) (orig tail head ncnt : Z) (added : list (heap_ref * Z))
    (* inside the loop of async_send_heaps_impl, holding tail_mutex; [added] is for the log *)
| UReject (id err : Z) (orig tail : Z)      (* unlocked, about to post the handler *)
| UUnwind (orig tail : Z)                   (* about to run the destructor of the unwinder *)
| UWake                                     (* about to post a wakeup of the writer *)
| UFlush (signalled : bool).                (* waiting in flush() *)

(** [WRun]: inside wakeup(), or waiting for the transport.
    [WDone n hs ws]: inside groups_completed, with [n] groups to go, handlers
    [hs] to call and promises [ws] to fulfil. *)
Inductive wpc := WIdle | WRun | WDone (n : nat) (hs : list (Z * Z * Z)) (ws : list nat).

Record writer := {
  w_tail : Z; w_active : Z; w_start : Z;
  w_pc : wpc;
  w_empty : bool;                      (* the last get_packet of this wakeup returned EMPTY *)
  w_flight : list (Z * bool);          (* taken, not yet written: index of the item that accumulates, last *)
  w_fin : nat }.                       (* groups written completely, not yet given to groups_completed *)

Record sst := {
  s_size : Z; s_mask : Z; s_nsub : Z;
  s_slots : list (option qitem);
  s_tail : Z; s_head : Z;              (* s_head: also the writer's copy, they are equal between steps *)
  s_next : Z; s_step : Z;
  s_need : bool;
  s_lock : option nat;                 (* holder of tail_mutex *)
  s_posted : nat;                      (* posted wakeups *)
  s_io : list (Z * Z);                 (* posted handlers of rejected requests *)
  s_w : writer;
  s_threads : list upc }.

Inductive sev :=
| EAccept (id : Z) (mode : gmode) (hs : list (heap_ref * Z))    (* with the cnt of each heap *)
| EReject (id err : Z) (added : nat)                            (* with the number of heaps added before *)
| EPacket (p : pkt) (sub : Z) (last : bool)                     (* handed to the transport *)
| EWritten (size err : Z) (last : bool)                         (* by the transport *)
| EDone (id err bytes : Z)                                      (* handler of an accepted request called *)
| EFail (id err : Z)                                            (* handler of a rejected request called *)
| EFlushCall (t : nat)
| EFlushReturn (t : nat) (waited : bool)
| ESetSeq (next step : Z).

Inductive slabel :=
| LSend (t : nat) (rq : request)
| LUser (t : nat)
| LFlush (t : nat)
| LSetSeq (next step : Z)
| LIo (j : nat)
| LStart
| LGet
| LWritten (written err : Z)
| LComplete (n : nat)
| LNext
| LWait
| LPost.
Inductive sres := Blocked | Fault | Ok (s : sst) (e : list sev).

(** stream::stream (send_stream.cpp:77-90), with [n] user threads.  The
    constructor's start() calls request_wakeup, which finds the queue empty. *)
Definition writer_new : writer := {| w_tail := 0; w_active := 0; w_start := 0; w_pc := WIdle; w_empty := true; w_flight := []; w_fin := 0 |}.
Definition stream_new (size nsub : Z) (n : nat) : sst :=
  let mask := compute_queue_mask size in
  {| s_size := size; s_mask := mask; s_nsub := nsub; s_slots := repeat None (Z.to_nat (mask + 1));
     s_tail := 0; s_head := 0; s_next := 1; s_step := 1; s_need := true; s_lock := None; s_posted := 0; s_io := [];
     s_w := writer_new; s_threads := repeat UIdle n |}.

(** *** Storage (send_stream.cpp:34-42) *)
Definition slot_of (mask idx : Z) : nat := Z.to_nat (Z.land idx mask).
Definition get_queue (mask : Z) (sl : list (option qitem)) (idx : Z) : option qitem :=
  match nth_error sl (slot_of mask idx) with Some (Some q) => Some q | _ => None end.
Definition put_queue (mask : Z) (sl : list (option qitem)) (idx : Z) (q : qitem) : list (option qitem) := upd sl (slot_of mask idx) (Some q).
Definition construct (mask : Z) (sl : list (option qitem)) (idx : Z) (q : qitem) : option (list (option qitem)) :=
  match nth_error sl (slot_of mask idx) with Some None => Some (put_queue mask sl idx q) | _ => None end.
Definition destroy (mask : Z) (sl : list (option qitem)) (idx : Z) : option (list (option qitem)) :=
  match nth_error sl (slot_of mask idx) with Some (Some _) => Some (upd sl (slot_of mask idx) None) | _ => None end.

(** send_stream.cpp:66-70 unwinder::abort *)
Fixpoint abort (fuel : nat) (mask : Z) (sl : list (option qitem)) (i tail : Z) : option (list (option qitem)) :=
  if i =? tail then Some sl
  else match fuel with
       | O => None
       | S f => match destroy mask sl i with None => None | Some sl' => abort f mask sl' (w64 (i + 1)) tail end
       end.

(** *** Field updates *)
Definition set_thread (s : sst) (t : nat) (p : upc) : sst :=
  {| s_size := s_size s; s_mask := s_mask s; s_nsub := s_nsub s; s_slots := s_slots s; s_tail := s_tail s; s_head := s_head s;
     s_next := s_next s; s_step := s_step s; s_need := s_need s; s_lock := s_lock s; s_posted := s_posted s; s_io := s_io s;
     s_w := s_w s; s_threads := upd (s_threads s) t p |}.
Definition set_slots (s : sst) (sl : list (option qitem)) : sst :=
  {| s_size := s_size s; s_mask := s_mask s; s_nsub := s_nsub s; s_slots := sl; s_tail := s_tail s; s_head := s_head s;
     s_next := s_next s; s_step := s_step s; s_need := s_need s; s_lock := s_lock s; s_posted := s_posted s; s_io := s_io s;
     s_w := s_w s; s_threads := s_threads s |}.
Definition set_lock (s : sst) (l : option nat) : sst :=
  {| s_size := s_size s; s_mask := s_mask s; s_nsub := s_nsub s; s_slots := s_slots s; s_tail := s_tail s; s_head := s_head s;
     s_next := s_next s; s_step := s_step s; s_need := s_need s; s_lock := l; s_posted := s_posted s; s_io := s_io s;
     s_w := s_w s; s_threads := s_threads s |}.
Definition set_io (s : sst) (io : list (Z * Z)) : sst :=
  {| s_size := s_size s; s_mask := s_mask s; s_nsub := s_nsub s; s_slots := s_slots s; s_tail := s_tail s; s_head := s_head s;
     s_next := s_next s; s_step := s_step s; s_need := s_need s; s_lock := s_lock s; s_posted := s_posted s; s_io := io;
     s_w := s_w s; s_threads := s_threads s |}.
Definition set_posted (s : sst) (n : nat) : sst :=
  {| s_size := s_size s; s_mask := s_mask s; s_nsub := s_nsub s; s_slots := s_slots s; s_tail := s_tail s; s_head := s_head s;
     s_next := s_next s; s_step := s_step s; s_need := s_need s; s_lock := s_lock s; s_posted := n; s_io := s_io s;
     s_w := s_w s; s_threads := s_threads s |}.
Definition set_writer (s : sst) (w : writer) : sst :=
  {| s_size := s_size s; s_mask := s_mask s; s_nsub := s_nsub s; s_slots := s_slots s; s_tail := s_tail s; s_head := s_head s;
     s_next := s_next s; s_step := s_step s; s_need := s_need s; s_lock := s_lock s; s_posted := s_posted s; s_io := s_io s;
     s_w := w; s_threads := s_threads s |}.
Definition set_head (s : sst) (h : Z) : sst :=
  {| s_size := s_size s; s_mask := s_mask s; s_nsub := s_nsub s; s_slots := s_slots s; s_tail := s_tail s; s_head := h;
     s_next := s_next s; s_step := s_step s; s_need := s_need s; s_lock := s_lock s; s_posted := s_posted s; s_io := s_io s;
     s_w := s_w s; s_threads := s_threads s |}.
Definition set_need (s : sst) (b : bool) : sst :=
  {| s_size := s_size s; s_mask := s_mask s; s_nsub := s_nsub s; s_slots := s_slots s; s_tail := s_tail s; s_head := s_head s;
     s_next := s_next s; s_step := s_step s; s_need := b; s_lock := s_lock s; s_posted := s_posted s; s_io := s_io s;
     s_w := s_w s; s_threads := s_threads s |}.
Definition set_seq (s : sst) (next step : Z) : sst :=
  {| s_size := s_size s; s_mask := s_mask s; s_nsub := s_nsub s; s_slots := s_slots s; s_tail := s_tail s; s_head := s_head s;
     s_next := next; s_step := step; s_need := s_need s; s_lock := s_lock s; s_posted := s_posted s; s_io := s_io s;
     s_w := s_w s; s_threads := s_threads s |}.
Definition set_tail (s : sst) (t : Z) : sst :=
  {| s_size := s_size s; s_mask := s_mask s; s_nsub := s_nsub s; s_slots := s_slots s; s_tail := t; s_head := s_head s;
     s_next := s_next s; s_step := s_step s; s_need := s_need s; s_lock := s_lock s; s_posted := s_posted s; s_io := s_io s;
     s_w := s_w s; s_threads := s_threads s |}.
Definition set_wpc (w : writer) (p : wpc) : writer :=
  {| w_tail := w_tail w; w_active := w_active w; w_start := w_start w; w_pc := p; w_empty := w_empty w; w_flight := w_flight w; w_fin := w_fin w |}.
Definition set_links (q : qitem) (e n : Z) : qitem :=
  {| q_pkts := q_pkts q; q_sub := q_sub q; q_end := e; q_next := n; q_mode := q_mode q; q_bytes := q_bytes q; q_result := q_result q;
     q_handler := q_handler q; q_waiters := q_waiters q |}.
Definition set_handler (q : qitem) (id : Z) : qitem :=
  {| q_pkts := q_pkts q; q_sub := q_sub q; q_end := q_end q; q_next := q_next q; q_mode := q_mode q; q_bytes := q_bytes q; q_result := q_result q;
     q_handler := Some id; q_waiters := q_waiters q |}.
Definition set_pkts (q : qitem) (l : list pkt) : qitem :=
  {| q_pkts := l; q_sub := q_sub q; q_end := q_end q; q_next := q_next q; q_mode := q_mode q; q_bytes := q_bytes q; q_result := q_result q;
     q_handler := q_handler q; q_waiters := q_waiters q |}.
Definition add_waiter (q : qitem) (t : nat) : qitem :=
  {| q_pkts := q_pkts q; q_sub := q_sub q; q_end := q_end q; q_next := q_next q; q_mode := q_mode q; q_bytes := q_bytes q; q_result := q_result q;
     q_handler := q_handler q; q_waiters := t :: q_waiters q |}.
Definition account (q : qitem) (written err : Z) : qitem :=
  {| q_pkts := q_pkts q; q_sub := q_sub q; q_end := q_end q; q_next := q_next q; q_mode := q_mode q; q_bytes := w64 (q_bytes q + written);
     q_result := if q_result q =? 0 then err else q_result q; q_handler := q_handler q; q_waiters := q_waiters q |}.

(** *** User threads *)
(** queue_item's constructor, send_stream.h:152-162, as called on :356-359 *)
Definition new_item (mode : gmode) (h : heap_ref) (tail : Z) : qitem :=
  {| q_pkts := h_pkts h; q_sub := h_sub h; q_end := w64 (tail + 1); q_next := tail; q_mode := mode; q_bytes := 0; q_result := 0;
     q_handler := None; q_waiters := [] |}.

(** send_stream.h:366-385, the repair of the links; [i] runs up to [tail] *)
Fixpoint relink (fuel : nat) (mask : Z) (sl : list (option qitem)) (mode : gmode) (orig i tail : Z) : option (list (option qitem)) :=
  if i =? tail then Some sl
  else match fuel with
       | O => None
       | S f => match get_queue mask sl i with
                | None => None
                | Some q =>
                    let next := if w64 (i + 1) =? tail then match mode with RoundRobin => orig | Serial => i end else w64 (i + 1) in
                    relink f mask (put_queue mask sl i (set_links q tail next)) mode orig (w64 (i + 1)) tail
                end
       end.

(** One heap of a request: send_stream.h:306-362.  [abort] on a rejection is only
    called for some of the causes (:327, :337 but not :349), and only does
    something for groups.  After it the lock is released. *)
Definition user_add (s : sst) (t : nat) (rq : request) (h : heap_ref) (todo : list heap_ref) (orig tail head ncnt : Z) (added : list (heap_ref * Z)) : sres :=
  let reject err aborting :=
    let sl := if aborting && negb (rq_single rq) then abort (length (rq_heaps rq)) (s_mask s) (s_slots s) orig tail else Some (s_slots s) in
    match sl with
    | None => Fault
    | Some sl' => Ok (set_thread (set_lock (set_slots s sl') None) t
                        (if rq_single rq then UReject (rq_id rq) err tail tail else UReject (rq_id rq) err orig tail))
                     [EReject (rq_id rq) err (length added)]
    end in
  let cnt_mask := 2 ^ h_hab h - 1 in
  if s_nsub s <=? h_sub h then reject err_invalid true
  else if w64 (tail - head) =? s_size s then reject err_would_block true
  else
    let auto := h_cnt h <? 0 in
    let cnt := if auto then Z.land ncnt cnt_mask else h_cnt h in
    let ncnt' := if auto then w64 (ncnt + s_step s) else ncnt in
    if negb auto && (cnt_mask <? h_cnt h) then reject err_invalid false
    else match construct (s_mask s) (s_slots s) tail (new_item (rq_mode rq) h tail) with
         | None => Fault
         | Some sl => Ok (set_thread (set_slots s sl) t (UAdd rq todo orig (w64 (tail + 1)) head ncnt' (added ++ [(h, cnt)]))) []
         end.

(** send_stream.h:364-394 *)
Definition user_commit (s : sst) (t : nat) (rq : request) (orig tail ncnt : Z) (added : list (heap_ref * Z)) : sres :=
  match get_queue (s_mask s) (s_slots s) orig with
  | None => Fault
  | Some q =>
      let sl1 := put_queue (s_mask s) (s_slots s) orig (set_handler q (rq_id rq)) in
      match (if tail =? w64 (orig + 1) then Some sl1 else relink (length (rq_heaps rq)) (s_mask s) sl1 (rq_mode rq) orig orig tail) with
      | None => Fault
      | Some sl2 =>
          let s1 := set_tail (set_seq (set_slots s sl2) ncnt (s_step s)) tail in
          Ok (set_thread (set_lock (set_need s1 false) None) t (if s_need s then UWake else UIdle)) [EAccept (rq_id rq) (rq_mode rq) added]
      end
  end.

Definition user_step (s : sst) (t : nat) : sres :=
  match nth_error (s_threads s) t with
  | None => Blocked
  | Some p =>
      match p with
      | UIdle => Blocked
      | UAdd rq [] orig tail head ncnt added => user_commit s t rq orig tail ncnt added
      | UAdd rq (h :: todo) orig tail head ncnt added => user_add s t rq h todo orig tail head ncnt added
      | UReject id err orig tail => Ok (set_thread (set_io s (s_io s ++ [(id, err)])) t (UUnwind orig tail)) []
      | UUnwind orig tail =>                                   (* ~unwinder, send_stream.h:278 *)
          match abort (length (s_slots s)) (s_mask s) (s_slots s) orig tail with
          | None => Fault
          | Some sl => Ok (set_thread (set_slots s sl) t UIdle) []
          end
      | UWake => Ok (set_thread (set_posted s (S (s_posted s))) t UIdle) []     (* :395-400 *)
      | UFlush b => if b then Ok (set_thread s t UIdle) [EFlushReturn t true] else Blocked
      end
  end.

(** *** Writer *)
(** Search of get_packet in round-robin mode, send_writer.cpp:154-170.
    [Some None]: the group is exhausted. *)
Fixpoint rr_search (fuel : nat) (mask : Z) (sl : list (option qitem)) (active next : Z) : option (option Z) :=
  match fuel with
  | O => None
  | S f => match get_queue mask sl next with
           | None => None
           | Some q => match q_pkts q with
                       | _ :: _ => Some (Some next)
                       | [] => if next =? active then Some None else rr_search f mask sl active (q_next q)
                       end
           end
  end.
(** The same in serial mode, :177-191. *)
Fixpoint serial_search (fuel : nat) (mask : Z) (sl : list (option qitem)) (gend active : Z) : option (option Z) :=
  match fuel with
  | O => None
  | S f => match get_queue mask sl active with
           | None => None
           | Some q => match q_pkts q with
                       | _ :: _ => Some (Some active)
                       | [] => if w64 (active + 1) =? gend then Some None else serial_search f mask sl gend (w64 (active + 1))
                       end
           end
  end.

(** send_writer.cpp:125-198 *)
Definition get_packet (s : sst) : sres :=
  let w := s_w s in
  let wt := if w_active w =? w_tail w then s_tail s else w_tail w in
  if w_active w =? wt then
    Ok (set_writer s {| w_tail := wt; w_active := w_active w; w_start := w_start w; w_pc := w_pc w; w_empty := true; w_flight := w_flight w; w_fin := w_fin w |}) []
  else
    match get_queue (s_mask s) (s_slots s) (w_active w) with
    | None => Fault
    | Some q =>
        match q_pkts q with
        | [] => Fault                                  (* assert on :138 *)
        | p :: l =>
            match get_queue (s_mask s) (s_slots s) (w_start w) with      (* data.item *)
            | None => Fault
            | Some _ =>
                let sl1 := put_queue (s_mask s) (s_slots s) (w_active w) (set_pkts q l) in
                let found := match q_mode q with
                             | RoundRobin => rr_search (length sl1) (s_mask s) sl1 (w_active w) (q_next q)
                             | Serial => serial_search (length sl1) (s_mask s) sl1 (q_end q) (w_active w)
                             end in
                match found with
                | None => Fault
                | Some None =>
                    Ok (set_writer (set_slots s sl1)
                          {| w_tail := wt; w_active := q_end q; w_start := q_end q; w_pc := w_pc w; w_empty := false;
                             w_flight := w_flight w ++ [(w_start w, true)]; w_fin := w_fin w |})
                       [EPacket p (q_sub q) true]
                | Some (Some next) =>
                    let sl2 := match q_mode q with
                               | RoundRobin => put_queue (s_mask s) sl1 (w_active w) (set_links (set_pkts q l) (q_end q) next)
                               | Serial => sl1
                               end in
                    Ok (set_writer (set_slots s sl2)
                          {| w_tail := wt; w_active := next; w_start := w_start w; w_pc := w_pc w; w_empty := false;
                             w_flight := w_flight w ++ [(w_start w, false)]; w_fin := w_fin w |})
                       [EPacket p (q_sub q) false]
                end
            end
        end
    end.

(** send_writer.cpp:240-250 *)
Fixpoint vacate_rest (fuel : nat) (mask : Z) (sl : list (option qitem)) (head stop : Z) (ws : list nat) : option (list (option qitem) * Z * list nat) :=
  if head =? stop then Some (sl, head, ws)
  else match fuel with
       | O => None
       | S f => match get_queue mask sl head with
                | None => None
                | Some q => match destroy mask sl head with
                            | None => None
                            | Some sl' => vacate_rest f mask sl' (w64 (head + 1)) stop (q_waiters q ++ ws)
                            end
                end
       end.
(** :230-251, [n] groups *)
Fixpoint vacate (n : nat) (mask : Z) (sl : list (option qitem)) (head : Z) (hs : list (Z * Z * Z)) (ws : list nat) :
  option (list (option qitem) * Z * list (Z * Z * Z) * list nat) :=
  match n with
  | O => Some (sl, head, hs, ws)
  | S n' => match get_queue mask sl head with
            | None => None
            | Some q =>
                match q_handler q, destroy mask sl head with
                | Some id, Some sl1 =>
                    match vacate_rest (length sl) mask sl1 (w64 (head + 1)) (q_end q) (q_waiters q ++ ws) with
                    | None => None
                    | Some (sl2, head', ws') => vacate n' mask sl2 head' (hs ++ [(id, q_result q, q_bytes q)]) ws'
                    end
                | _, _ => None                        (* an empty std::function would throw *)
                end
            end
  end.

Definition max_batch : nat := 16.
(** Completion: the locked part of an iteration of groups_completed (:226-255),
    then the handlers one by one (:256-257), then the promises (:258-262). *)
Definition batch_step (s : sst) (n : nat) : sres :=
  let k := Nat.min max_batch n in
  match vacate k (s_mask s) (s_slots s) (s_head s) [] [] with
  | None => Fault
  | Some (sl, head, hs, ws) => Ok (set_writer (set_head (set_slots s sl) head) (set_wpc (s_w s) (WDone (n - k) hs ws))) []
  end.
Definition signal (p : upc) : upc := match p with UFlush _ => UFlush true | _ => p end.
Definition complete_step (s : sst) : sres :=
  match w_pc (s_w s) with
  | WDone n ((id, r, b) :: hs) ws => Ok (set_writer s (set_wpc (s_w s) (WDone n hs ws))) [EDone id r b]
  | WDone n [] (t :: ws) =>
      match nth_error (s_threads s) t with
      | None => Fault
      | Some p => Ok (set_thread (set_writer s (set_wpc (s_w s) (WDone n [] ws))) t (signal p)) []
      end
  | WDone (S n) [] [] => batch_step s (S n)
  | WDone O [] [] => Ok (set_writer s (set_wpc (s_w s) WRun)) []
  | _ => Blocked
  end.

Definition remove_nth {A} (j : nat) (l : list A) : list A := firstn j l ++ skipn (S j) l.
Definition s_step_fn (s : sst) (l : slabel) : sres :=
  match l with
  | LSend t rq =>
      match nth_error (s_threads s) t with
      | Some UIdle =>
          if negb (request_ok rq) then Blocked else
          match rq_heaps rq with
          | [] => Ok (set_io s (s_io s ++ [(rq_id rq, err_invalid)])) [EReject (rq_id rq) err_invalid 0]      (* send_stream.h:534-539 *)
          | _ => match s_lock s with
                 | Some _ => Blocked
                 | None => Ok (set_thread (set_lock s (Some t)) t (UAdd rq (rq_heaps rq) (s_tail s) (s_tail s) (s_head s) (s_next s) [])) []
                 end
          end
      | _ => Blocked
      end
  | LUser t => user_step s t
  | LFlush t =>                                                                   (* send_stream.cpp:138-156 *)
      match nth_error (s_threads s) t, s_lock s with
      | Some UIdle, None =>
          if s_head s =? s_tail s then Ok s [EFlushCall t; EFlushReturn t false]
          else match get_queue (s_mask s) (s_slots s) (w64 (s_tail s - 1)) with
               | None => Fault
               | Some q => Ok (set_thread (set_slots s (put_queue (s_mask s) (s_slots s) (w64 (s_tail s - 1)) (add_waiter q t))) t (UFlush false)) [EFlushCall t]
               end
      | _, _ => Blocked
      end
  | LSetSeq next step =>                                                          (* send_stream.cpp:119-126 *)
      match s_lock s with
      | None => if (step =? 0) || negb ((0 <=? next) && (next <? 2 ^ 64) && (0 <=? step) && (step <? 2 ^ 64)) then Blocked else Ok (set_seq s next step) [ESetSeq next step]
      | Some _ => Blocked
      end
  | LIo j =>
      match nth_error (s_io s) j with
      | None => Blocked
      | Some (id, err) => Ok (set_io s (remove_nth j (s_io s))) [EFail id err]
      end
  | LStart =>                                                                     (* a posted wakeup runs *)
      match s_posted s with
      | O => Blocked
      | S n => match w_pc (s_w s) with
               | WIdle => Ok (set_writer (set_posted s n) {| w_tail := w_tail (s_w s); w_active := w_active (s_w s); w_start := w_start (s_w s); w_pc := WRun;
                                                             w_empty := false; w_flight := w_flight (s_w s); w_fin := w_fin (s_w s) |}) []
               | _ => Fault                            (* two handlers at once *)
               end
      end
  | LGet => match w_pc (s_w s) with WRun => get_packet s | _ => Blocked end
  | LWritten written err =>
      match w_pc (s_w s), w_flight (s_w s) with
      | WRun, (i, lst) :: fl =>
          match get_queue (s_mask s) (s_slots s) i with
          | None => Fault
          | Some q =>
              Ok (set_writer (set_slots s (put_queue (s_mask s) (s_slots s) i (account q written err)))
                    {| w_tail := w_tail (s_w s); w_active := w_active (s_w s); w_start := w_start (s_w s); w_pc := WRun; w_empty := w_empty (s_w s);
                       w_flight := fl; w_fin := w_fin (s_w s) + if lst then 1 else 0 |})
                 [EWritten written err lst]
          end
      | _, _ => Blocked
      end
  | LComplete n =>
      match w_pc (s_w s) with
      | WRun => if Nat.ltb 0 n && Nat.leb n (w_fin (s_w s)) then
                  batch_step (set_writer s {| w_tail := w_tail (s_w s); w_active := w_active (s_w s); w_start := w_start (s_w s); w_pc := WRun; w_empty := w_empty (s_w s);
                                              w_flight := w_flight (s_w s); w_fin := w_fin (s_w s) - n |}) n
                else Blocked
      | _ => Blocked
      end
  | LNext => complete_step s
  | LWait =>                                                                      (* request_wakeup, send_writer.cpp:285-300 *)
      match w_pc (s_w s), s_lock s, w_flight (s_w s), w_fin (s_w s), w_empty (s_w s) with
      | WRun, None, [], O, true =>
          if s_tail s =? w_tail (s_w s) then Ok (set_need (set_writer s (set_wpc (s_w s) WIdle)) true) []
          else Ok (set_posted (set_writer s {| w_tail := s_tail s; w_active := w_active (s_w s); w_start := w_start (s_w s); w_pc := WIdle; w_empty := false;
                                               w_flight := []; w_fin := O |}) (S (s_posted s))) []
      | _, _, _, _, _ => Blocked
      end
  | LPost =>                                                                      (* post_wakeup :302-305, sleep :267-283 *)
      match w_pc (s_w s) with WRun => Ok (set_posted (set_writer s (set_wpc (s_w s) WIdle)) (S (s_posted s))) [] | _ => Blocked end
  end.

Inductive s_reach (s0 : sst) : sst -> list sev -> Prop :=
| sr_init : s_reach s0 s0 []
| sr_step s tr l s' e : s_reach s0 s tr -> s_step_fn s l = Ok s' e -> s_reach s0 s' (tr ++ e).
Fixpoint s_run (s : sst) (l : list slabel) : option (sst * list sev) :=
  match l with
  | [] => Some (s, [])
  | x :: l' => match s_step_fn s x with
               | Ok s1 e1 => match s_run s1 l' with None => None | Some (s2, e2) => Some (s2, e1 ++ e2) end
               | _ => None
               end
  end.
Lemma s_run_reach s0 : forall l s tr s' e, s_reach s0 s tr -> s_run s l = Some (s', e) -> s_reach s0 s' (tr ++ e).
Proof.
  induction l as [|x l IH]; intros s tr s' e H R; cbn [s_run] in R.
  - injection R as <- <-. now rewrite app_nil_r.
  - destruct (s_step_fn s x) as [| |s1 e1] eqn:E; try discriminate. destruct (s_run s1 l) as [[s2 e2]|] eqn:E2; [|discriminate].
    injection R as <- <-. rewrite app_assoc. apply (IH s1); [|exact E2]. eapply sr_step; eauto.
Qed.
