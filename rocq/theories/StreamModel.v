(** Model of the receive stream's collection of live heaps:
    /repo/src/recv_stream.cpp:221-242, 370-630 and
    /repo/include/spead2/recv_stream.h:534-775. *)
From Coq Require Import ZArith List Bool.
From Verif Require Import Base CodecModel RecvPacketModel LiveHeapModel.
Import ListNotations.
Open Scope Z_scope.

(** The parts of stream_config used by stream_base. *)
Record sconfig := {
  sc_max_heaps : nat;
  sc_substreams : nat;
  sc_allow_unsized : bool;
  sc_allow_ooo : bool;
  sc_stop_item : bool        (* stop_on_stop_item *)
}.

(** A queue_entry pointer: INVALID_ENTRY, NULL, or the entry at an index of
    queue_storage. *)
Inductive link := LInvalid | LNull | LEntry (i : nat).

(** include/spead2/recv_stream.h:541-548 queue_entry.  [en_heap = None]: the
    storage holds no constructed heap.  [en_uid] is a ghost: the position of
    the heap in the order in which heaps were constructed. *)
Record entry := {
  en_next : link;
  en_heap : option live_heap;
  en_uid : nat
}.

(** Statistics (include/spead2/recv_stream.h:98-107); unbounded numbers, so
    wrapping after 2^64 events is not modelled.  Custom statistics and
    worker_blocked are not updated by stream_base. *)
Record sstats := {
  ss_heaps : Z;
  ss_evicted : Z;
  ss_flushed : Z;
  ss_packets : Z;
  ss_batches : Z;
  ss_max_batch : Z;
  ss_single : Z;
  ss_dist : Z
}.

(** include/spead2/recv_stream.h:565-645 the members of stream_base.  Ghosts:
    [st_hist], the heap counts of the heaps constructed so far, oldest first;
    [st_out], the heaps passed to heap_ready (with their uid and why), oldest
    first; [st_dropped], the uids of completed end-of-stream heaps; [st_log],
    the packets offered to heaps: uid, packet, whether it was added. *)
Inductive reason := Complete | Evicted | Flushed.
Record outheap := { oh_uid : nat; oh_why : reason; oh_heap : live_heap }.
Notation logent := (nat * rpkt * bool)%type.
Record stream := {
  st_entries : list entry;          (* queue_storage *)
  st_buckets : list link;
  st_subs : list (nat * nat);       (* (start, head) of substreams; one extra *)
  st_stopped : bool;
  st_stats : sstats;
  st_hist : list Z;
  st_out : list outheap;
  st_dropped : list nat;
  st_log : list logent
}.

(** src/recv_stream.cpp:221-228 compute_bucket_count; [fuel] bounds the loop
    (64 doublings exceed any size_t). *)
Fixpoint grow (fuel : nat) (buckets total : Z) : Z :=
  match fuel with
  | O => buckets
  | S fuel' => if buckets <? total then grow fuel' (buckets * 2) total else buckets
  end.
Definition compute_bucket_count (total : Z) : Z := grow 64 4 total * 4.

(** src/recv_stream.cpp:233-242 compute_bucket_shift *)
Fixpoint shift_loop (fuel : nat) (bucket_count shift : Z) : Z :=
  match fuel with
  | O => shift
  | S fuel' => if 1 <? bucket_count then shift_loop fuel' (bucket_count / 2) (shift - 1) else shift
  end.
Definition compute_bucket_shift (bucket_count : Z) : Z := shift_loop 64 bucket_count 64.

Definition total_heaps (c : sconfig) : nat := sc_max_heaps c * sc_substreams c.
Definition bucket_count (c : sconfig) : Z := compute_bucket_count (Z.of_nat (total_heaps c)).

(** src/recv_stream.cpp:414-418 get_bucket *)
Definition get_bucket (c : sconfig) (cnt : Z) : nat :=
  Z.to_nat (Z.shiftr ((cnt * 11400714819323198485) mod 2 ^ 64) (compute_bucket_shift (bucket_count c))).

(** src/recv_stream.cpp:420-424 get_substream (libdivide's division is exact) *)
Definition get_substream (c : sconfig) (cnt : Z) : nat :=
  Z.to_nat (cnt - cnt / Z.of_nat (sc_substreams c) * Z.of_nat (sc_substreams c)).

Definition stats_zero : sstats :=
  {| ss_heaps := 0; ss_evicted := 0; ss_flushed := 0; ss_packets := 0; ss_batches := 0; ss_max_batch := 0;
     ss_single := 0; ss_dist := 0 |}.

(** src/recv_stream.cpp:376-399 stream_base::stream_base *)
Definition stream_new (c : sconfig) : stream :=
  {| st_entries := repeat {| en_next := LInvalid; en_heap := None; en_uid := 0 |} (total_heaps c);
     st_buckets := repeat LNull (Z.to_nat (bucket_count c));
     st_subs := map (fun i => ((i * sc_max_heaps c)%nat, (i * sc_max_heaps c)%nat)) (seq 0 (sc_substreams c + 1));
     st_stopped := false; st_stats := stats_zero; st_hist := []; st_out := []; st_dropped := []; st_log := [] |}.

(** Updating members. *)
Definition set_entries (s : stream) (e : list entry) : stream :=
  {| st_entries := e; st_buckets := st_buckets s; st_subs := st_subs s; st_stopped := st_stopped s;
     st_stats := st_stats s; st_hist := st_hist s; st_out := st_out s; st_dropped := st_dropped s; st_log := st_log s |}.
Definition set_buckets (s : stream) (b : list link) : stream :=
  {| st_entries := st_entries s; st_buckets := b; st_subs := st_subs s; st_stopped := st_stopped s;
     st_stats := st_stats s; st_hist := st_hist s; st_out := st_out s; st_dropped := st_dropped s; st_log := st_log s |}.
Definition set_subs (s : stream) (l : list (nat * nat)) : stream :=
  {| st_entries := st_entries s; st_buckets := st_buckets s; st_subs := l; st_stopped := st_stopped s;
     st_stats := st_stats s; st_hist := st_hist s; st_out := st_out s; st_dropped := st_dropped s; st_log := st_log s |}.
Definition set_stats (s : stream) (x : sstats) : stream :=
  {| st_entries := st_entries s; st_buckets := st_buckets s; st_subs := st_subs s; st_stopped := st_stopped s;
     st_stats := x; st_hist := st_hist s; st_out := st_out s; st_dropped := st_dropped s; st_log := st_log s |}.
Definition set_stopped (s : stream) (b : bool) : stream :=
  {| st_entries := st_entries s; st_buckets := st_buckets s; st_subs := st_subs s; st_stopped := b;
     st_stats := st_stats s; st_hist := st_hist s; st_out := st_out s; st_dropped := st_dropped s; st_log := st_log s |}.
Definition add_hist (s : stream) (cnt : Z) : stream :=
  {| st_entries := st_entries s; st_buckets := st_buckets s; st_subs := st_subs s; st_stopped := st_stopped s;
     st_stats := st_stats s; st_hist := st_hist s ++ [cnt]; st_out := st_out s; st_dropped := st_dropped s; st_log := st_log s |}.
(** heap_ready: what the subclass does with the heap is modelled elsewhere *)
Definition heap_ready (s : stream) (uid : nat) (why : reason) (h : live_heap) : stream :=
  {| st_entries := st_entries s; st_buckets := st_buckets s; st_subs := st_subs s; st_stopped := st_stopped s;
     st_stats := st_stats s; st_hist := st_hist s; st_out := st_out s ++ [{| oh_uid := uid; oh_why := why; oh_heap := h |}]; st_dropped := st_dropped s; st_log := st_log s |}.
Definition drop_heap (s : stream) (uid : nat) : stream :=
  {| st_entries := st_entries s; st_buckets := st_buckets s; st_subs := st_subs s; st_stopped := st_stopped s;
     st_stats := st_stats s; st_hist := st_hist s; st_out := st_out s; st_dropped := st_dropped s ++ [uid]; st_log := st_log s |}.
Definition add_log (s : stream) (uid : nat) (p : rpkt) (r : bool) : stream :=
  {| st_entries := st_entries s; st_buckets := st_buckets s; st_subs := st_subs s; st_stopped := st_stopped s;
     st_stats := st_stats s; st_hist := st_hist s; st_out := st_out s; st_dropped := st_dropped s;
     st_log := st_log s ++ [(uid, p, r)] |}.

(** A place holding a link: a bucket or the next member of an entry. *)
Inductive place := PBucket (b : nat) | PNext (i : nat).
Definition read_place (s : stream) (p : place) : option link :=
  match p with
  | PBucket b => nth_error (st_buckets s) b
  | PNext i => option_map en_next (nth_error (st_entries s) i)
  end.
Definition write_next (l : list entry) (i : nat) (x : link) : list entry :=
  match nth_error l i with
  | None => l
  | Some e => set_nth l i {| en_next := x; en_heap := en_heap e; en_uid := en_uid e |}
  end.
Definition write_place (s : stream) (p : place) (x : link) : stream :=
  match p with
  | PBucket b => set_buckets s (set_nth (st_buckets s) b x)
  | PNext i => set_entries s (write_next (st_entries s) i x)
  end.

(** src/recv_stream.cpp:431-435 the search in unlink_entry; [None]: the search
    dereferences NULL or INVALID_ENTRY (or does not end). *)
Fixpoint find_prev (fuel : nat) (s : stream) (p : place) (target : nat) : option place :=
  match fuel with
  | O => None
  | S fuel' =>
      match read_place s p with
      | Some (LEntry j) => if Nat.eqb j target then Some p else find_prev fuel' s (PNext j) target
      | _ => None
      end
  end.

(** src/recv_stream.cpp:426-438 unlink_entry; [None]: undefined behaviour *)
Definition unlink_entry (c : sconfig) (s : stream) (i : nat) : option stream :=
  match nth_error (st_entries s) i with
  | Some {| en_next := LInvalid |} => None
  | Some {| en_next := n; en_heap := Some h |} =>
      match find_prev (S (length (st_entries s))) s (PBucket (get_bucket c (lh_cnt h))) i with
      | None => None
      | Some p =>
          let s1 := write_place s p n in
          Some (set_entries s1 (write_next (st_entries s1) i LInvalid))
      end
  | _ => None
  end.

(** entry->heap.destroy() *)
Definition destroy_heap (s : stream) (i : nat) : stream :=
  match nth_error (st_entries s) i with
  | None => s
  | Some e => set_entries s (set_nth (st_entries s) i {| en_next := en_next e; en_heap := None; en_uid := en_uid e |})
  end.
Definition set_heap (s : stream) (i : nat) (h : live_heap) : stream :=
  match nth_error (st_entries s) i with
  | None => s
  | Some e => set_entries s (set_nth (st_entries s) i {| en_next := en_next e; en_heap := Some h; en_uid := en_uid e |})
  end.

(** src/recv_stream.cpp:526-530, 580-585: unlink, heap_ready, destroy *)
Definition eject (c : sconfig) (s : stream) (why : reason) (i : nat) : option stream :=
  match nth_error (st_entries s) i with
  | Some {| en_heap := Some h; en_uid := u |} =>
      match unlink_entry c s i with
      | None => None
      | Some s1 => Some (destroy_heap (heap_ready s1 u why h) i)
      end
  | _ => None
  end.

(** src/recv_stream.cpp:498-510 the chain search: the entry found (or none) and
    search_dist.  Outer [None]: undefined behaviour. *)
Fixpoint search (fuel : nat) (s : stream) (l : link) (cnt : Z) (dist : Z) : option (option nat * Z) :=
  match fuel with
  | O => None
  | S fuel' =>
      match l with
      | LInvalid => None
      | LNull => Some (None, dist)
      | LEntry i =>
          match nth_error (st_entries s) i with
          | Some {| en_next := n; en_heap := Some h |} =>
              if lh_cnt h =? cnt then Some (Some i, dist) else search fuel' s n cnt (dist + 1)
          | _ => None
          end
      end
  end.

(** include/spead2/recv_stream.h:716-727 the members of add_packet_state *)
Record batch := {
  ba_packets : Z;
  ba_complete : Z;
  ba_evicted : Z;
  ba_single : Z;
  ba_dist : Z;
  ba_stopped : bool
}.
Definition batch_new (s : stream) : batch :=
  {| ba_packets := 0; ba_complete := 0; ba_evicted := 0; ba_single := 0; ba_dist := 0; ba_stopped := st_stopped s |}.

Definition single_packet (p : rpkt) : bool := (0 <=? rp_hlen p) && (rp_plen p =? rp_hlen p).

(** src/recv_stream.cpp:520-534: a slot for a new heap: the new state, the slot
    and the number of heaps evicted. *)
Definition new_entry (c : sconfig) (s : stream) (p : rpkt) : option (stream * nat * Z) :=
  let k := get_substream c (rp_cnt p) in
  match nth_error (st_subs s) k, nth_error (st_subs s) (S k) with
  | Some (start, head), Some (stop, _) =>
      let head' := if Nat.eqb (S head) stop then start else S head in
      let s1 := set_subs s (set_nth (st_subs s) k (start, head')) in
      match nth_error (st_entries s1) head' with
      | None => None
      | Some e =>
          match (match en_next e with
                 | LInvalid => Some (s1, 0)
                 | _ => option_map (fun s2 => (s2, 1)) (eject c s1 Evicted head')
                 end) with
          | None => None
          | Some (s2, n) =>
              let b := get_bucket c (rp_cnt p) in
              match nth_error (st_buckets s2) b with
              | None => None
              | Some first =>
                  let u := length (st_hist s2) in
                  let s3 := set_entries s2 (set_nth (st_entries s2) head'
                              {| en_next := first; en_heap := Some (live_heap_new p); en_uid := u |}) in
                  let s4 := set_buckets s3 (set_nth (st_buckets s3) b (LEntry head')) in
                  Some (add_hist s4 (rp_cnt p), head', n)
              end
          end
      end
  | _, _ => None
  end.

(** src/recv_stream.cpp:537-564: adding the packet to the entry's heap *)
Definition feed_entry (c : sconfig) (s : stream) (b : batch) (i : nat) (p : rpkt) : option (stream * batch * bool) :=
  match nth_error (st_entries s) i with
  | Some {| en_heap := Some h; en_uid := u |} =>
      match add_packet h p (sc_allow_ooo c) with
      | Fault => None
      | Rejected => Some (add_log s u p false, b, false)
      | Added h' =>
          let eos := sc_stop_item c && lh_eos h' in
          let s1 := add_log (set_heap s i h') u p true in
          let b' := {| ba_packets := ba_packets b;
                       ba_complete := ba_complete b + (if is_complete h' && negb eos then 1 else 0);
                       ba_evicted := ba_evicted b; ba_single := ba_single b; ba_dist := ba_dist b;
                       ba_stopped := ba_stopped b || eos |} in
          if is_complete h' then
            match unlink_entry c s1 i with
            | None => None
            | Some s2 => Some (destroy_heap (if eos then drop_heap s2 u else heap_ready s2 u Complete h') i, b', true)
            end
          else Some (s1, b', true)
      end
  | _ => None
  end.

(** src/recv_stream.cpp:476-565 add_packet *)
Definition stream_add_packet (c : sconfig) (s : stream) (b : batch) (p : rpkt) : option (stream * batch * bool) :=
  let b1 := {| ba_packets := ba_packets b + 1; ba_complete := ba_complete b; ba_evicted := ba_evicted b;
               ba_single := ba_single b; ba_dist := ba_dist b; ba_stopped := ba_stopped b |} in
  if (rp_hlen p <? 0) && negb (sc_allow_unsized c) then Some (s, b1, false)
  else
    match (if single_packet p then Some (None, 0)
           else match nth_error (st_buckets s) (get_bucket c (rp_cnt p)) with
                | None => None
                | Some l => search (S (length (st_entries s))) s l (rp_cnt p) 1
                end) with
    | None => None
    | Some (found, dist) =>
        let b2 := {| ba_packets := ba_packets b1; ba_complete := ba_complete b1; ba_evicted := ba_evicted b1;
                     ba_single := ba_single b1 + (if single_packet p then 1 else 0);
                     ba_dist := ba_dist b1 + dist; ba_stopped := ba_stopped b1 |} in
        match found with
        | Some i => feed_entry c s b2 i p
        | None =>
            if negb (sc_allow_ooo c) && negb (rp_off p =? 0) then Some (s, b2, false)
            else
              match new_entry c s p with
              | None => None
              | Some (s', i, n) =>
                  feed_entry c s' {| ba_packets := ba_packets b2; ba_complete := ba_complete b2;
                                     ba_evicted := ba_evicted b2 + n; ba_single := ba_single b2;
                                     ba_dist := ba_dist b2; ba_stopped := ba_stopped b2 |} i p
              end
        end
    end.

(** src/recv_stream.cpp:575-587 the inner loop of flush_unlocked: [n] steps in
    substream [k]; counts the heaps flushed. *)
Fixpoint flush_steps (c : sconfig) (n : nat) (k : nat) (s : stream) (flushed : Z) : option (stream * Z) :=
  match n with
  | O => Some (s, flushed)
  | S n' =>
      match nth_error (st_subs s) k, nth_error (st_subs s) (S k) with
      | Some (start, head), Some (stop, _) =>
          let head' := if Nat.eqb (S head) stop then start else S head in
          let s1 := set_subs s (set_nth (st_subs s) k (start, head')) in
          match nth_error (st_entries s1) head' with
          | None => None
          | Some e =>
              match en_next e with
              | LInvalid => flush_steps c n' k s1 flushed
              | _ => match eject c s1 Flushed head' with
                     | None => None
                     | Some s2 => flush_steps c n' k s2 (flushed + 1)
                     end
              end
          end
      | _, _ => None
      end
  end.
(** src/recv_stream.cpp:571-588; the number of steps for a substream is
    substreams[i + 1].start - substreams[i].start *)
Fixpoint flush_subs (c : sconfig) (ks : list nat) (s : stream) (flushed : Z) : option (stream * Z) :=
  match ks with
  | [] => Some (s, flushed)
  | k :: ks' =>
      match nth_error (st_subs s) k, nth_error (st_subs s) (S k) with
      | Some (start, _), Some (stop, _) =>
          match flush_steps c (stop - start) k s flushed with
          | None => None
          | Some (s', f) => flush_subs c ks' s' f
          end
      | _, _ => None
      end
  end.
(** src/recv_stream.cpp:567-592 flush_unlocked *)
Definition flush_unlocked (c : sconfig) (s : stream) : option stream :=
  match flush_subs c (seq 0 (sc_substreams c)) s 0 with
  | None => None
  | Some (s', n) =>
      let x := st_stats s' in
      Some (set_stats s' {| ss_heaps := ss_heaps x + n; ss_evicted := ss_evicted x; ss_flushed := ss_flushed x + n;
                            ss_packets := ss_packets x; ss_batches := ss_batches x; ss_max_batch := ss_max_batch x;
                            ss_single := ss_single x; ss_dist := ss_dist x |})
  end.

(** src/recv_stream.cpp:612-618 stream_base::stop_received *)
Definition stop_received (c : sconfig) (s : stream) : option stream := flush_unlocked c (set_stopped s true).
(** src/recv_stream.cpp:600-610 stop *)
Definition stop (c : sconfig) (s : stream) : option stream := if st_stopped s then Some s else stop_received c s.

(** src/recv_stream.cpp:454-474 ~add_packet_state *)
Definition batch_end (c : sconfig) (s : stream) (b : batch) : option stream :=
  match (if ba_stopped b then stop_received c s else Some s) with
  | None => None
  | Some s1 =>
      if (ba_packets b =? 0) && ba_stopped b then Some s1
      else
        let x := st_stats s1 in
        Some (set_stats s1
          {| ss_heaps := ss_heaps x + (ba_complete b + ba_evicted b); ss_evicted := ss_evicted x + ba_evicted b;
             ss_flushed := ss_flushed x; ss_packets := ss_packets x + ba_packets b; ss_batches := ss_batches x + 1;
             ss_max_batch := Z.max (ss_max_batch x) (ba_packets b); ss_single := ss_single x + ba_single b;
             ss_dist := ss_dist x + ba_dist b |})
  end.

(** A reader's use of a batch (e.g. src/recv_stream.cpp:694-710 mem_to_stream):
    packets are added until the state is stopped; the results are collected. *)
Fixpoint batch_packets (c : sconfig) (s : stream) (b : batch) (ps : list rpkt) : option (stream * batch * list bool) :=
  match ps with
  | [] => Some (s, b, [])
  | p :: ps' =>
      if ba_stopped b then Some (s, b, [])
      else
        match stream_add_packet c s b p with
        | None => None
        | Some (s1, b1, r) =>
            match batch_packets c s1 b1 ps' with
            | None => None
            | Some (s2, b2, rs) => Some (s2, b2, r :: rs)
            end
        end
  end.
(** src/recv_stream.cpp:440-474 a whole batch; [eof]: the reader calls
    state.stop() at the end.  If the stream is stopped, the state has no owner
    and nothing happens. *)
Definition do_batch (c : sconfig) (s : stream) (ps : list rpkt) (eof : bool) : option (stream * list bool) :=
  if st_stopped s then Some (s, [])
  else
    match batch_packets c s (batch_new s) ps with
    | None => None
    | Some (s1, b1, rs) =>
        match batch_end c s1 {| ba_packets := ba_packets b1; ba_complete := ba_complete b1; ba_evicted := ba_evicted b1;
                                ba_single := ba_single b1; ba_dist := ba_dist b1; ba_stopped := ba_stopped b1 || eof |} with
        | None => None
        | Some s2 => Some (s2, rs)
        end
    end.

(** Everything that can happen to a stream; each holds queue_mutex throughout,
    so they are atomic with respect to each other. *)
Inductive op := Batch (ps : list rpkt) (eof : bool) | Flush | Stop.
Definition step (c : sconfig) (s : stream) (o : op) : option (stream * list bool) :=
  match o with
  | Batch ps eof => do_batch c s ps eof
  | Flush => option_map (fun s' => (s', [])) (flush_unlocked c s)
  | Stop => option_map (fun s' => (s', [])) (stop c s)
  end.
(** The final state and the results of all calls to add_packet. *)
Fixpoint run (c : sconfig) (s : stream) (ops : list op) : option (stream * list bool) :=
  match ops with
  | [] => Some (s, [])
  | o :: ops' =>
      match step c s o with
      | None => None
      | Some (s', rs) => match run c s' ops' with None => None | Some (s'', rs') => Some (s'', rs ++ rs') end
      end
  end.
