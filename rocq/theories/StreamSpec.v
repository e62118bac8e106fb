(** An abstract receive stream: the collection of live heaps is just a list,
    most recently started first.  Independent of the hash table and of the
    storage used by the implementation. *)
From Coq Require Import ZArith List Bool.
From Verif Require Import Base CodecModel RecvPacketModel LiveHeapModel StreamModel.
Import ListNotations.
Open Scope Z_scope.

(** A live heap, its position in the order of starting, and the slot of its
    substream's ring that it occupies. *)
Record aheap := { ah_slot : nat; ah_uid : nat; ah_heap : live_heap }.

Record astream := {
  as_live : list aheap;
  as_subs : list (nat * nat);
  as_stopped : bool;
  as_stats : sstats;
  as_hist : list Z;
  as_out : list outheap;
  as_dropped : list nat;
  as_log : list logent
}.

Definition astream_new (c : sconfig) : astream :=
  {| as_live := []; as_subs := st_subs (stream_new c); as_stopped := false; as_stats := stats_zero; as_hist := [];
     as_out := []; as_dropped := []; as_log := [] |}.

Definition a_set_live (s : astream) (l : list aheap) : astream :=
  {| as_live := l; as_subs := as_subs s; as_stopped := as_stopped s; as_stats := as_stats s; as_hist := as_hist s;
     as_out := as_out s; as_dropped := as_dropped s; as_log := as_log s |}.
Definition a_set_subs (s : astream) (l : list (nat * nat)) : astream :=
  {| as_live := as_live s; as_subs := l; as_stopped := as_stopped s; as_stats := as_stats s; as_hist := as_hist s;
     as_out := as_out s; as_dropped := as_dropped s; as_log := as_log s |}.
Definition a_set_stats (s : astream) (x : sstats) : astream :=
  {| as_live := as_live s; as_subs := as_subs s; as_stopped := as_stopped s; as_stats := x; as_hist := as_hist s;
     as_out := as_out s; as_dropped := as_dropped s; as_log := as_log s |}.
Definition a_set_stopped (s : astream) (b : bool) : astream :=
  {| as_live := as_live s; as_subs := as_subs s; as_stopped := b; as_stats := as_stats s; as_hist := as_hist s;
     as_out := as_out s; as_dropped := as_dropped s; as_log := as_log s |}.
Definition a_add_hist (s : astream) (cnt : Z) : astream :=
  {| as_live := as_live s; as_subs := as_subs s; as_stopped := as_stopped s; as_stats := as_stats s;
     as_hist := as_hist s ++ [cnt]; as_out := as_out s; as_dropped := as_dropped s; as_log := as_log s |}.
Definition a_ready (s : astream) (u : nat) (why : reason) (h : live_heap) : astream :=
  {| as_live := as_live s; as_subs := as_subs s; as_stopped := as_stopped s; as_stats := as_stats s;
     as_hist := as_hist s; as_out := as_out s ++ [{| oh_uid := u; oh_why := why; oh_heap := h |}]; as_dropped := as_dropped s; as_log := as_log s |}.
Definition a_drop (s : astream) (u : nat) : astream :=
  {| as_live := as_live s; as_subs := as_subs s; as_stopped := as_stopped s; as_stats := as_stats s;
     as_hist := as_hist s; as_out := as_out s; as_dropped := as_dropped s ++ [u]; as_log := as_log s |}.
Definition a_add_log (s : astream) (u : nat) (p : rpkt) (r : bool) : astream :=
  {| as_live := as_live s; as_subs := as_subs s; as_stopped := as_stopped s; as_stats := as_stats s;
     as_hist := as_hist s; as_out := as_out s; as_dropped := as_dropped s; as_log := as_log s ++ [(u, p, r)] |}.

(** The live heap in a slot, and the rest. *)
Definition in_slot (i : nat) (a : aheap) : bool := Nat.eqb (ah_slot a) i.
Definition slot_heap (i : nat) (l : list aheap) : option aheap := find (in_slot i) l.
Definition without_slot (i : nat) (l : list aheap) : list aheap := filter (fun a => negb (in_slot i a)) l.
Definition with_heap (i : nat) (h : live_heap) (l : list aheap) : list aheap :=
  map (fun a => if in_slot i a then {| ah_slot := ah_slot a; ah_uid := ah_uid a; ah_heap := h |} else a) l.

(** Hand over the heap in a slot, if there is one. *)
Definition a_eject (s : astream) (why : reason) (i : nat) : astream * Z :=
  match slot_heap i (as_live s) with
  | None => (s, 0)
  | Some a => (a_ready (a_set_live s (without_slot i (as_live s))) (ah_uid a) why (ah_heap a), 1)
  end.

(** Advance the ring of a substream. *)
Definition next_head (subs : list (nat * nat)) (k : nat) : option (nat * nat) :=
  match nth_error subs k, nth_error subs (S k) with
  | Some (start, head), Some (stop, _) => Some (start, if Nat.eqb (S head) stop then start else S head)
  | _, _ => None
  end.

Definition a_new_entry (c : sconfig) (s : astream) (p : rpkt) : option (astream * nat * Z) :=
  let k := get_substream c (rp_cnt p) in
  match next_head (as_subs s) k with
  | None => None
  | Some (start, i) =>
      let (s1, n) := a_eject (a_set_subs s (set_nth (as_subs s) k (start, i))) Evicted i in
      let a := {| ah_slot := i; ah_uid := length (as_hist s1); ah_heap := live_heap_new p |} in
      Some (a_add_hist (a_set_live s1 (a :: as_live s1)) (rp_cnt p), i, n)
  end.

Definition a_feed (c : sconfig) (s : astream) (b : batch) (i : nat) (p : rpkt) : option (astream * batch * bool) :=
  match slot_heap i (as_live s) with
  | None => None
  | Some a =>
      match add_packet (ah_heap a) p (sc_allow_ooo c) with
      | Fault => None
      | Rejected => Some (a_add_log s (ah_uid a) p false, b, false)
      | Added h' =>
          let eos := sc_stop_item c && lh_eos h' in
          let b' := {| ba_packets := ba_packets b;
                       ba_complete := ba_complete b + (if is_complete h' && negb eos then 1 else 0);
                       ba_evicted := ba_evicted b; ba_single := ba_single b; ba_dist := ba_dist b;
                       ba_stopped := ba_stopped b || eos |} in
          if is_complete h' then
            let s1 := a_add_log (a_set_live s (without_slot i (as_live s))) (ah_uid a) p true in
            Some (if eos then a_drop s1 (ah_uid a) else a_ready s1 (ah_uid a) Complete h', b', true)
          else Some (a_add_log (a_set_live s (with_heap i h' (as_live s))) (ah_uid a) p true, b', true)
      end
  end.

(** The most recently started live heap with a heap count. *)
Definition a_search (s : astream) (cnt : Z) : option nat :=
  option_map ah_slot (find (fun a => lh_cnt (ah_heap a) =? cnt) (as_live s)).

(** [dist]: the contribution to search_dist, which depends on the hash table *)
Definition a_add_packet (c : sconfig) (dist : Z) (s : astream) (b : batch) (p : rpkt)
  : option (astream * batch * bool) :=
  let b1 := {| ba_packets := ba_packets b + 1; ba_complete := ba_complete b; ba_evicted := ba_evicted b;
               ba_single := ba_single b; ba_dist := ba_dist b; ba_stopped := ba_stopped b |} in
  if (rp_hlen p <? 0) && negb (sc_allow_unsized c) then Some (s, b1, false)
  else
    let b2 := {| ba_packets := ba_packets b1; ba_complete := ba_complete b1; ba_evicted := ba_evicted b1;
                 ba_single := ba_single b1 + (if single_packet p then 1 else 0);
                 ba_dist := ba_dist b1 + dist; ba_stopped := ba_stopped b1 |} in
    match (if single_packet p then None else a_search s (rp_cnt p)) with
    | Some i => a_feed c s b2 i p
    | None =>
        if negb (sc_allow_ooo c) && negb (rp_off p =? 0) then Some (s, b2, false)
        else
          match a_new_entry c s p with
          | None => None
          | Some (s', i, n) =>
              a_feed c s' {| ba_packets := ba_packets b2; ba_complete := ba_complete b2;
                             ba_evicted := ba_evicted b2 + n; ba_single := ba_single b2;
                             ba_dist := ba_dist b2; ba_stopped := ba_stopped b2 |} i p
          end
    end.

Fixpoint a_flush_steps (n : nat) (k : nat) (s : astream) (flushed : Z) : option (astream * Z) :=
  match n with
  | O => Some (s, flushed)
  | S n' =>
      match next_head (as_subs s) k with
      | None => None
      | Some (start, i) =>
          let (s1, m) := a_eject (a_set_subs s (set_nth (as_subs s) k (start, i))) Flushed i in
          a_flush_steps n' k s1 (flushed + m)
      end
  end.
Fixpoint a_flush_subs (c : sconfig) (ks : list nat) (s : astream) (flushed : Z) : option (astream * Z) :=
  match ks with
  | [] => Some (s, flushed)
  | k :: ks' =>
      match a_flush_steps (sc_max_heaps c) k s flushed with
      | None => None
      | Some (s', f) => a_flush_subs c ks' s' f
      end
  end.
Definition a_flush (c : sconfig) (s : astream) : option astream :=
  match a_flush_subs c (seq 0 (sc_substreams c)) s 0 with
  | None => None
  | Some (s', n) =>
      let x := as_stats s' in
      Some (a_set_stats s' {| ss_heaps := ss_heaps x + n; ss_evicted := ss_evicted x; ss_flushed := ss_flushed x + n;
                              ss_packets := ss_packets x; ss_batches := ss_batches x; ss_max_batch := ss_max_batch x;
                              ss_single := ss_single x; ss_dist := ss_dist x |})
  end.

(** * Observations of a stream *)
(** The live heaps with their uids, in storage order. *)
Definition live_heaps (s : stream) : list (nat * live_heap) :=
  flat_map (fun e => match en_heap e with None => [] | Some h => [(en_uid e, h)] end) (st_entries s).
(** Heap counts of a substream. *)
Definition in_sub (c : sconfig) (k : nat) (cnt : Z) : bool := Nat.eqb (get_substream c cnt) k.
(** How many heaps of heap [cnt]'s substream were started after heap [u]. *)
Definition started_after (c : sconfig) (cnt : Z) (u : nat) (hist : list Z) : nat :=
  length (filter (in_sub c (get_substream c cnt)) (skipn (S u) hist)).
(** The packets offered to heap [u], and whether they were added. *)
Definition offered (u : nat) (log : list logent) : list logent := filter (fun e => Nat.eqb (fst (fst e)) u) log.
Definition offered_pkts (u : nat) (log : list logent) : list rpkt := map (fun e => snd (fst e)) (offered u log).
Definition offered_res (u : nat) (log : list logent) : list bool := map snd (offered u log).
(** [h] is what reassembly makes of the packets offered to heap [u]. *)
Definition built (c : sconfig) (u : nat) (h : live_heap) (log : list logent) : Prop :=
  exists p0, rp_cnt p0 = lh_cnt h /\ (forall p, hd_error (offered_pkts u log) = Some p -> p = p0) /\
    Forall (fun p => rp_cnt p = lh_cnt h) (offered_pkts u log) /\
    add_packets (live_heap_new p0) (sc_allow_ooo c) (offered_pkts u log) = Some (h, offered_res u log).
Definition count_why (w : reason) (l : list outheap) : Z :=
  zlen (filter (fun o => match oh_why o, w with
                         | Complete, Complete | Evicted, Evicted | Flushed, Flushed => true
                         | _, _ => false end) l).
