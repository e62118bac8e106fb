(** Chunk streams with rings: chunk_ring_pair and chunk_ring_stream
    (/repo/include/spead2/recv_chunk_stream.h:594-686, 821-948), on top of chunk_stream::stop
    and stop_received (/repo/src/recv_chunk_stream.cpp:260-281), as threads that use two ring
    buffers of RingModel.v.

    Chunks are numbers: a std::unique_ptr owns one.  Any number of streams share the two
    rings.  The window of a stream (ChunkModel.v, C30-C33) is here the list of chunks that it
    owns, oldest first: chunk_window::get_chunk allocates at the one end and makes ready at
    the other, how many at a time is up to the environment; chunk ids and the slots for
    which no chunk could be allocated are left out.  The contents of a chunk are reduced to
    whether its array [present] may have an element set ([dirty]).  Simplified: callbacks of
    the user return and do not move the chunk (as :669-674 demands); stream::stop is the part
    of LifeModel.v that matters here (the flag is tested and set under queue_mutex; std::call_once
    is left out); adding readers is left out. *)
From Coq Require Import List Arith Bool.
From Verif Require Import ConcBase RingModel.
Import ListNotations.

(** [c_done]: stream_base::stopped; [c_removed]: stop_received has returned from remove_producer;
    [c_mutex]: the thread that holds queue_mutex *)
Record cstream := { c_win : list nat; c_grave : list nat; c_mutex : option nat; c_done : bool; c_removed : bool }.
Definition cnew : cstream := {| c_win := []; c_grave := []; c_mutex := None; c_done := false; c_removed := false |}.

(** Who called flush_chunks: stop_received for the network, chunk_stream::stop, or
    stop_received for stream::stop *)
Inductive fin := NetStop | UserFlush | UserStop.
Inductive phase := P1 | P2 | P3.   (* stop is about to lock queue_mutex: chunk_stream::stop, stream::stop, chunk_ring_stream::stop :938 *)
(** What a thread is doing.  [sent], [got] and [eff] are history: they say that a call of a ring
    has had its effect. *)
Inductive client :=
| KIdle
| KNew                                                        (* constructor, :903 add_producer *)
| KHeld (i : nat)                                             (* a handler of a reader, holding queue_mutex *)
| KAlloc (i : nat) (got : option nat)                         (* make_allocate, :851 free_ring.pop *)
| KReady (i v : nat) (k : option fin) (sent : bool)           (* make_ready, :875 data_ring.push, from a handler or flush_chunks *)
| KFlush (i : nat) (f : fin)                                  (* flush_chunks: the loop *)
| KRemove (i : nat) (f : fin) (eff : bool)                    (* stop_received, :924 remove_producer *)
| KStopFree (i : nat) | KStopData (i : nat)                   (* stop, :932-933 *)
| KWant (i : nat) (ph : phase)
| KAdd (v : nat) (sent : bool)                                (* add_free_chunk, :836 try_push *)
| KGet (try : bool) (got : option nat)                        (* the user: data_ring.pop or try_pop *)
| KExt (data : bool).                                         (* the user stops a ring directly *)

Inductive cevent :=
| DataE (e : event nat) | FreeE (e : event nat)               (* of the two rings *)
| Made (i : nat)
| Alloc (i v : nat) | NoChunk (i : nat)                       (* allocate returned a chunk, or nullptr *)
| Sent (i v : nat)                                            (* a chunk got into the data ring *)
| Buried (i v : nat)                                          (* a chunk was put into the graveyard *)
| Over (i : nat)                                              (* stop_received has flushed the chunks *)
| Freed (i v : nat)                                           (* a chunk was destroyed *)
| StopCall (i : nat) | StopRet (i : nat) | ExtStop
| Added (v : nat) | NotAdded (v : nat)                        (* add_free_chunk: moved from or not *)
| Got (v : nat).                                              (* the user got a chunk from the data ring *)

Record cstate := { sd : ring nat; sf : ring nat; cl : list client; st : list cstream; mine : list nat; dirty : list nat }.
(** No stream yet; all chunks belong to the user and may have anything in them; [n] threads *)
Definition cinit (capd capf n : nat) (chunks : list nat) : cstate :=
  {| sd := ring_new capd n; sf := ring_new capf n; cl := repeat KIdle n; st := []; mine := chunks; dirty := chunks |}.

Definition goto (t : nat) (c : client) (s : cstate) : cstate :=
  {| sd := sd s; sf := sf s; cl := upd (cl s) t c; st := st s; mine := mine s; dirty := dirty s |}.
Definition set_d (g : ring nat) (s : cstate) : cstate := {| sd := g; sf := sf s; cl := cl s; st := st s; mine := mine s; dirty := dirty s |}.
Definition set_f (g : ring nat) (s : cstate) : cstate := {| sd := sd s; sf := g; cl := cl s; st := st s; mine := mine s; dirty := dirty s |}.
Definition set_st (l : list cstream) (s : cstate) : cstate := {| sd := sd s; sf := sf s; cl := cl s; st := l; mine := mine s; dirty := dirty s |}.
Definition set_mine (l : list nat) (s : cstate) : cstate := {| sd := sd s; sf := sf s; cl := cl s; st := st s; mine := l; dirty := dirty s |}.
Definition set_dirty (l : list nat) (s : cstate) : cstate := {| sd := sd s; sf := sf s; cl := cl s; st := st s; mine := mine s; dirty := l |}.

Definition with_win (x : cstream) (w : list nat) : cstream := {| c_win := w; c_grave := c_grave x; c_mutex := c_mutex x; c_done := c_done x; c_removed := c_removed x |}.
Definition with_grave (x : cstream) (w : list nat) : cstream := {| c_win := c_win x; c_grave := w; c_mutex := c_mutex x; c_done := c_done x; c_removed := c_removed x |}.
Definition with_lock (x : cstream) (m : option nat) : cstream := {| c_win := c_win x; c_grave := c_grave x; c_mutex := m; c_done := c_done x; c_removed := c_removed x |}.
Definition with_done (x : cstream) : cstream := {| c_win := c_win x; c_grave := c_grave x; c_mutex := c_mutex x; c_done := true; c_removed := c_removed x |}.
Definition with_removed (x : cstream) : cstream := {| c_win := c_win x; c_grave := c_grave x; c_mutex := c_mutex x; c_done := c_done x; c_removed := true |}.
Definition put (i : nat) (x : cstream) (s : cstate) : cstate := set_st (upd (st s) i x) s.

Definition result : Type := option (cstate * list cevent).
(** A thread calls a ring. *)
Definition call_d (s : cstate) (t : nat) (o : op nat) (c : client) (pre : list cevent) : result :=
  match ring_next (sd s) (LCall t o) with Some (g, ev) => Some (goto t c (set_d g s), pre ++ map DataE ev) | None => None end.
Definition call_f (s : cstate) (t : nat) (o : op nat) (c : client) (pre : list cevent) : result :=
  match ring_next (sf s) (LCall t o) with Some (g, ev) => Some (goto t c (set_f g s), pre ++ map FreeE ev) | None => None end.

(** From data_ring.push back to the handler or flush_chunks *)
Definition back (i : nat) (k : option fin) : client := match k with None => KHeld i | Some f => KFlush i f end.
(** A call of the data ring returns [r]. *)
Definition returned_d (s : cstate) (t : nat) (c : client) (r : RingModel.result nat) : result :=
  match c with
  | KNew => Some (goto t KIdle (set_st (st s ++ [cnew]) s), [Made (length (st s))])
  | KReady i v k _ =>
      match r with
      | RStopped =>                                                            (* :877-884 *)
          match nth_error (st s) i with
          | Some x => Some (goto t (back i k) (put i (with_grave x (v :: c_grave x)) s), [Buried i v])
          | None => None
          end
      | _ => Some (goto t (back i k) s, [])
      end
  | KRemove i f _ =>
      match nth_error (st s) i with
      | Some x => Some (goto t (match f with NetStop => KIdle | _ => KWant i P3 end) (put i (with_lock (with_removed x) None) s), [])
      | None => None
      end
  | KStopData i => Some (goto t (KWant i P1) s, [])
  | KGet _ _ =>
      match r with
      | RPopped v => Some (goto t KIdle (set_mine (v :: mine s) s), [Got v])
      | _ => Some (goto t KIdle s, [])
      end
  | _ => Some (goto t KIdle s, [])
  end.
(** A call of the free ring returns [r]. *)
Definition returned_f (s : cstate) (t : nat) (c : client) (r : RingModel.result nat) : result :=
  match c with
  | KAlloc i _ =>
      match r with
      | RPopped v =>
          match nth_error (st s) i with
          | Some x => Some (goto t (KHeld i) (put i (with_win x (c_win x ++ [v])) s), [Alloc i v])
          | None => None
          end
      | _ => Some (goto t (KHeld i) s, [NoChunk i])                            (* :853-858 *)
      end
  | KAdd v _ =>
      match r with
      | RPushed => Some (goto t KIdle s, [Added v])
      | _ => Some (goto t KIdle (set_mine (v :: mine s) s), [NotAdded v])      (* :838-841, or ringbuffer_full *)
      end
  | KStopFree i => call_d s t OpStop (KStopData i) []
  | _ => Some (goto t KIdle s, [])
  end.
(** A call of a ring takes effect. *)
Definition effect (c : client) (e : event nat) : client * list cevent :=
  match c, e with
  | KReady i v k _, EPush _ _ => (KReady i v k true, [Sent i v])
  | KAdd v _, EPush _ _ => (KAdd v true, [])
  | KAlloc i _, EPop _ v => (KAlloc i (Some v), [])
  | KGet try _, EPop _ v => (KGet try (Some v), [])
  | KRemove i f _, EStop _ => (KRemove i f true, [])
  | _, _ => (c, [])
  end.

Fixpoint remove1 (v : nat) (l : list nat) : list nat := match l with [] => [] | x :: l => if Nat.eqb v x then l else x :: remove1 v l end.
Fixpoint remove_all (v : nat) (l : list nat) : list nat := match l with [] => [] | x :: l => if Nat.eqb v x then remove_all v l else x :: remove_all v l end.
Definition mem (v : nat) (l : list nat) : bool := existsb (Nat.eqb v) l.

Inductive clabel :=
| LNew (t : nat)
| LLock (t i : nat) | LUnlock (t : nat)
| LAlloc (t : nat) | LReady (t : nat)             (* parts of chunk_window::get_chunk *)
| LTouch (t v : nat)                              (* do_heap_ready or packet_memcpy mark a heap of chunk [v] present *)
| LNetStop (t : nat)                              (* stop_received is called at the end of a batch *)
| LRun (t : nat)
| LStop (t i : nat)
| LAdd (t v : nat) | LGet (t : nat) (try : bool) | LUse (t v : nat) | LExt (t : nat) (data : bool)
| LData (t : nat) (spurious : bool) | LFree (t : nat) (spurious : bool).   (* a step of a call of a ring *)

(** flush_chunks: the next chunk is made ready; at the end the lock is released
    (chunk_stream::stop), or remove_producer is called (stop_received). *)
Definition run_flush (s : cstate) (t i : nat) (f : fin) (x : cstream) : result :=
  match c_win x with
  | v :: w => call_d (put i (with_win x w) s) t (OpPush v) (KReady i v (Some f) false) []
  | [] =>
      match f with
      | UserFlush => Some (goto t (KWant i P2) (put i (with_lock x None) s), [])
      | _ => call_d s t OpRemoveProducer (KRemove i f false) [Over i]
      end
  end.
(** stop after the rings have been stopped; queue_mutex is free *)
Definition run_want (s : cstate) (t i : nat) (ph : phase) (x : cstream) : result :=
  match ph with
  | P1 => Some (goto t (KFlush i UserFlush) (put i (with_lock x (Some t)) s), [])
  | P2 => if c_done x then Some (goto t (KWant i P3) s, [])
          else Some (goto t (KFlush i UserStop) (put i (with_done (with_lock x (Some t))) s), [])
  | P3 => Some (goto t KIdle (put i (with_grave x []) s), map (Freed i) (c_grave x) ++ [StopRet i])   (* graveyard.reset, :939 *)
  end.

Definition cnext (s : cstate) (l : clabel) : result :=
  match l with
  | LNew t => match nth_error (cl s) t with Some KIdle => call_d s t OpAddProducer KNew [] | _ => None end
  | LLock t i =>
      match nth_error (cl s) t, nth_error (st s) i with
      | Some KIdle, Some x => match c_mutex x with None => Some (goto t (KHeld i) (put i (with_lock x (Some t)) s), []) | Some _ => None end
      | _, _ => None
      end
  | LUnlock t =>
      match nth_error (cl s) t with
      | Some (KHeld i) => match nth_error (st s) i with Some x => Some (goto t KIdle (put i (with_lock x None) s), []) | None => None end
      | _ => None
      end
  | LAlloc t =>
      match nth_error (cl s) t with
      | Some (KHeld i) => match nth_error (st s) i with Some x => if c_done x then None else call_f s t OpPop (KAlloc i None) [] | None => None end
      | _ => None
      end
  | LReady t =>
      match nth_error (cl s) t with
      | Some (KHeld i) =>
          match nth_error (st s) i with
          | Some x => if c_done x then None else match c_win x with v :: w => call_d (put i (with_win x w) s) t (OpPush v) (KReady i v None false) [] | [] => None end
          | None => None
          end
      | _ => None
      end
  | LTouch t v =>
      match nth_error (cl s) t with
      | Some (KHeld i) => match nth_error (st s) i with Some x => if mem v (c_win x) then Some (set_dirty (v :: dirty s) s, []) else None | None => None end
      | _ => None
      end
  | LNetStop t =>
      match nth_error (cl s) t with
      | Some (KHeld i) => match nth_error (st s) i with Some x => if c_done x then None else Some (goto t (KFlush i NetStop) (put i (with_done x) s), []) | None => None end
      | _ => None
      end
  | LRun t =>
      match nth_error (cl s) t with
      | Some (KFlush i f) => match nth_error (st s) i with Some x => run_flush s t i f x | None => None end
      | Some (KWant i ph) => match nth_error (st s) i with Some x => match c_mutex x with None => run_want s t i ph x | Some _ => None end | None => None end
      | _ => None
      end
  | LStop t i =>
      match nth_error (cl s) t, nth_error (st s) i with
      | Some KIdle, Some _ => call_f s t OpStop (KStopFree i) [StopCall i]
      | _, _ => None
      end
  | LAdd t v =>                                                               (* :833 memset, :836 try_push *)
      match nth_error (cl s) t with
      | Some KIdle => if mem v (mine s) then call_f (set_dirty (remove_all v (dirty s)) (set_mine (remove1 v (mine s)) s)) t (OpTryPush v) (KAdd v false) [] else None
      | _ => None
      end
  | LGet t try => match nth_error (cl s) t with Some KIdle => call_d s t (if try then OpTryPop else OpPop) (KGet try None) [] | _ => None end
  | LUse t v => match nth_error (cl s) t with Some KIdle => if mem v (mine s) then Some (set_dirty (v :: dirty s) s, []) else None | _ => None end
  | LExt t data =>
      match nth_error (cl s) t with
      | Some KIdle => if data then call_d s t OpStop (KExt true) [ExtStop] else call_f s t OpStop (KExt false) [ExtStop]
      | _ => None
      end
  | LData t sp =>
      match ring_next (sd s) (LStep t sp), nth_error (cl s) t with
      | Some (g, ev), Some c =>
          match ev with
          | [] => Some (set_d g s, [])
          | ERet _ r :: _ => match returned_d (set_d g s) t c r with Some (s', ev') => Some (s', map DataE ev ++ ev') | None => None end
          | e :: _ => let '(c', ev') := effect c e in Some (goto t c' (set_d g s), map DataE ev ++ ev')
          end
      | _, _ => None
      end
  | LFree t sp =>
      match ring_next (sf s) (LStep t sp), nth_error (cl s) t with
      | Some (g, ev), Some c =>
          match ev with
          | [] => Some (set_f g s, [])
          | ERet _ r :: _ => match returned_f (set_f g s) t c r with Some (s', ev') => Some (s', map FreeE ev ++ ev') | None => None end
          | e :: _ => let '(c', ev') := effect c e in Some (goto t c' (set_f g s), map FreeE ev ++ ev')
          end
      | _, _ => None
      end
  end.

(** Every execution *)
Inductive cexec (capd capf n : nat) (chunks : list nat) : list cevent -> cstate -> Prop :=
| cx_new : cexec capd capf n chunks [] (cinit capd capf n chunks)
| cx_next tr s l s' ev : cexec capd capf n chunks tr s -> cnext s l = Some (s', ev) -> cexec capd capf n chunks (tr ++ ev) s'.
Fixpoint crun (s : cstate) (ls : list clabel) : result :=
  match ls with
  | [] => Some (s, [])
  | l :: ls => match cnext s l with Some (s', ev) => option_map (fun r => (fst r, ev ++ snd r)) (crun s' ls) | None => None end
  end.
