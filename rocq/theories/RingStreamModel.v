(** Ring streams: /repo/include/spead2/recv_ring_stream.h:196-304, as threads that
    use the ring buffer of RingModel.v.

    A thread that delivers heaps holds the stream's queue_mutex (recv_stream.cpp:
    447-, 606-618).  Which heaps it delivers is decided by the stream (C17-C21)
    and arbitrary here; [contiguous] says which of them are.  Logging and
    statistics other than worker_blocked are left out. *)
From Coq Require Import List Arith Bool.
From Verif Require Import ConcBase RingModel.
Import ListNotations.

Section RingStream.
(** [contiguous_only]: ring_stream_config::get_contiguous_only *)
Context {V : Type} (contiguous : V -> bool) (contiguous_only : bool).

(** What a thread is doing *)
Inductive client :=
| KIdle
| KTry (h : V)             (* heap_ready: ready_heaps.try_push, :204 *)
| KPush (h : V)            (* heap_ready: ready_heaps.push, :218 *)
| KPop (live try : bool)   (* pop :240-250, pop_live :254-257, try_pop :260-270, try_pop_live :273-276 *)
| KStop.                   (* ready_heaps.stop, :291, :303 *)

(** [rs_done]: stop_received has been called (member stopped of the base class).
    [rs_ext]: the user has called stop(). *)
Record rstream := { rs_ring : ring V; rs_cl : list client; rs_mutex : option nat; rs_done : bool; rs_ext : bool; rs_blocked : nat }.
Definition rs_new (cap n : nat) : rstream := {| rs_ring := ring_new cap n; rs_cl := repeat KIdle n; rs_mutex := None; rs_done := false; rs_ext := false; rs_blocked := 0 |}.

(** Events: those of the ring; a heap is handed over to heap_ready; heap_ready drops
    one; pop returns one, or goes on to the next one; a function throws *)
Inductive revent := Ring (e : event V) | Handed (h : V) | Dropped (h : V) | Returned (t : nat) (live : bool) (h : V) | Skipped (t : nat) (h : V) | Threw (t : nat) (r : result V).

Definition with_ring (s : rstream) (g : ring V) (t : nat) (c : client) : rstream :=
  {| rs_ring := g; rs_cl := upd (rs_cl s) t c; rs_mutex := rs_mutex s; rs_done := rs_done s; rs_ext := rs_ext s; rs_blocked := rs_blocked s |}.
Definition with_mutex (s : rstream) (m : option nat) : rstream :=
  {| rs_ring := rs_ring s; rs_cl := rs_cl s; rs_mutex := m; rs_done := rs_done s; rs_ext := rs_ext s; rs_blocked := rs_blocked s |}.
Definition with_flags (s : rstream) (done ext : bool) : rstream :=
  {| rs_ring := rs_ring s; rs_cl := rs_cl s; rs_mutex := rs_mutex s; rs_done := done; rs_ext := ext; rs_blocked := rs_blocked s |}.
Definition with_blocked (s : rstream) (n : nat) : rstream :=
  {| rs_ring := rs_ring s; rs_cl := rs_cl s; rs_mutex := rs_mutex s; rs_done := rs_done s; rs_ext := rs_ext s; rs_blocked := n |}.

(** A thread that is not in a call of the ring makes one. *)
Definition call (s : rstream) (t : nat) (o : op V) (c : client) : option (rstream * list revent) :=
  match ring_next (rs_ring s) (LCall t o) with Some (g, ev) => Some (with_ring s g t c, map Ring ev) | None => None end.
Definition pop_op (try : bool) : op V := if try then OpTryPop else OpPop.

(** A call of the ring returns [r] to thread [t]. *)
Definition returned (s : rstream) (t : nat) (c : client) (r : result V) : option (rstream * list revent) :=
  match c, r with
  | KTry h, RFull => call (with_blocked s (S (rs_blocked s))) t (OpPush h) (KPush h)     (* :206-218 *)
  | (KTry h | KPush h), RStopped => Some (with_ring s (rs_ring s) t KIdle, [Dropped h])  (* :224-229 *)
  | KPop live try, RPopped h =>
      if live || contiguous h then Some (with_ring s (rs_ring s) t KIdle, [Returned t live h])
      else match call s t (pop_op try) (KPop live try) with Some (s', ev) => Some (s', Skipped t h :: ev) | None => None end
  | KPop live try, r => Some (with_ring s (rs_ring s) t KIdle, [Threw t r])
  | _, _ => Some (with_ring s (rs_ring s) t KIdle, [])
  end.

Inductive rlabel :=
| LLock (t : nat) | LUnlock (t : nat)
| LReady (t : nat) (h : V)       (* heap_ready is called *)
| LPop (t : nat) (live try : bool)
| LStopReceived (t : nat)        (* the end of stop_received; before it the stream is flushed by calls of heap_ready *)
| LStop (t : nat)                (* the user calls stop(); after that the thread takes the lock and stops the stream *)
| LRing (t : nat) (spurious : bool).   (* a step of a call of the ring *)

Definition idle (s : rstream) (t : nat) : bool := match nth_error (rs_cl s) t with Some KIdle => true | _ => false end.
Definition holds (s : rstream) (t : nat) : bool := match rs_mutex s with Some u => Nat.eqb t u | None => false end.
(** heap_ready, first line *)
Definition keep (h : V) : bool := negb contiguous_only || contiguous h.

Definition rs_next (s : rstream) (l : rlabel) : option (rstream * list revent) :=
  match l with
  | LLock t => if idle s t then match rs_mutex s with None => Some (with_mutex s (Some t), []) | Some _ => None end else None
  | LUnlock t => if idle s t && holds s t then Some (with_mutex s None, []) else None
  | LReady t h =>
      if idle s t && holds s t && negb (rs_done s) then
        if keep h then match call s t (OpTryPush h) (KTry h) with Some (s', ev) => Some (s', Handed h :: ev) | None => None end
        else Some (s, [Handed h; Dropped h])
      else None
  | LPop t live try => if idle s t then call s t (pop_op try) (KPop live try) else None
  | LStopReceived t => if idle s t && holds s t && negb (rs_done s) then call (with_flags s true (rs_ext s)) t OpStop KStop else None
  | LStop t => if idle s t then call (with_flags s (rs_done s) true) t OpStop KStop else None
  | LRing t sp =>
      match ring_next (rs_ring s) (LStep t sp), nth_error (rs_cl s) t with
      | Some (g, ev), Some c =>
          match ev with
          | [ERet t' r] => match returned (with_ring s g t c) t c r with Some (s', ev') => Some (s', map Ring ev ++ ev') | None => None end
          | _ => Some (with_ring s g t c, map Ring ev)
          end
      | _, _ => None
      end
  end.

(** Every execution, with [n] threads and a ring for [cap] heaps *)
Inductive rs_exec (cap n : nat) : list revent -> rstream -> Prop :=
| rx_new : rs_exec cap n [] (rs_new cap n)
| rx_next tr s l s' ev : rs_exec cap n tr s -> rs_next s l = Some (s', ev) -> rs_exec cap n (tr ++ ev) s'.
End RingStream.
Arguments client : clear implicits.
Arguments rstream : clear implicits.
Arguments revent : clear implicits.
Arguments rlabel : clear implicits.
