(** What is seen of streams that pass chunks through rings, in the events of an execution. *)
From Coq Require Import List Arith Bool.
From Verif Require Import RingModel RingSpec ChunkRingModel.
Import ListNotations.

Implicit Types tr : list cevent.
(** The events of the two rings *)
Definition of_d tr : list (event nat) := flat_map (fun e => match e with DataE e => [e] | _ => [] end) tr.
Definition of_f tr : list (event nat) := flat_map (fun e => match e with FreeE e => [e] | _ => [] end) tr.
(** The chunks that stream [i] has been given, has sent, has buried, that were freed for it *)
Definition allocs (i : nat) tr : list nat := flat_map (fun e => match e with Alloc j v => if Nat.eqb j i then [v] else [] | _ => [] end) tr.
Definition sents (i : nat) tr : list nat := flat_map (fun e => match e with Sent j v => if Nat.eqb j i then [v] else [] | _ => [] end) tr.
Definition burieds (i : nat) tr : list nat := flat_map (fun e => match e with Buried j v => if Nat.eqb j i then [v] else [] | _ => [] end) tr.
Definition freeds (i : nat) tr : list nat := flat_map (fun e => match e with Freed j v => if Nat.eqb j i then [v] else [] | _ => [] end) tr.
(** Of all streams *)
Definition all_sent tr : list nat := flat_map (fun e => match e with Sent _ v => [v] | _ => [] end) tr.
Definition all_freed tr : list nat := flat_map (fun e => match e with Freed _ v => [v] | _ => [] end) tr.

(** The chunk that a thread has taken from one place and not yet put to another *)
Definition carried (c : client) : list nat :=
  match c with
  | KAlloc _ (Some v) | KGet _ (Some v) => [v]
  | KReady _ v _ false | KAdd v false => [v]
  | _ => []
  end.
(** The chunk that a thread is about to send for stream [i] *)
Definition sending (i : nat) (c : client) : list nat := match c with KReady j v _ false => if Nat.eqb j i then [v] else [] | _ => [] end.
(** The user has stopped a stream or a ring. *)
Definition user_stop tr : Prop := In ExtStop tr \/ exists i, In (StopCall i) tr.
(** Is the thread in a call of stop? *)
Definition stopping (c : client) : bool :=
  match c with
  | KStopFree _ | KStopData _ | KWant _ _ | KFlush _ (UserFlush | UserStop) | KReady _ _ (Some (UserFlush | UserStop)) _ | KRemove _ UserStop _ => true
  | _ => false
  end.
(** Steps that a thread in the middle of something takes by itself *)
Definition internal (l : clabel) : bool := match l with LRun _ | LUnlock _ | LData _ _ | LFree _ _ => true | _ => false end.
