(** What is seen of a ring stream in the events of an execution. *)
From Coq Require Import List Arith Bool.
From Verif Require Import RingModel RingSpec RingStreamModel.
Import ListNotations.

Section Spec.
Context {V : Type}.
Implicit Types tr : list (revent V).
Definition of_ring tr : list (event V) := flat_map (fun e => match e with Ring e => [e] | _ => [] end) tr.
(** The heaps handed over by the stream, in order; those dropped by heap_ready *)
Definition handed tr : list V := flat_map (fun e => match e with Handed h => [h] | _ => [] end) tr.
Definition dropped tr : list V := flat_map (fun e => match e with Dropped h => [h] | _ => [] end) tr.
(** The heaps taken by thread [t] in order, and whether they were returned *)
Definition taken_by (t : nat) tr : list (V * bool) := flat_map (fun e => match e with Returned u _ h => if Nat.eqb u t then [(h, true)] else [] | Skipped u h => if Nat.eqb u t then [(h, false)] else [] | _ => [] end) tr.
Definition pops_by (t : nat) (tr : list (event V)) : list V := flat_map (fun e => match e with EPop u v => if Nat.eqb u t then [v] else [] | _ => [] end) tr.
(** Nothing is going on *)
Definition quiet (s : rstream V) : Prop := forall t c, nth_error (rs_cl s) t = Some c -> c = KIdle.
End Spec.
