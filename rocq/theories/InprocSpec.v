(** What the users of the in-process transport see. *)
From Coq Require Import ZArith List Bool Arith.
From Verif Require Import Base LiveHeapModel RecvPacketModel StreamModel QueueModel InprocModel.
Import ListNotations.

(** The packets put into queue [k], in order *)
Definition sent_to (k : nat) (tr : list nevent) : list (list Z) :=
  flat_map (fun e => match e with Sent _ k' d => if Nat.eqb k' k then [d] else [] | _ => [] end) tr.
(** What became of the packets of writer [w], in order: queue, bytes, whether it was
    put into the queue *)
Definition results_of (w : nat) (tr : list nevent) : list (nat * list Z * bool) :=
  flat_map (fun e => match e with
                     | Sent w' k d => if Nat.eqb w' w then [(k, d, true)] else []
                     | Aborted w' k d => if Nat.eqb w' w then [(k, d, false)] else []
                     | QueueStopped _ => []
                     end) tr.
(** The part of the bytes_sent that comes from a packet; [None]: an error *)
Definition credit (r : nat * list Z * bool) : option Z := if snd r then Some (zlen (snd (fst r))) else None.
(** A packet as the writer describes it: queue and bytes *)
Definition wire (p : tpacket) : nat * list Z := (tp_sub p, concat (tp_bufs p)).
(** No use of the stream by the user stops it *)
Definition user_stops (c : chan) : Prop := In Stop (c_ops c).
(** [st] is what the stream becomes by receiving the packets *)
Definition ops_of (o : op) : list rpkt := match o with Batch ps _ => ps | _ => [] end.
