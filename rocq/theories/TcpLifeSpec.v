(** What a TCP reader should do to its stream. *)
From Coq Require Import ZArith List Bool.
From Verif Require Import Base RecvPacketModel LiveHeapModel StreamModel TcpSpec TcpLifeModel.
Import ListNotations.
Open Scope Z_scope.

(** The bytes received. *)
Definition chunk_of (l : llabel) : list Z := match l with LAnswer (AData c) => c | _ => [] end.
Definition bytes_of (ls : list llabel) : list Z := flat_map chunk_of ls.

(** What each step does to the stream, if [got] was received before: a receive gives
    it, as one batch, the packets of the byte stream that are complete now and were not
    before; the end of the connection stops it. *)
Definition tcp_op (max : Z) (got : list Z) (l : llabel) : op :=
  match l with
  | LAnswer (AData c) => Batch (skipn (length (stream_packets max (64 * max) got)) (stream_packets max (64 * max) (got ++ c))) false
  | LAnswer AEof => Batch [] true
  | LAnswer AErr | LAccept _ => Batch [] false
  | LUser st => if st then Stop else Flush
  end.
Fixpoint tcp_ops (max : Z) (got : list Z) (ls : list llabel) : list op :=
  match ls with [] => [] | l :: ls' => tcp_op max got l :: tcp_ops max (got ++ chunk_of l) ls' end.

(** Errors other than the end of the connection. *)
Definition is_error (l : llabel) : bool := match l with LAccept false | LAnswer AErr => true | _ => false end.
