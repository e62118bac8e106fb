(** The in-process transport: inproc_writer (/repo/src/send_inproc.cpp:33-95),
    inproc_queue (/repo/include/spead2/common_inproc.h:37-63,
    /repo/src/common_inproc.cpp) and inproc_reader (/repo/src/recv_inproc.cpp:33-109),
    on top of the models of unbounded_queue (QueueModel) and of the receive stream
    (StreamModel).

    Any number of writers and of queues; each queue has one reader, which feeds one
    stream.  In each queue, thread [w] below the number of writers is writer [w],
    the next thread is the reader (its handlers never overlap: each one starts the
    next wait), and the others are users who call stop() on the queue.

    Simplified: a writer is the list of the packets that get_packet will return
    (SendStreamModel is about that); rate limiting and the completion of groups are
    not repeated here.  A semaphore_fd is readable exactly when its value is
    positive. *)
From Coq Require Import ZArith List Bool.
From Verif Require Import Base CodecModel RecvPacketModel LiveHeapModel StreamModel ConcBase QueueModel.
Import ListNotations.
Open Scope Z_scope.

(** transmit_packet, include/spead2/send_writer.h:182-189 *)
Record tpacket := { tp_bufs : list (list Z); tp_sub : nat }.

(** boost::asio::buffer_copy into a buffer with [room] bytes of space *)
Fixpoint buffer_copy (room : Z) (bufs : list (list Z)) : list Z :=
  match bufs with
  | [] => []
  | b :: bs => let c := slice b 0 (Z.min room (zlen b)) in c ++ buffer_copy (room - zlen c) bs
  end.
Definition buffer_size (bufs : list (list Z)) : Z := fold_right (fun b n => zlen b + n) 0 bufs.
(** src/send_inproc.cpp:33-42 copy_packet *)
Definition copy_packet (bufs : list (list Z)) : list Z := buffer_copy (buffer_size bufs) bufs.

(** [w_cur]: the packet being added to a queue.  [w_bytes]: for the packets done so
    far, what was added to bytes_sent of the item, or [None] if its result was set
    to operation_aborted. *)
Record wstate := { w_todo : list tpacket; w_cur : option tpacket; w_out : list (option Z) }.

(** A queue with its reader and stream.  [c_wait]: an async_wait is outstanding.
    [c_stream = None]: undefined behaviour in the stream.  [c_got] (packets given to
    process_one_packet) and [c_ops] (uses of the stream) are ghosts. *)
Record chan := { c_q : queue (list Z); c_wait : bool; c_stream : option stream; c_got : list (list Z); c_ops : list op }.
Record net := { n_chans : list chan; n_writers : list wstate }.

Definition chan_new (sc : sconfig) (threads : nat) : chan :=
  {| c_q := queue_new threads; c_wait := true; c_stream := Some (stream_new sc); c_got := []; c_ops := [] |}.
(** [progs]: the packets that each writer is going to send *)
Definition net_new (scs : list sconfig) (progs : list (list tpacket)) (users : nat) : net :=
  {| n_chans := map (fun sc => chan_new sc (length progs + 1 + users)) scs;
     n_writers := map (fun p => {| w_todo := p; w_cur := None; w_out := [] |}) progs |}.

Inductive nevent :=
| Sent (w k : nat) (d : list Z)          (* [d] was added to queue [k] by writer [w] *)
| Aborted (w k : nat) (d : list Z)
| QueueStopped (k : nat).

Inductive nlabel :=
| LSend (w : nat)                        (* get_packet returned SUCCESS *)
| LPush (w : nat)
| LStopCall (k t : nat)                  (* inproc_queue::stop *)
| LStopStep (k t : nat)
| LWake (k : nat)                        (* the wait is over, the handler starts *)
| LError (k : nat)                       (* the wait failed *)
| LRead (k : nat) (spurious : bool)      (* a step of the handler *)
| LUser (k : nat) (stop : bool).         (* the user stops or flushes the stream *)

Definition stopped_stream (s : option stream) : bool := match s with Some x => st_stopped x | None => true end.
Definition apply_op (sc : sconfig) (s : option stream) (o : op) : option stream :=
  match s with Some x => match step sc x o with Some (x', _) => Some x' | None => None end | None => None end.
(** src/recv_inproc.cpp:49-62 process_one_packet: the packets added *)
Definition process_one_packet (d : list Z) : list rpkt :=
  match decode_packet d with
  | Accept h size => if size =? zlen d then [rpkt_of d h] else []
  | _ => []
  end.

Section Net.
Context (scs : list sconfig).
Definition nw (s : net) : nat := length (n_writers s).
Definition set_chan (s : net) (k : nat) (c : chan) : net := {| n_chans := upd (n_chans s) k c; n_writers := n_writers s |}.
Definition set_writer (s : net) (w : nat) (x : wstate) : net := {| n_chans := n_chans s; n_writers := upd (n_writers s) w x |}.
Definition with_q (c : chan) (q : queue (list Z)) : chan := {| c_q := q; c_wait := c_wait c; c_stream := c_stream c; c_got := c_got c; c_ops := c_ops c |}.
Definition with_wait (c : chan) (b : bool) : chan := {| c_q := c_q c; c_wait := b; c_stream := c_stream c; c_got := c_got c; c_ops := c_ops c |}.
(** One use of the stream *)
Definition use (sc : sconfig) (c : chan) (got : list (list Z)) (o : op) : chan :=
  {| c_q := c_q c; c_wait := c_wait c; c_stream := apply_op sc (c_stream c) o; c_got := c_got c ++ got; c_ops := c_ops c ++ [o] |}.
(** src/recv_inproc.cpp:64-91 packet_handler, after try_pop; the last lines start the
    next wait *)
Definition handled (sc : sconfig) (c : chan) (r : qresult (list Z)) : chan :=
  let c' := match r with
            | QRPopped d => use sc c [d] (Batch (process_one_packet d) false)
            | QRStopped => use sc c [] (Batch [] true)
            | _ => use sc c [] (Batch [] false)
            end in
  with_wait c' (negb (stopped_stream (c_stream c'))).

Definition reader_idle (s : net) (c : chan) : bool := match nth_error (q_threads (c_q c)) (nw s) with Some QIdle => true | _ => false end.

Definition n_next (s : net) (l : nlabel) : option (net * list nevent) :=
  match l with
  | LSend w =>
      (* src/send_inproc.cpp:65-84 *)
      match nth_error (n_writers s) w with
      | Some {| w_todo := p :: todo; w_cur := None; w_out := out |} =>
          match nth_error (n_chans s) (tp_sub p) with
          | Some c => match q_next (c_q c) (QLCall w (QPush (copy_packet (tp_bufs p)))) with
                      | Some (q, _) => Some (set_writer (set_chan s (tp_sub p) (with_q c q)) w {| w_todo := todo; w_cur := Some p; w_out := out |}, [])
                      | None => None
                      end
          | None => None
          end
      | _ => None
      end
  | LPush w =>
      (* :80-94 *)
      match nth_error (n_writers s) w with
      | Some {| w_todo := todo; w_cur := Some p; w_out := out |} =>
          match nth_error (n_chans s) (tp_sub p) with
          | Some c => match q_next (c_q c) (QLStep w false) with
                      | Some (q, [QRet _ r]) =>
                          let s' o := set_writer (set_chan s (tp_sub p) (with_q c q)) w {| w_todo := todo; w_cur := None; w_out := out ++ [o] |} in
                          match r with
                          | QRPushed => Some (s' (Some (zlen (copy_packet (tp_bufs p)))), [Sent w (tp_sub p) (copy_packet (tp_bufs p))])
                          | _ => Some (s' None, [Aborted w (tp_sub p) (copy_packet (tp_bufs p))])
                          end
                      | _ => None
                      end
          | None => None
          end
      | _ => None
      end
  | LStopCall k t =>
      if Nat.ltb (nw s) t then
        match nth_error (n_chans s) k with
        | Some c => match q_next (c_q c) (QLCall t QStop) with Some (q, _) => Some (set_chan s k (with_q c q), []) | None => None end
        | None => None
        end
      else None
  | LStopStep k t =>
      if Nat.ltb (nw s) t then
        match nth_error (n_chans s) k with
        | Some c => match q_next (c_q c) (QLStep t false) with Some (q, _) => Some (set_chan s k (with_q c q), [QueueStopped k]) | None => None end
        | None => None
        end
      else None
  | LWake k =>
      (* the wait is over when the semaphore is readable; bound_handler,
         include/spead2/recv_stream.h:857-866, checks whether the stream has stopped *)
      match nth_error (n_chans s) k with
      | Some c =>
          if c_wait c && Nat.ltb 0 (q_sem (c_q c)) then
            if stopped_stream (c_stream c) then Some (set_chan s k (with_wait c false), [])
            else match q_next (c_q c) (QLCall (nw s) QTryPop) with Some (q, _) => Some (set_chan s k (with_wait (with_q c q) false), []) | None => None end
          else None
      | None => None
      end
  | LError k =>
      match nth_error (n_chans s) k, nth_error scs k with
      | Some c, Some sc =>
          if c_wait c then
            if stopped_stream (c_stream c) then Some (set_chan s k (with_wait c false), [])
            else Some (set_chan s k (handled sc c QREmpty), [])      (* a warning and a new wait *)
          else None
      | _, _ => None
      end
  | LRead k sp =>
      match nth_error (n_chans s) k, nth_error scs k with
      | Some c, Some sc =>
          match q_next (c_q c) (QLStep (nw s) sp) with
          | Some (q, [QRet _ r]) => Some (set_chan s k (handled sc (with_q c q) r), [])
          | Some (q, _) => Some (set_chan s k (with_q c q), [])
          | None => None
          end
      | _, _ => None
      end
  | LUser k stop =>
      (* the handler holds the stream's mutex *)
      match nth_error (n_chans s) k, nth_error scs k with
      | Some c, Some sc => if reader_idle s c then Some (set_chan s k (use sc c [] (if stop then Stop else Flush)), []) else None
      | _, _ => None
      end
  end.

Inductive n_exec (progs : list (list tpacket)) (users : nat) : list nevent -> net -> Prop :=
| nx_new : n_exec progs users [] (net_new scs progs users)
| nx_next tr s l s' ev : n_exec progs users tr s -> n_next s l = Some (s', ev) -> n_exec progs users (tr ++ ev) s'.
End Net.
