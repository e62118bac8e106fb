(** Opening and destroying TCP streams from Python: the classes
    [tcp_stream_register_sync] and [tcp_stream_register_async] of src/py_send.cpp
    (686-768), [TcpStream.connect] of src/spead2/send/asyncio.py (145-163),
    [tcp_writer::start] (src/send_tcp.cpp:136-149) and the destructor of the
    stream (src/send_stream.cpp:92-109), with the interpreter lock (GIL).

    Simplified: any number of connections and Python threads, no limit on the
    worker threads of the pool (a worker that waits for the GIL would keep the only
    one busy); nothing is sent, so [wakeup] finds an empty queue and sets
    [need_wakeup] (send_tcp.cpp:106-117, send_writer.cpp:285-300), and the
    flush in the destructor returns at once.  A future that was cancelled takes no
    result (asyncio.py:30, 35): [LLoop] then only stands for that. *)
From Coq Require Import ZArith List Lia Bool.
From Verif Require Import ConcBase.
Import ListNotations.

(** An error code; 0 is success. *)
Definition err := nat.
(** The connection attempt: in progress; ended, its handler is queued; the handler
    waits for the GIL (py_send.cpp:746); the handler has it; [connect_handler] has
    returned and [wakeup] comes next (send_tcp.cpp:143-144); [need_wakeup] is set;
    [connect_handler] has thrown, and [wakeup] will not be called. *)
Inductive net := NPending | NQueued (e : err) | NGil (e : err) | NHold (e : err) | NWaking | NReady | NDead.
(** The stream object: its constructor waits for the connection (sync only);
    Python has it; its destructor runs; it is gone. *)
Inductive pyst := PWait | PHeld | PDying | PGone.
(** The future of [connect]: the callback has not been called; [_set_result] or
    [_set_exception] is scheduled on the loop; it has run. *)
Inductive fut := FNone | FSched (e : err) | FSet.
(** [n_sem] and [n_ec]: the [connect_state] of the sync class (py_send.cpp:690-694). *)
Record conn := { n_async : bool; n_net : net; n_py : pyst; n_fut : fut; n_sem : nat; n_ec : err }.
(** A Python thread: runs, or waits for the GIL to run; waits in [semaphore_get]
    without the GIL; is in the destructor of a stream, with the GIL (a pybind11
    [dealloc] does not release it). *)
Inductive tst := TRun | TSem (i : nat) | TDestroy (i : nat).
Inductive owner := OPy (t : nat) | OWork (i : nat).
Record cst := { gil : option owner; thr : list tst; conns : list conn }.
Definition cst_init (n : nat) : cst := {| gil := None; thr := repeat TRun n; conns := [] |}.

(** The attempt ends; [connect_handler] calls the Python callback; Python learns
    the result (from the constructor or the future); the wait is interrupted; the
    destructor has returned. *)
Inductive cev := VNet (i : nat) (e : err) | VCall (i : nat) (e : err) | VOpen (i : nat) (e : err) | VIntr (i : nat) | VFreed (i : nat).
(** [Ub]: a handler runs on a writer that was destroyed. *)
Inductive out := Ok (s : cst) (es : list cev) | Ub.

Inductive clab :=
| LAcq (t : nat) | LRel (t : nat) | LOpen (t : nat) (a : bool) | LLoop (t i : nat) | LDrop (t i : nat) | LFreed (t : nat)
| LSem (t : nat) | LIntr (t : nat)
| LNet (i : nat) (e : err) | LHandle (i : nat) | LGil (i : nat) | LCall (i : nat) (ok : bool) | LWakeup (i : nat).

Definition set_net (c : conn) (x : net) : conn :=
  {| n_async := n_async c; n_net := x; n_py := n_py c; n_fut := n_fut c; n_sem := n_sem c; n_ec := n_ec c |}.
Definition set_py (c : conn) (x : pyst) : conn :=
  {| n_async := n_async c; n_net := n_net c; n_py := x; n_fut := n_fut c; n_sem := n_sem c; n_ec := n_ec c |}.
Definition set_fut (c : conn) (x : fut) : conn :=
  {| n_async := n_async c; n_net := n_net c; n_py := n_py c; n_fut := x; n_sem := n_sem c; n_ec := n_ec c |}.
Definition set_sem (c : conn) (n : nat) (e : err) : conn :=
  {| n_async := n_async c; n_net := n_net c; n_py := n_py c; n_fut := n_fut c; n_sem := n; n_ec := e |}.
Definition put (s : cst) (g : option owner) (i : nat) (c : conn) : cst :=
  {| gil := g; thr := thr s; conns := upd (conns s) i c |}.
Definition put_thr (s : cst) (g : option owner) (t : nat) (x : tst) (i : nat) (c : conn) : cst :=
  {| gil := g; thr := upd (thr s) t x; conns := upd (conns s) i c |}.

Definition runs (s : cst) (t : nat) : bool :=
  match nth_error (thr s) t, gil s with Some TRun, Some (OPy t') => t' =? t | _, _ => false end.
Definition gone (c : conn) : bool := match n_py c with PGone => true | _ => false end.

Definition cstep (s : cst) (l : clab) : option out :=
  match l with
  | LAcq t => match nth_error (thr s) t, gil s with
              | Some TRun, None => Some (Ok {| gil := Some (OPy t); thr := thr s; conns := conns s |} [])
              | _, _ => None end
  | LRel t => if runs s t then Some (Ok {| gil := None; thr := thr s; conns := conns s |} []) else None
  | LOpen t a =>
      (* construct (py_send.cpp:702-711, 741-757): the constructor of the stream starts the attempt;
         the sync one then waits without the GIL *)
      if runs s t then
        let i := length (conns s) in
        let c := {| n_async := a; n_net := NPending; n_py := if a then PHeld else PWait; n_fut := FNone; n_sem := 0; n_ec := 0 |} in
        Some (Ok {| gil := if a then gil s else None; thr := if a then thr s else upd (thr s) t (TSem i); conns := conns s ++ [c] |} [])
      else None
  | LLoop t i =>
      (* the loop runs _set_result / _set_exception (asyncio.py:29-36), connect goes on *)
      if runs s t then
        match nth_error (conns s) i with
        | Some c => match n_fut c with FSched e => Some (Ok (put s (gil s) i (set_fut c FSet)) [VOpen i e]) | _ => None end
        | None => None end
      else None
  | LDrop t i =>
      (* the last reference to the stream goes *)
      if runs s t then
        match nth_error (conns s) i with
        | Some c => match n_py c with PHeld => Some (Ok (put_thr s (gil s) t (TDestroy i) i (set_py c PDying)) []) | _ => None end
        | None => None end
      else None
  | LFreed t =>
      (* stream::~stream: need_wakeup is seen *)
      match nth_error (thr s) t with
      | Some (TDestroy i) =>
          match nth_error (conns s) i with
          | Some c => match n_net c with NReady => Some (Ok (put_thr s (gil s) t TRun i (set_py c PGone)) [VFreed i]) | _ => None end
          | None => None end
      | _ => None end
  | LSem t =>
      (* semaphore_get returns (py_send.cpp:711-714); on an error the exception destroys the stream *)
      match nth_error (thr s) t, gil s with
      | Some (TSem i), None =>
          match nth_error (conns s) i with
          | Some c => match n_sem c with
                      | S m => let c' := set_sem c m (n_ec c) in
                               Some (Ok (if n_ec c =? 0 then put_thr s (Some (OPy t)) t TRun i (set_py c' PHeld)
                                         else put_thr s (Some (OPy t)) t (TDestroy i) i (set_py c' PDying)) [VOpen i (n_ec c)])
                      | O => None end
          | None => None end
      | _, _ => None end
  | LIntr t =>
      (* semaphore_get throws (py_common.h:299-304); the unique_ptr destroys the stream *)
      match nth_error (thr s) t, gil s with
      | Some (TSem i), None =>
          match nth_error (conns s) i with
          | Some c => Some (Ok (put_thr s (Some (OPy t)) t (TDestroy i) i (set_py c PDying)) [VIntr i])
          | None => None end
      | _, _ => None end
  | LNet i e =>
      match nth_error (conns s) i with
      | Some c => match n_net c with NPending => Some (Ok (put s (gil s) i (set_net c (NQueued e))) [VNet i e]) | _ => None end
      | None => None end
  | LHandle i =>
      (* the handler of async_connect starts (send_tcp.cpp:141-143) *)
      match nth_error (conns s) i with
      | Some c => match n_net c with
                  | NQueued e => if gone c then Some Ub
                                 else Some (Ok (put s (gil s) i (if n_async c then set_net c (NGil e)
                                                                 else set_net (set_sem c (S (n_sem c)) e) NWaking)) [])
                  | _ => None end
      | None => None end
  | LGil i =>
      match nth_error (conns s) i, gil s with
      | Some c, None => match n_net c with NGil e => Some (Ok (put s (Some (OWork i)) i (set_net c (NHold e))) []) | _ => None end
      | _, _ => None end
  | LCall i ok =>
      (* the Python callback (asyncio.py:155-159); it raises if the loop is closed *)
      match nth_error (conns s) i, gil s with
      | Some c, Some (OWork i') =>
          if i' =? i then
            match n_net c with
            | NHold e => Some (Ok (put s None i (if ok then set_fut (set_net c NWaking) (FSched e) else set_net c NDead)) [VCall i e])
            | _ => None end
          else None
      | _, _ => None end
  | LWakeup i =>
      match nth_error (conns s) i with
      | Some c => match n_net c with
                  | NWaking => if gone c then Some Ub else Some (Ok (put s (gil s) i (set_net c NReady)) [])
                  | _ => None end
      | None => None end
  end.

Fixpoint crun (s : cst) (ls : list clab) (es : list cev) : option out :=
  match ls with
  | [] => Some (Ok s es)
  | l :: ls' => match cstep s l with
                | Some (Ok s' e) => crun s' ls' (es ++ e)
                | Some Ub => Some Ub
                | None => None end
  end.
