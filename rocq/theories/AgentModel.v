(** The agent of the benchmark: what it answers on its control connection
    (src/spead2_bench.cpp:557-631, main_agent). *)
From Coq Require Import ZArith List Bool.
Import ListNotations.

(** Lines from the master.  [Text] is any other line (options, or a bad command). *)
Inductive line := Start | EndConfig | Stop | Exit | Text (s : list Z).
Inductive reply := Ready | Count (n : Z).
(** How a session ends: the agent accepts the next connection, or it dies, by an exception
    nobody catches or in the destructor of the connection. *)
Inductive ending := Next | Dies.

(** The variable [connection] ([true]: recv_connection_ring) and the place in the loops:
    [Config] is the inner loop (:581-588), with the lines read so far, newest first. *)
Inductive state := Idle | Running (ring : bool) | Config (acc : list line) (conn : option bool).

Section Agent.
(** Parsing the options, making the stream and its readers (:595-610): None if anything
    throws, else whether a ring is used. *)
Variable conf : list line -> option bool.
(** The number of heaps received by the connection made as number [n] (:620). *)
Variable heaps : nat -> Z.

(** After the configuration was read (:589-611); [n] counts connections made. *)
Definition configured (acc : list line) (conn : option bool) (n : nat) : option (state * list reply * nat) :=
  match conn with
  | Some r => Some (Running r, [], n)                     (* "Start received while already running" *)
  | None => match conf (rev acc) with
            | Some r => Some (Running r, [Ready], S n)
            | None => None
            end
  end.

(** One line (:575-628); None: the agent dies; [None] as the state: the loop is left. *)
Definition step (st : state) (n : nat) (l : line) : option (option state * list reply * nat) :=
  match st, l with
  | Config acc conn, EndConfig => match configured acc conn n with Some (st', r, n') => Some (Some st', r, n') | None => None end
  | Config acc conn, _ => Some (Some (Config (l :: acc) conn), [], n)
  | Idle, Start => Some (Some (Config [] None), [], n)
  | Running r, Start => Some (Some (Config [] (Some r)), [], n)
  | Idle, Stop => Some (Some Idle, [], n)                 (* "Stop received when already stopped" *)
  | Running _, Stop => Some (Some Idle, [Count (heaps (n - 1))], n)
  | Idle, Exit => Some (None, [], n)
  | Running r, Exit => if r then None else Some (None, [], n)   (* see [leave] *)
  | _, _ => Some (Some st, [], n)                         (* "Bad command" *)
  end.

(** Leaving the loop (:577-578, 625-630) destroys [connection].  If it is a running
    recv_connection_ring, the agent dies: a joinable std::thread is destroyed (:528,
    std::terminate).  A recv_connection_callback is stopped by the destructor of
    recv::stream (src/recv_stream.cpp:688-691); that this comes after the destruction of the
    derived class, so that a callback may race with it, is left out.  At the end of the input
    inside a configuration the latter is used as if complete (:581-588); the empty line this
    adds to it is left out. *)
Definition dropped (ring : bool) : ending := if ring then Dies else Next.
Definition leave (st : state) (n : nat) : list reply * ending * nat :=
  match st with
  | Idle => ([], Next, n)
  | Running r => ([], dropped r, n)
  | Config acc conn => match configured acc conn n with
                       | Some (Running r, rs, n') => (rs, dropped r, n')
                       | Some (_, rs, n') => (rs, Next, n')
                       | None => ([], Dies, n)
                       end
  end.

Fixpoint session (st : state) (n : nat) (ls : list line) : list reply * ending * nat :=
  match ls with
  | [] => leave st n
  | l :: t => match step st n l with
              | None => ([], Dies, n)
              | Some (None, r, n') => (r, Next, n')
              | Some (Some st', r, n') => let '(rs, e, n'') := session st' n' t in (r ++ rs, e, n'')
              end
  end.

(** The outer loop (:568-630): one session after the other. *)
Fixpoint agent (n : nat) (ss : list (list line)) : list (list reply) * ending :=
  match ss with
  | [] => ([], Next)
  | s :: t => let '(rs, e, n') := session Idle n s in
              match e with
              | Dies => ([rs], Dies)
              | Next => let '(rss, e') := agent n' t in (rs :: rss, e')
              end
  end.
End Agent.
