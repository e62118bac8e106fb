(** The senders of the tools: /repo/src/spead2_send.cpp:157-289 and
    /repo/src/spead2_bench.cpp:248-305.  A number of heaps is in flight; when one is
    done, the next of its chain is sent.

    Simplified: the callbacks are steps, as they run in the one thread of the pool;
    the bytes transferred and the contents of the heaps are left out; [n_heaps] is -1
    or not negative; 64-bit indices do not wrap. *)
From Coq Require Import List Bool Arith Lia.
Import ListNotations.

(** [t_n]: the number of heaps asked for, [None] for no limit (-1). *)
Record tool := { t_max : nat; t_sub : nat; t_n : option nat }.
(** spead2_send.cpp:157-161: as many in flight as asked for ([want]), but not more than there
    are heaps *)
Definition send_tool (want sub : nat) (n : option nat) : tool :=
  {| t_max := match n with None => want | Some k => if want <? k + sub then want else k + sub end; t_sub := sub; t_n := n |}.
(** spead2_bench.cpp:267-271, with the [k] heaps and the end of the stream (:355-362) *)
Definition bench_tool (want k : nat) : tool := {| t_max := Nat.min want (k + 1); t_sub := 1; t_n := Some k |}.

(** spead2_send.cpp:220-239 get_heap: with descriptors, end of the stream, data.  (The
    heaps of the bench have no descriptors: [Data] and [Last] only.) *)
Inductive kind := First | Last | Data.
Definition heap_kind (t : tool) (idx : nat) : kind :=
  if idx <? t_sub t then First else match t_n t with Some k => if k <=? idx then Last else Data | None => Data end.
(** :224-232: the buffers of a heap, if it is not the end *)
Definition slot (t : tool) (idx : nat) : nat := idx mod t_max t.
(** :262, :282 *)
Definition substream (t : tool) (idx : nat) : nat := idx mod t_sub t.

(** In flight, in the order of the calls; all that were sent, in order; the value
    of the semaphore; an error occurred. *)
Record tstate := { s_fly : list nat; s_sent : list nat; s_done : nat; s_err : bool }.
(** :276-283 *)
Definition tool_start (t : tool) : tstate := {| s_fly := seq 0 (t_max t); s_sent := seq 0 (t_max t); s_done := 0; s_err := false |}.
(** :256, spead2_bench.cpp:278 *)
Definition within (t : tool) (idx : nat) : bool := match t_n t with None => true | Some k => idx <? k + t_sub t end.
(** :241-266, spead2_bench.cpp:273-286: the callback of the heap that is [j]-th in flight;
    [None]: there is no such heap *)
Definition callback (t : tool) (s : tstate) (j : nat) (ok : bool) : option tstate :=
  match nth_error (s_fly s) j with
  | None => None
  | Some idx =>
      let rest := firstn j (s_fly s) ++ skipn (S j) (s_fly s) in
      let err := s_err s || negb ok in
      let idx' := idx + t_max t in
      Some (if negb err && within t idx'
            then {| s_fly := rest ++ [idx']; s_sent := s_sent s ++ [idx']; s_done := s_done s; s_err := err |}
            else {| s_fly := rest; s_sent := s_sent s; s_done := S (s_done s); s_err := err |})
  end.
Fixpoint tool_run (t : tool) (s : tstate) (cs : list (nat * bool)) : option tstate :=
  match cs with [] => Some s | (j, ok) :: r => match callback t s j ok with Some s' => tool_run t s' r | None => None end end.
(** :284-285: the semaphore is taken [t_max] times *)
Definition run_returns (t : tool) (s : tstate) : bool := t_max t <=? s_done s.
