(** Chunk stream groups and the threads that run them: GroupModel.v with the thread pools of
    the members' io_contexts and the thread of the user.

    The handlers of the readers and the functions that stream_base::post schedules
    (/repo/include/spead2/recv_stream.h:684-693) wait in the queue of an io_context, which is
    a list, first in first out (Boost.Asio).  A thread of the pool takes one, locks the queue_mutex of
    the stream (recv_stream.h:688; /repo/src/recv_stream.cpp:440-452), which may block the thread,
    and keeps the lock until it is done (a std::lock_guard in both cases).  In between the
    thread takes steps of GroupModel.v, where it may wait on the condition variable of the
    group with queue_mutex still locked (/repo/src/recv_chunk_stream_group.cpp:185-188).

    Queue 0 belongs to the user, who calls chunk_stream_group::stop
    (recv_chunk_stream_group.cpp:133-156): what it does to the streams, one after the other,
    are the elements of this queue.

    Simplified: a handler is the list of chunks that its packets need ([ids]) and whether the
    stream stops at the end ([fin]); a function that comes when the stream is stopped, which the code drops,
    runs here but finds the window past everything.  As in GroupModel.v the user's functions
    return at once. *)
From Coq Require Import ZArith List Bool.
From Verif Require Import Base ConcBase ChunkModel GroupModel.
Import ListNotations.
Open Scope Z_scope.

(** [THandle i ids fin]: a handler of a reader of member [i], or a critical section of stop1
    (recv_chunk_stream_group.cpp:265-272); [TFlush i t]: posted by async_flush_until(t)
    (:251-263). *)
Inductive task := THandle (i : nat) (ids : list Z) (fin : bool) | TFlush (i : nat) (t : Z).
Definition who (k : task) : nat := match k with THandle i _ _ | TFlush i _ => i end.
Inductive wstate := WIdle | WLock (k : task) | WRun (k : task).   (* about to lock queue_mutex; holding it *)
(** [workers]: all threads, each with the number of its queue *)
Record pstate := { pg : group; queues : list (list task); workers : list (nat * wstate) }.

(** [home]: the queue of each member; [pools]: the queue of each thread *)
Definition pool_new (lossy : bool) (gmax : nat) (maxs : list nat) (nq : nat) (pools : list nat) : pstate :=
  {| pg := group_new lossy gmax maxs; queues := repeat [] nq; workers := map (fun p => (p, WIdle)) pools |}.

Definition enqueue (p : nat) (k : task) (q : list (list task)) : list (list task) := upd q p (nth p q [] ++ [k]).
(** Post a flush to all members, from member [i] on (:181-182, :149-152) *)
Fixpoint post_all (i : nat) (home : list nat) (t : Z) (q : list (list task)) : list (list task) :=
  match home with [] => q | p :: r => post_all (S i) r t (enqueue p (TFlush i t) q) end.
(** What stop does with the streams (:154-155): two critical sections each (stop1, :265-272) *)
Definition stops (n : nat) : list task := flat_map (fun i => [THandle i [] true; THandle i [] true]) (seq 0 n).

Fixpoint idx (t : Z) (l : list Z) : nat := match l with [] => O | x :: l => if t =? x then O else S (idx t l) end.
Definition set_worker (s : pstate) (w p : nat) (x : wstate) : pstate := {| pg := pg s; queues := queues s; workers := upd (workers s) w (p, x) |}.
Definition running (i : nat) (x : nat * wstate) : bool := match snd x with WRun k => Nat.eqb (who k) i | _ => false end.

Inductive pres := PBlocked | PFault | POk (s : pstate) (e : list gev).
(** A thread that holds the lock takes a step of the group and goes on with [k].  [g_last]
    changes exactly when get_chunk posts flushes (:178-184). *)
Definition g_do (home : list nat) (s : pstate) (w p : nat) (k : task) (l : glabel) : pres :=
  match g_step (pg s) l with
  | Blocked => PBlocked
  | Fault => PFault
  | Ok g' e => POk {| pg := g'; queues := if g_last g' =? g_last (pg s) then queues s else post_all 0 home (g_last g') (queues s);
                      workers := upd (workers s) w (p, WRun k) |} e
  end.
Definition go (home : list nat) (s : pstate) (w p : nat) (k : task) (alloc : Z -> option Z) : pres :=
  match nth_error (g_members (pg s)) (who k) with
  | None => PBlocked
  | Some m =>
      match k with
      | TFlush i t => g_do home s w p (THandle i [] false) (LFlush i (idx t (mb_pending m)))
      | THandle i ids fin =>
          match mb_pc m, ids, fin with
          | PIdle, id :: r, _ => g_do home s w p (THandle i r fin) (LGet i id)
          | PIdle, [], true => g_do home s w p (THandle i [] false) (LStop i)
          | PIdle, [], false => POk (set_worker s w p WIdle) []
          | _, _, _ => g_do home s w p k (LStep i alloc)
          end
      end
  end.

Inductive plabel :=
| PArrive (i : nat) (ids : list Z) (fin : bool)     (* a reader of member i has received packets *)
| PTake (w : nat) | PLock (w : nat) | PGo (w : nat) (alloc : Z -> option Z)
| PStop                                             (* the user calls stop *)
| PSpur (i : nat).

Definition valid (ids : list Z) : bool := forallb (fun id => (0 <=? id) && (id <? 2 ^ 63)) ids.
Definition pstep (home : list nat) (s : pstate) (l : plabel) : pres :=
  match l with
  | PArrive i ids fin =>
      match nth_error home i with
      | Some p => if valid ids then POk {| pg := pg s; queues := enqueue p (THandle i ids fin) (queues s); workers := workers s |} [] else PBlocked
      | None => PBlocked
      end
  | PTake w =>
      match nth_error (workers s) w with
      | Some (p, WIdle) =>
          match nth_error (queues s) p with
          | Some (k :: q) => POk {| pg := pg s; queues := upd (queues s) p q; workers := upd (workers s) w (p, WLock k) |} []
          | _ => PBlocked
          end
      | _ => PBlocked
      end
  | PLock w =>
      match nth_error (workers s) w with
      | Some (p, WLock k) => if existsb (running (who k)) (workers s) then PBlocked else POk (set_worker s w p (WRun k)) []
      | _ => PBlocked
      end
  | PGo w alloc => match nth_error (workers s) w with Some (p, WRun k) => go home s w p k alloc | _ => PBlocked end
  | PStop =>
      let n := length (g_members (pg s)) in
      let q := upd (queues s) 0 (nth 0 (queues s) [] ++ stops n) in
      if g_lossy (pg s) then POk {| pg := pg s; queues := q; workers := workers s |} []
      else match g_step (pg s) LPostStop with
           | Ok g' e => POk {| pg := g'; queues := post_all 0 home u64_max q; workers := workers s |} e
           | _ => PFault
           end
  | PSpur i =>
      match g_step (pg s) (LSpurious i) with
      | Ok g' e => POk {| pg := g'; queues := queues s; workers := workers s |} e
      | _ => PBlocked
      end
  end.

(** Every execution from [s0], with the log of the group *)
Inductive preach (home : list nat) (s0 : pstate) : pstate -> list gev -> Prop :=
| pr_init : preach home s0 s0 []
| pr_step s tr l s' e : preach home s0 s tr -> pstep home s l = POk s' e -> preach home s0 s' (tr ++ e).
Fixpoint prun (home : list nat) (s : pstate) (ls : list plabel) : option (pstate * list gev) :=
  match ls with
  | [] => Some (s, [])
  | l :: ls => match pstep home s l with
               | POk s1 e1 => match prun home s1 ls with Some (s2, e2) => Some (s2, e1 ++ e2) | None => None end
               | _ => None
               end
  end.

(** What goes on by itself *)
Definition pinternal (l : plabel) : bool := match l with PTake _ | PLock _ | PGo _ _ => true | _ => false end.
