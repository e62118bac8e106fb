(** Small-step model of unbounded_queue:
    /repo/include/spead2/common_unbounded_queue.h:45-191.

    Any number of threads; one atomic step per critical section (the only mutex)
    and per semaphore operation outside it.  data_sem.put() inside a critical
    section belongs to that step: nothing else can see the queue in between.
    try_get may fail spuriously (interrupted system call). *)
From Coq Require Import List Arith Bool.
From Verif Require Import ConcBase.
Import ListNotations.

Section Queue.
Context {V : Type}.

Inductive qop := QPush (v : V) | QPop | QTryPop | QStop.
Inductive qresult := QRPushed | QRPopped (v : V) | QRStopped | QREmpty | QRDone.
Inductive qpc :=
| QIdle
| QAtPush (v : V)        (* :107-127 push / emplace *)
| QPopWait               (* :170 semaphore_get(data_sem) *)
| QPopHave               (* :171-180 *)
| QAtTryPop              (* :141 data_sem.try_get() *)
| QTryLock (status : bool)  (* :142-163; [true]: status == 0 *)
| QAtStop.               (* :183-192 *)
(** :49-52; [q_assert]: an assert(stopped) failed. *)
Record queue := { q_data : list V; q_stopped : bool; q_sem : nat; q_assert : bool; q_threads : list qpc }.
Definition queue_new (n : nat) : queue := {| q_data := []; q_stopped := false; q_sem := 0; q_assert := false; q_threads := repeat QIdle n |}.

Inductive qevent := QCall (t : nat) (o : qop) | QRet (t : nat) (r : qresult).
Definition q_set (s : queue) (d : list V) (st : bool) (n : nat) (a : bool) (t : nat) (p : qpc) : queue :=
  {| q_data := d; q_stopped := st; q_sem := n; q_assert := q_assert s || a; q_threads := upd (q_threads s) t p |}.
Definition q_start (o : qop) : qpc := match o with QPush v => QAtPush v | QPop => QPopWait | QTryPop => QAtTryPop | QStop => QAtStop end.

(** One step of thread [t]; [None]: idle or blocked. *)
Definition q_step (s : queue) (t : nat) (spurious : bool) : option (queue * list qevent) :=
  match nth_error (q_threads s) t with
  | None | Some QIdle => None
  | Some (QAtPush v) =>
      if q_stopped s then Some (q_set s (q_data s) (q_stopped s) (q_sem s) false t QIdle, [QRet t QRStopped])
      else Some (q_set s (q_data s ++ [v]) (q_stopped s) (S (q_sem s)) false t QIdle, [QRet t QRPushed])
  | Some QPopWait =>
      match q_sem s with
      | O => None
      | S n => Some (q_set s (q_data s) (q_stopped s) n false t QPopHave, [])
      end
  | Some QPopHave =>
      match q_data s with
      | [] => Some (q_set s [] (q_stopped s) (S (q_sem s)) (negb (q_stopped s)) t QIdle, [QRet t QRStopped])
      | v :: d => Some (q_set s d (q_stopped s) (q_sem s) false t QIdle, [QRet t (QRPopped v)])
      end
  | Some QAtTryPop =>
      match q_sem s, spurious with
      | S n, false => Some (q_set s (q_data s) (q_stopped s) n false t (QTryLock true), [])
      | _, _ => Some (q_set s (q_data s) (q_stopped s) (q_sem s) false t (QTryLock false), [])
      end
  | Some (QTryLock true) =>
      match q_data s with
      | [] => Some (q_set s [] (q_stopped s) (S (q_sem s)) (negb (q_stopped s)) t QIdle, [QRet t QRStopped])
      | v :: d => Some (q_set s d (q_stopped s) (q_sem s) false t QIdle, [QRet t (QRPopped v)])
      end
  | Some (QTryLock false) =>
      match q_data s with
      | [] => Some (q_set s [] (q_stopped s) (q_sem s) false t QIdle, [QRet t (if q_stopped s then QRStopped else QREmpty)])
      | d => Some (q_set s d (q_stopped s) (q_sem s) false t QAtTryPop, [])
      end
  | Some QAtStop =>
      if q_stopped s then Some (q_set s (q_data s) true (q_sem s) false t QIdle, [QRet t QRDone])
      else Some (q_set s (q_data s) true (S (q_sem s)) false t QIdle, [QRet t QRDone])
  end.

Inductive qlabel := QLCall (t : nat) (o : qop) | QLStep (t : nat) (spurious : bool).
Definition q_next (s : queue) (l : qlabel) : option (queue * list qevent) :=
  match l with
  | QLCall t o =>
      match nth_error (q_threads s) t with
      | Some QIdle => Some (q_set s (q_data s) (q_stopped s) (q_sem s) false t (q_start o), [QCall t o])
      | _ => None
      end
  | QLStep t sp => q_step s t sp
  end.
Inductive q_exec (n : nat) : list qevent -> queue -> Prop :=
| q_exec_new : q_exec n [] (queue_new n)
| q_exec_next tr s l s' ev : q_exec n tr s -> q_next s l = Some (s', ev) -> q_exec n (tr ++ ev) s'.
End Queue.
Arguments queue : clear implicits.
Arguments qop : clear implicits.
Arguments qresult : clear implicits.
Arguments qevent : clear implicits.
Arguments qpc : clear implicits.
Arguments qlabel : clear implicits.
