(** The thread pool (/repo/src/common_thread_pool.cpp,
    /repo/include/spead2/common_thread_pool.h): constructor, workers, [stop], destructor.

    Simplified: the [io_context] is a queue of handlers, and waiting for sockets or timers
    is outside (a handler that becomes ready is a [LPost]); only one thread at a time calls
    [stop] or destroys the pool; affinities are left out. *)
From Coq Require Import List Lia Bool Arith.
From Verif Require Import ConcBase.
Import ListNotations.

(** How [run_io_context] ended: it returned, or a handler threw an exception that is, or
    is not, a [std::exception] (:36-59). *)
Inductive how := HReturn | HStd | HOther.
(** A worker with its future: in [io_context.run], running a handler, ended, or ended and
    its future has no state any more, because [get] was called. *)
Inductive wk := WIdle | WBusy (h : nat) | WEnd (o : how) | WGot.
(** [PBuild k]: the constructor has [k] workers left to create; [PUnwind i]: it throws and
    destroys the future of worker [i]; [PThrown]: it has thrown; [PLive]; [PJoin i by d]:
    [stop] has come to worker [i], called by a handler of worker [w] ([by = Some w]), or
    by another thread; by the destructor, if [d]; [PGone]: destroyed. *)
Inductive phase := PBuild (k : nat) | PUnwind (i : nat) | PThrown | PLive | PJoin (i : nat) (by_ : option nat) (d : bool) | PGone.
Record pool := { p_q : list nat; p_ws : list wk; p_stopped : bool; p_ph : phase; p_next : nat }.
(** :61-71, :73-92: not even one thread: [std::invalid_argument] *)
Definition pool_new (n : nat) : pool := {| p_q := []; p_ws := []; p_stopped := false; p_ph := if n <? 1 then PThrown else PBuild n; p_next := 0 |}.

(** A handler is posted, started, ended; [stop] returns; [stop] throws. *)
Inductive pev := VPost (h : nat) | VStart (w h : nat) | VEnd (w h : nat) (o : how) | VStopped | VThrew.
(** [Ub]: [get] on a future without state; [Term]: std::terminate. *)
Inductive pres := Ub | Term | Blocked | Ok (p : pool) (es : list pev).
Inductive plab := LSpawn (ok : bool) | LUnwind | LPost | LStart (w : nat) | LFinish (w : nat) (o : how) | LLeave (w : nat) | LStop (by_ : option nat) | LDestroy | LJoin.

Definition set_ph (p : pool) (x : phase) : pool := {| p_q := p_q p; p_ws := p_ws p; p_stopped := p_stopped p; p_ph := x; p_next := p_next p |}.
Definition set_wk (p : pool) (w : nat) (x : wk) : pool := {| p_q := p_q p; p_ws := upd (p_ws p) w x; p_stopped := p_stopped p; p_ph := p_ph p; p_next := p_next p |}.
Definition begin_stop (p : pool) (by_ : option nat) (d : bool) : pool := {| p_q := p_q p; p_ws := p_ws p; p_stopped := true; p_ph := PJoin 0 by_ d; p_next := p_next p |}.
(** The handler that called [stop] is still in it. *)
Definition in_stop (p : pool) (w : nat) : bool := match p_ph p with PJoin _ (Some w') _ => w' =? w | _ => false end.
Definition is_busy (p : pool) (w : nat) : bool := match nth_error (p_ws p) w with Some (WBusy _) => true | _ => false end.
(** Someone has a reference to the pool. *)
Definition shared (p : pool) : bool := match p_ph p with PLive | PJoin _ _ _ => true | _ => false end.

Definition pstep (p : pool) (l : plab) : pres :=
  match l with
  | LSpawn ok =>
      (* :67-70, :79-91: std::async throws if it cannot start a thread; then the members are destroyed, the futures first *)
      match p_ph p with
      | PBuild (S k) => if ok then Ok {| p_q := p_q p; p_ws := p_ws p ++ [WIdle]; p_stopped := p_stopped p; p_ph := match k with O => PLive | _ => PBuild k end; p_next := p_next p |} []
                        else Ok (set_ph p (PUnwind 0)) []
      | _ => Blocked end
  | LUnwind =>
      (* the destructor of a future of std::async waits for the worker *)
      match p_ph p with
      | PUnwind i => match nth_error (p_ws p) i with
                     | None => Ok (set_ph p PThrown) []
                     | Some (WEnd _) => Ok (set_ph p (PUnwind (S i))) []
                     | Some _ => Blocked end
      | _ => Blocked end
  | LPost => if shared p then Ok {| p_q := p_q p ++ [p_next p]; p_ws := p_ws p; p_stopped := p_stopped p; p_ph := p_ph p; p_next := S (p_next p) |} [VPost (p_next p)] else Blocked
  | LStart w =>
      match nth_error (p_ws p) w, p_q p with
      | Some WIdle, h :: r => if p_stopped p then Blocked
                              else Ok {| p_q := r; p_ws := upd (p_ws p) w (WBusy h); p_stopped := false; p_ph := p_ph p; p_next := p_next p |} [VStart w h]
      | _, _ => Blocked end
  | LFinish w o =>
      match nth_error (p_ws p) w with
      | Some (WBusy h) => if in_stop p w then Blocked
                          else Ok (set_wk p w (match o with HReturn => WIdle | _ => WEnd o end)) [VEnd w h o]
      | _ => Blocked end
  | LLeave w =>
      (* run() returns only if the io_context was stopped: the work_guard lives as long as it *)
      match nth_error (p_ws p) w with
      | Some WIdle => if p_stopped p then Ok (set_wk p w (WEnd HReturn)) [] else Blocked
      | _ => Blocked end
  | LStop by_ =>
      (* :116-118 *)
      match p_ph p with
      | PLive => if match by_ with Some w => is_busy p w | None => true end then Ok (begin_stop p by_ false) [] else Blocked
      | _ => Blocked end
  | LDestroy => match p_ph p with PLive => Ok (begin_stop p None true) [] | _ => Blocked end
  | LJoin =>
      (* :119-130; the destructor :133-136 *)
      match p_ph p with
      | PJoin i by_ d =>
          match nth_error (p_ws p) i with
          | None => Ok {| p_q := p_q p; p_ws := []; p_stopped := p_stopped p; p_ph := if d then PGone else PLive; p_next := p_next p |} [VStopped]
          | Some (WEnd HOther) => if d then Term else Ok (set_ph (set_wk p i WGot) PLive) [VThrew]
          | Some (WEnd _) => Ok (set_ph (set_wk p i WGot) (PJoin (S i) by_ d)) []
          | Some WGot => Ub
          | Some _ => Blocked end
      | _ => Blocked end
  end.
Fixpoint prun (p : pool) (ls : list plab) (es : list pev) : pres :=
  match ls with
  | [] => Ok p es
  | l :: ls' => match pstep p l with Ok p' e => prun p' ls' (es ++ e) | r => r end
  end.
