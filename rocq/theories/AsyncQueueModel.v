(** Asynchronous gets and puts: src/spead2/recv/asyncio.py.

    An event loop is one thread: it runs one callback or one step of a task at
    a time, and a coroutine runs without interruption from one [await] to the
    next.  Those pieces are the labels here.  The ring and its semaphores are
    kept behind a resource with an operation [cb] (the [callback] of a waiter,
    [get_nowait] or [put_nowait]) and actions of other threads [envf];
    [AsyncQueueProps.v] gives the two instances.

    Simplified: a task is one call of [wait]; references, garbage collection
    and closing of the loop are left out; one loop serves the queue. *)
From Coq Require Import ZArith List Lia Bool.
From Verif Require Import ConcBase.
Import ListNotations.

(** How a call of the callback ends: a value, [exc_class] (Empty or Full),
    [spead2.Stopped], or any other exception (wrap_chunk, src/py_recv.cpp:360-385,
    throws for a chunk whose arrays have gone). *)
Inductive out := Did (v : Z) | Busy | Stop | Bad.
(** A future (asyncio.Future). *)
Inductive fut := FPend | FVal (v : Z) | FStop | FCancelled.
Definition fdone (f : fut) : bool := match f with FPend => false | _ => true end.
(** How the coroutine ends. *)
Inductive aresult := RVal (v : Z) | RStopped | RCancelled | RError.
(** Where the coroutine is: in [asyncio.sleep(0)] (asyncio.py:94-98), in
    [await waiter.future] (:104), or ended. *)
Inductive tstate := TSleep (v : Z) | TWait | TOver (r : aresult).

Section Model.
Context {R op E : Type} (cb : R -> op -> R * out) (envf : E -> R -> R).

(** One call of [wait]; [k_fut] is the future of its [_Waiter] (:26-31), and
    [k_kill] is the task's flag that a cancellation is to be thrown into it when
    it next runs (asyncio.Task.cancel when the awaited future is done already). *)
Record task := { k_op : op; k_st : tstate; k_fut : fut; k_kill : bool }.
(** [_SemaphoreQueue] (:34-41): [q_wait] lists the tasks of [_waiters], and
    [q_islist] says that [_waiters] is a list rather than a deque (:71). *)
Record sq := { q_res : R; q_wait : list nat; q_islist : bool; q_listen : bool; q_tasks : list task }.
Definition sq_init (r : R) : sq := {| q_res := r; q_wait := []; q_islist := false; q_listen := false; q_tasks := [] |}.

(** Observable events: the operation of a task was done, a task ended, an
    exception got out of the callback into the event loop. *)
Inductive aev := EDo (t : nat) (v : Z) | EEnd (t : nat) (r : aresult) | EEscape.

Definition set_fut (k : task) (f : fut) : task := {| k_op := k_op k; k_st := k_st k; k_fut := f; k_kill := k_kill k |}.
Definition set_st (k : task) (x : tstate) : task := {| k_op := k_op k; k_st := x; k_fut := k_fut k; k_kill := k_kill k |}.
Definition set_kill (k : task) : task := {| k_op := k_op k; k_st := k_st k; k_fut := k_fut k; k_kill := true |}.
Definition put_fut (ts : list task) (t : nat) (f : fut) : list task :=
  match nth_error ts t with Some k => upd ts t (set_fut k f) | None => ts end.
Definition is_done (ts : list task) (t : nat) : bool :=
  match nth_error ts t with Some k => fdone (k_fut k) | None => true end.

(** _clear_done_waiters (:53-58); [None] when [popleft] is called on a list. *)
Fixpoint drop_done (ts : list task) (ws : list nat) : list nat :=
  match ws with [] => [] | t :: ws' => if is_done ts t then drop_done ts ws' else ws end.
Definition nonempty {A} (l : list A) : bool := match l with [] => false | _ => true end.
Definition clear_done (s : sq) : option sq :=
  if q_islist s && match q_wait s with t :: _ => is_done (q_tasks s) t | [] => false end then None else
  let ws := drop_done (q_tasks s) (q_wait s) in
  Some {| q_res := q_res s; q_wait := ws; q_islist := q_islist s; q_listen := q_listen s && nonempty ws; q_tasks := q_tasks s |}.

(** The loop at :69-70: it sets the exception of each waiter, and raises
    InvalidStateError (here [false]) at one whose future is done already. *)
Fixpoint stop_all (ts : list task) (ws : list nat) : list task * bool :=
  match ws with
  | [] => (ts, true)
  | t :: ws' => if is_done ts t then (ts, false) else stop_all (put_fut ts t FStop) ws'
  end.

Inductive alab := ACall (o : op) | AReady | AResume (t : nat) | ACancel (t : nat) | AEnv (e : E).

(** _ready_callback (:60-83). *)
Definition ready (s : sq) : sq * list aev :=
  match clear_done s with
  | None => (s, [EEscape])
  | Some s1 =>
    match q_wait s1 with
    | [] => (s1, [])
    | t :: ws =>
      match nth_error (q_tasks s1) t with
      | None => (s1, [EEscape])
      | Some k =>
        let (r, o) := cb (q_res s1) (k_op k) in
        match o with
        | Busy => ({| q_res := r; q_wait := q_wait s1; q_islist := q_islist s1; q_listen := q_listen s1; q_tasks := q_tasks s1 |}, [])
        | Bad => ({| q_res := r; q_wait := q_wait s1; q_islist := q_islist s1; q_listen := q_listen s1; q_tasks := q_tasks s1 |}, [EEscape])
        | Stop =>
          let (ts, ok) := stop_all (q_tasks s1) (q_wait s1) in
          if ok then ({| q_res := r; q_wait := []; q_islist := true; q_listen := false; q_tasks := ts |}, [])
          else ({| q_res := r; q_wait := q_wait s1; q_islist := q_islist s1; q_listen := q_listen s1; q_tasks := ts |}, [EEscape])
        | Did v =>
          if q_islist s1 then ({| q_res := r; q_wait := q_wait s1; q_islist := true; q_listen := q_listen s1; q_tasks := q_tasks s1 |}, [EDo t v; EEscape])
          else ({| q_res := r; q_wait := ws; q_islist := false; q_listen := q_listen s1 && nonempty ws;
                   q_tasks := put_fut (q_tasks s1) t (FVal v) |}, [EDo t v])
        end
      end
    end
  end.

Definition new_task (o : op) (x : tstate) : task := {| k_op := o; k_st := x; k_fut := FPend; k_kill := false |}.
Definition add_task (s : sq) (r : R) (o : op) (x : tstate) : sq :=
  {| q_res := r; q_wait := q_wait s; q_islist := q_islist s; q_listen := q_listen s; q_tasks := q_tasks s ++ [new_task o x] |}.
Definition enqueue (s : sq) (r : R) (o : op) : sq :=
  {| q_res := r; q_wait := q_wait s ++ [length (q_tasks s)]; q_islist := q_islist s; q_listen := true;
     q_tasks := q_tasks s ++ [new_task o TWait] |}.
(** wait, up to its first [await] (:85-104). *)
Definition call (s : sq) (o : op) : sq * list aev :=
  let t := length (q_tasks s) in
  match clear_done s with
  | None => (add_task s (q_res s) o (TOver RError), [EEnd t RError])
  | Some s1 =>
    match q_wait s1 with
    | _ :: _ => (enqueue s1 (q_res s1) o, [])
    | [] =>
      let (r, x) := cb (q_res s1) o in
      match x with
      | Did v => (add_task s1 r o (TSleep v), [EDo t v])
      | Busy => (enqueue s1 r o, [])
      | Stop => (add_task s1 r o (TOver RStopped), [EEnd t RStopped])
      | Bad => (add_task s1 r o (TOver RError), [EEnd t RError])
      end
    end
  end.

(** How a task goes on when the loop runs it next; [None] while it waits. *)
Definition resume_result (k : task) : option aresult :=
  match k_st k with
  | TOver _ => None
  | TSleep v => Some (if k_kill k then RCancelled else RVal v)
  | TWait =>
    match k_fut k with
    | FPend => None
    | FVal v => Some (if k_kill k then RCancelled else RVal v)
    | FStop => Some (if k_kill k then RCancelled else RStopped)
    | FCancelled => Some RCancelled
    end
  end.

(** asyncio.Task.cancel: a pending future is cancelled; otherwise CancelledError
    is thrown in when the task next runs. *)
Definition cancel (k : task) : task :=
  match k_st k with
  | TOver _ => k
  | TSleep _ => set_kill k
  | TWait => match k_fut k with FPend => set_fut k FCancelled | FCancelled => k | _ => set_kill k end
  end.

Definition with_tasks (s : sq) (ts : list task) : sq :=
  {| q_res := q_res s; q_wait := q_wait s; q_islist := q_islist s; q_listen := q_listen s; q_tasks := ts |}.
Definition with_res (s : sq) (r : R) : sq :=
  {| q_res := r; q_wait := q_wait s; q_islist := q_islist s; q_listen := q_listen s; q_tasks := q_tasks s |}.

(** The event loop calls [_ready_callback] only while it is registered; it may
    call it though the descriptor is not readable (the comment at :66). *)
Definition astep (s : sq) (l : alab) : option (sq * list aev) :=
  match l with
  | ACall o => Some (call s o)
  | AReady => if q_listen s then Some (ready s) else None
  | AResume t =>
    match nth_error (q_tasks s) t with
    | Some k => match resume_result k with
                | Some r => Some (with_tasks s (upd (q_tasks s) t (set_st k (TOver r))), [EEnd t r])
                | None => None end
    | None => None end
  | ACancel t =>
    match nth_error (q_tasks s) t with
    | Some k => Some (with_tasks s (upd (q_tasks s) t (cancel k)), [])
    | None => None end
  | AEnv e => Some (with_res s (envf e (q_res s)), [])
  end.

(** A run of the loop; the log is in order of time. *)
Fixpoint arun (s : sq) (ls : list alab) : option (sq * list aev) :=
  match ls with
  | [] => Some (s, [])
  | l :: ls' => match astep s l with
                | Some (s', e) => match arun s' ls' with Some (s'', es) => Some (s'', e ++ es) | None => None end
                | None => None end
  end.
End Model.
Arguments task op : clear implicits.
Arguments sq R op : clear implicits.
Arguments alab op E : clear implicits.

(** ** The two resources *)
(** A ring of heaps or chunks, as [get_nowait] sees it when the loop is the only
    consumer (src/py_recv.cpp:272-300, :843-860; C23-C25 are about the ring
    itself): the entries in order, and whether the ring was stopped.  Other
    threads push or stop; a push after the stop is refused. *)
Record getres := { g_items : list Z; g_stopped : bool }.
Definition cb_get (r : getres) (_ : unit) : getres * out :=
  match g_items r with
  | v :: l => ({| g_items := l; g_stopped := g_stopped r |}, Did v)
  | [] => (r, if g_stopped r then Stop else Busy)
  end.
Inductive genv := GPush (v : Z) | GStop.
Definition env_get (e : genv) (r : getres) : getres :=
  match e with
  | GPush v => if g_stopped r then r else {| g_items := g_items r ++ [v]; g_stopped := false |}
  | GStop => {| g_items := g_items r; g_stopped := true |}
  end.
(** The descriptor is readable while there is an entry or the ring is stopped. *)
Definition g_readable (r : getres) : bool := nonempty (g_items r) || g_stopped r.

(** A ring of chunks as [put_nowait] sees it (src/py_recv.cpp:360-385, :862-874):
    free slots, whether it was stopped, and the chunks whose arrays have been
    moved away ([p_away]) and not come back by a get.  Other threads free slots,
    give chunks back, or stop. *)
Record putres := { p_space : nat; p_stopped : bool; p_away : list Z }.
Definition cb_put (r : putres) (c : Z) : putres * out :=
  if existsb (Z.eqb c) (p_away r) then (r, Bad)
  else if p_stopped r then (r, Stop)
  else match p_space r with
       | O => (r, Busy)
       | S n => ({| p_space := n; p_stopped := false; p_away := c :: p_away r |}, Did c)
       end.
Inductive penv := PFree | PBack (c : Z) | PStop.
Definition env_put (e : penv) (r : putres) : putres :=
  match e with
  | PFree => {| p_space := S (p_space r); p_stopped := p_stopped r; p_away := p_away r |}
  | PBack c => {| p_space := p_space r; p_stopped := p_stopped r; p_away := filter (fun x => negb (Z.eqb x c)) (p_away r) |}
  | PStop => {| p_space := p_space r; p_stopped := true; p_away := p_away r |}
  end.
Definition p_readable (r : putres) : bool := negb (Nat.eqb (p_space r) 0) || p_stopped r.
