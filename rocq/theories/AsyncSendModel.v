(** Asynchronous sends from Python: src/spead2/send/asyncio.py and the class
    [asyncio_stream_wrapper] of src/py_send.cpp.

    The event loop is one thread; the threads of the stream's thread pool call
    the completion handlers.  The stream itself is C34's: requests that were
    accepted complete in the order they were accepted, the handlers of refused
    ones are posted and run at any time.

    Simplified: reference counts and Python exceptions raised by a callback are
    left out ([_set_result] and [_set_exception] raise none). *)
From Coq Require Import ZArith List Lia Bool.
From Verif Require Import ConcBase.
Import ListNotations.

(** A future: pending, with the outcome of the heap (error code or byte count,
    as one number), or cancelled by the user. *)
Inductive sfut := SPend | SRes (v : Z) | SCancel.
(** One call of [_async_send] (asyncio.py:46-67); [x_acc] is what [call] returned. *)
Record send := { x_acc : bool; x_fut : sfut }.
(** One call of [async_flush] (:94-100): the future it waits for, how many calls
    of [_async_send] came before it (kept for the statement only), and whether it
    has returned. *)
Record flush := { y_target : option nat; y_before : nat; y_ret : bool }.
(** Where the loop is: between handlers, or in [process_callbacks]
    (py_send.cpp:341-364) in [semaphore_get], before the swap, or calling the
    callbacks of the list it took. *)
Inductive lloc := LIdle | LGet | LSwap | LRun (l : list (nat * Z)).

(** [w_inq], [w_rej]: accepted requests not yet completed, in order; refused
    requests whose handler is posted.  [w_cbs] is [callbacks], [w_sem] the value
    of the semaphore, [w_puts] the number of threads in [handler] that are about
    to call [sem.put] (:255-266). *)
Record asw := {
  w_sends : list send; w_active : nat; w_last : option nat; w_reader : bool; w_flushes : list flush; w_loc : lloc;
  w_inq : list nat; w_rej : list nat; w_cbs : list (nat * Z); w_sem : nat; w_puts : nat }.
Definition asw_init : asw :=
  {| w_sends := []; w_active := 0; w_last := None; w_reader := false; w_flushes := []; w_loc := LIdle;
     w_inq := []; w_rej := []; w_cbs := []; w_sem := 0; w_puts := 0 |}.

(** Observable events: the stream calls the completion handler of a request; the
    loop calls its callback. *)
Inductive sev := VComplete (i : nat) (v : Z) | VCall (i : nat) (v : Z).
Inductive slab :=
| WSend (acc : bool) | WComplete (v : Z) | WReject (i : nat) (v : Z) | WPut | WReady | WGet | WSwap | WCall | WCancel (i : nat)
| WFlush | WFlushRet (j : nat).

Definition is_idle (l : lloc) : bool := match l with LIdle => true | _ => false end.
Definition sdone (f : sfut) : bool := match f with SPend => false | _ => true end.
Definition fut_done (s : asw) (i : nat) : bool := match nth_error (w_sends s) i with Some x => sdone (x_fut x) | None => false end.
Definition set_xfut (x : send) (f : sfut) : send := {| x_acc := x_acc x; x_fut := f |}.

(** _async_send (:46-67).  Handlers that run on other threads before it
    returns touch nothing it uses, so it is one step. *)
Definition do_send (s : asw) (acc : bool) : asw :=
  let i := length (w_sends s) in
  {| w_sends := w_sends s ++ [{| x_acc := acc; x_fut := SPend |}]; w_active := S (w_active s);
     w_last := if acc then Some i else w_last s;
     w_reader := if Nat.eqb (w_active s) 0 then true else w_reader s;
     w_flushes := w_flushes s; w_loc := w_loc s;
     w_inq := if acc then w_inq s ++ [i] else w_inq s; w_rej := if acc then w_rej s else w_rej s ++ [i];
     w_cbs := w_cbs s; w_sem := w_sem s; w_puts := w_puts s |}.
(** handler up to the end of its critical section (py_send.cpp:259-263). *)
Definition handler (s : asw) (inq rej : list nat) (i : nat) (v : Z) : asw :=
  {| w_sends := w_sends s; w_active := w_active s; w_last := w_last s; w_reader := w_reader s; w_flushes := w_flushes s; w_loc := w_loc s;
     w_inq := inq; w_rej := rej; w_cbs := w_cbs s ++ [(i, v)]; w_sem := w_sem s;
     w_puts := match w_cbs s with [] => S (w_puts s) | _ => w_puts s end |}.
(** The callback of one request (asyncio.py:50-58). *)
Definition run_callback (s : asw) (i : nat) (v : Z) (rest : list (nat * Z)) : asw :=
  let sends := match nth_error (w_sends s) i with
               | Some x => if sdone (x_fut x) then w_sends s else upd (w_sends s) i (set_xfut x (SRes v))
               | None => w_sends s end in
  let zero := Nat.eqb (w_active s) 1 in
  {| w_sends := sends; w_active := w_active s - 1; w_last := if zero then None else w_last s;
     w_reader := if zero then false else w_reader s; w_flushes := w_flushes s;
     w_loc := LRun rest; w_inq := w_inq s; w_rej := w_rej s; w_cbs := w_cbs s; w_sem := w_sem s; w_puts := w_puts s |}.
Definition with_loc (s : asw) (l : lloc) (sem puts : nat) (cbs : list (nat * Z)) : asw :=
  {| w_sends := w_sends s; w_active := w_active s; w_last := w_last s; w_reader := w_reader s; w_flushes := w_flushes s; w_loc := l;
     w_inq := w_inq s; w_rej := w_rej s; w_cbs := cbs; w_sem := sem; w_puts := puts |}.
Definition with_sends (s : asw) (x : list send) : asw :=
  {| w_sends := x; w_active := w_active s; w_last := w_last s; w_reader := w_reader s; w_flushes := w_flushes s; w_loc := w_loc s;
     w_inq := w_inq s; w_rej := w_rej s; w_cbs := w_cbs s; w_sem := w_sem s; w_puts := w_puts s |}.
Definition with_flushes (s : asw) (x : list flush) : asw :=
  {| w_sends := w_sends s; w_active := w_active s; w_last := w_last s; w_reader := w_reader s; w_flushes := x; w_loc := w_loc s;
     w_inq := w_inq s; w_rej := w_rej s; w_cbs := w_cbs s; w_sem := w_sem s; w_puts := w_puts s |}.

(** Steps of the loop need it to be idle; the callback may be called though the
    descriptor is not readable, and then blocks in [semaphore_get]. *)
Definition sstep (s : asw) (l : slab) : option (asw * list sev) :=
  match l with
  | WSend acc => if is_idle (w_loc s) then Some (do_send s acc, []) else None
  | WComplete v => match w_inq s with i :: q => Some (handler s q (w_rej s) i v, [VComplete i v]) | [] => None end
  | WReject i v => if existsb (Nat.eqb i) (w_rej s) then Some (handler s (w_inq s) (remove Nat.eq_dec i (w_rej s)) i v, [VComplete i v]) else None
  | WPut => match w_puts s with S n => Some (with_loc s (w_loc s) (S (w_sem s)) n (w_cbs s), []) | O => None end
  | WReady => if is_idle (w_loc s) && w_reader s then Some (with_loc s LGet (w_sem s) (w_puts s) (w_cbs s), []) else None
  | WGet => match w_loc s, w_sem s with LGet, S n => Some (with_loc s LSwap n (w_puts s) (w_cbs s), []) | _, _ => None end
  | WSwap => match w_loc s with LSwap => Some (with_loc s (LRun (w_cbs s)) (w_sem s) (w_puts s) [], []) | _ => None end
  | WCall => match w_loc s with
             | LRun ((i, v) :: r) => Some (run_callback s i v r, [VCall i v])
             | LRun [] => Some (with_loc s LIdle (w_sem s) (w_puts s) (w_cbs s), [])
             | _ => None end
  | WCancel i => if is_idle (w_loc s) then
                   match nth_error (w_sends s) i with
                   | Some x => Some (with_sends s (if sdone (x_fut x) then w_sends s else upd (w_sends s) i (set_xfut x SCancel)), [])
                   | None => None end
                 else None
  | WFlush => if is_idle (w_loc s) then
                Some (with_flushes s (w_flushes s ++ [{| y_target := w_last s; y_before := length (w_sends s);
                                                         y_ret := match w_last s with Some _ => false | None => true end |}]), [])
              else None
  | WFlushRet j => if is_idle (w_loc s) then
                     match nth_error (w_flushes s) j with
                     | Some y => match y_target y with
                                 | Some i => if negb (y_ret y) && fut_done s i
                                             then Some (with_flushes s (upd (w_flushes s) j {| y_target := y_target y; y_before := y_before y; y_ret := true |}), [])
                                             else None
                                 | None => None end
                     | None => None end
                   else None
  end.

Fixpoint srun (s : asw) (ls : list slab) : option (asw * list sev) :=
  match ls with
  | [] => Some (s, [])
  | l :: ls' => match sstep s l with
                | Some (s', e) => match srun s' ls' with Some (s'', es) => Some (s'', e ++ es) | None => None end
                | None => None end
  end.
