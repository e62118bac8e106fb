(** Synchronous sends from Python: the class [stream_wrapper] of src/py_send.cpp
    (148-222), called from any number of Python threads, with signals that
    interrupt the calls, the reference counts of the heaps, and the stream's own
    queue (send_stream.h:290-401, 531-541; send_stream.cpp:92-109).

    Simplified: what the writer does with a group of heaps is C34 to C38; here it
    reads the heaps of the oldest group, in any order and any number of times, and
    then completes the group.  The heap's item buffers live and die with the heap
    ([item_buffers], py_send.cpp:51-75). *)
From Coq Require Import ZArith List Lia Bool.
From Verif Require Import ConcBase.
Import ListNotations.

(** How one heap of a call fares: a good one, a substream out of range
    (send_stream.h:321-328), a heap cnt out of range (:348-354). *)
Inductive avalid := AOk | ABadSub | ABadCnt.
(** [boost::system::error_code]. *)
Inductive ecode := ENone | EInval | EWouldBlock | EOther (e : nat).
(** [send_heap(h)], [send_heaps(HeapReferenceList)], [send_heaps(list)]
    (py_send.cpp:784-791).  In the first two the arguments of the call hold
    references to the heaps (the list's [objects], :111); in the third they hold a
    Python list, which other threads can change. *)
Inductive form := FOne | FHrl | FList.

(** A Python [Heap] object: its reference count, and how many of the references
    are the program's own (counted for the statements). *)
Record heapo := { hp_rc : nat; hp_user : nat }.
(** A call and its [callback_state] (:152-167): [k_held] the references of the
    call's arguments are still there; [k_wait] the thread is in the call; [k_cb]
    (counted for the statements) the callback has not run; [k_rc] the count of the
    [shared_ptr]. *)
Record call := {
  k_form : form; k_thread : nat; k_heaps : list nat; k_held : bool; k_wait : bool; k_cb : bool; k_rc : nat;
  k_sem : nat; k_ec : ecode; k_bytes : nat }.
(** A group in the stream's queue: the call whose callback it has, its heaps, the
    bytes sent. *)
Record group := { gq_call : nat; gq_heaps : list nat; gq_bytes : nat }.
Inductive mode := Open | Closing | Closed.
(** [y_posted]: handlers of refused calls, posted to the I/O context. *)
Record sst := {
  y_cap : nat; y_heaps : list heapo; y_calls : list call; y_queue : list group; y_posted : list (nat * ecode); y_mode : mode }.
Definition sst_init (cap : nat) : sst :=
  {| y_cap := cap; y_heaps := []; y_calls := []; y_queue := []; y_posted := []; y_mode := Open |}.

(** What can be observed. *)
Inductive sev :=
| VAccept (c : nat) | VRead (c h n : nat) | VSent (c : nat) (e : ecode) (b : nat) | VRefused (c : nat) (e : ecode)
| VRet (c : nat) (e : ecode) (b : nat) | VIntr (c : nat) | VClear (c : nat) | VClosed.
(** A use of a deallocated heap, or of a deallocated [callback_state]. *)
Inductive ubk := UHeap | UState.
Inductive out := Ok (s : sst) (es : list sev) | Ub (u : ubk).

Inductive slab :=
| LNew | LRef (h : nat) | LUnref (h : nat)
| LSend (f : form) (t : nat) (args : list (nat * avalid))
| LClear (c : nat) | LWake (c : nat) | LIntr (c : nat)
| LRead (j n : nat) | LFinish (e : ecode) | LPosted (j : nat)
| LClose | LCloseDone.

(** The loop of [async_send_heaps_impl] (send_stream.h:304-364): the heaps in
    turn, [room] slots left; the error of the first heap that is refused. *)
Fixpoint accept_all (room : nat) (args : list (nat * avalid)) {struct args} : option ecode :=
  match args with
  | [] => None
  | (_, ABadSub) :: _ => Some EInval
  | (_, v) :: r =>
      match room with
      | O => Some EWouldBlock
      | S room' => match v with ABadCnt => Some EInval | _ => accept_all room' r end
      end
  end.
(** [async_send_heaps] (:531-541): an empty group is refused. *)
Definition verdict (room : nat) (args : list (nat * avalid)) : option ecode :=
  match args with [] => Some EInval | _ => accept_all room args end.
Definition used (q : list group) : nat := sumw (fun g => length (gq_heaps g)) q.

Definition live (s : sst) (h : nat) : bool :=
  match nth_error (y_heaps s) h with Some o => 0 <? hp_rc o | None => false end.
Definition owned (s : sst) (h : nat) : bool :=
  match nth_error (y_heaps s) h with Some o => 0 <? hp_user o | None => false end.
Definition busy (t : nat) (k : call) : bool := k_wait k && (k_thread k =? t).
Definition is_open (m : mode) : bool := match m with Open => true | _ => false end.
(** The destructor of the stream runs in a Python thread that holds the
    interpreter lock (send_stream.cpp:92-109; nothing in py_send.cpp releases it
    there), so meanwhile no Python code runs. *)
Definition py_free (m : mode) : bool := match m with Closing => false | _ => true end.

Definition count (h : nat) (l : list nat) : nat := count_occ Nat.eq_dec l h.
(** The arguments of a call take a reference to each heap; and give it back. *)
Fixpoint grab (hs : list nat) (l : list heapo) : list heapo :=
  match hs with
  | [] => l
  | h :: r => match nth_error l h with
              | Some o => grab r (upd l h {| hp_rc := hp_rc o + 1; hp_user := hp_user o |})
              | None => grab r l end
  end.
Fixpoint drop (hs : list nat) (l : list heapo) : list heapo :=
  match hs with
  | [] => l
  | h :: r => match nth_error l h with
              | Some o => drop r (upd l h {| hp_rc := hp_rc o - 1; hp_user := hp_user o |})
              | None => drop r l end
  end.

Definition with_heaps (s : sst) (hs : list heapo) : sst :=
  {| y_cap := y_cap s; y_heaps := hs; y_calls := y_calls s; y_queue := y_queue s; y_posted := y_posted s; y_mode := y_mode s |}.
Definition with_mode (s : sst) (m : mode) : sst :=
  {| y_cap := y_cap s; y_heaps := y_heaps s; y_calls := y_calls s; y_queue := y_queue s; y_posted := y_posted s; y_mode := m |}.
Definition with_call (s : sst) (hs : list heapo) (c : nat) (k : call) : sst :=
  {| y_cap := y_cap s; y_heaps := hs; y_calls := upd (y_calls s) c k; y_queue := y_queue s; y_posted := y_posted s; y_mode := y_mode s |}.
Definition with_queue (s : sst) (q : list group) (p : list (nat * ecode)) : sst :=
  {| y_cap := y_cap s; y_heaps := y_heaps s; y_calls := y_calls s; y_queue := q; y_posted := p; y_mode := y_mode s |}.

(** [send_heap] and [send_heaps] up to [semaphore_get] (py_send.cpp:182-189,
    202-209): make the state, queue the heaps with a callback that shares it. *)
Definition do_send (s : sst) (f : form) (t : nat) (args : list (nat * avalid)) : sst * list sev :=
  let c := length (y_calls s) in
  let hs := map fst args in
  let k := {| k_form := f; k_thread := t; k_heaps := hs; k_held := true; k_wait := true; k_cb := true; k_rc := 2;
              k_sem := 0; k_ec := ENone; k_bytes := 0 |} in
  let v := verdict (y_cap s - used (y_queue s)) args in
  ({| y_cap := y_cap s; y_heaps := grab hs (y_heaps s); y_calls := y_calls s ++ [k];
      y_queue := match v with None => y_queue s ++ [{| gq_call := c; gq_heaps := hs; gq_bytes := 0 |}] | Some _ => y_queue s end;
      y_posted := match v with None => y_posted s | Some e => y_posted s ++ [(c, e)] end;
      y_mode := y_mode s |},
   match v with None => [VAccept c] | Some _ => [] end).

(** The callback (:183-188), and the destruction of its copy of the pointer. *)
Definition run_callback (s : sst) (c : nat) (e : ecode) (b : nat) (ev : sev) : option out :=
  match nth_error (y_calls s) c with
  | Some k =>
      if k_rc k =? 0 then Some (Ub UState)
      else Some (Ok (with_call s (y_heaps s) c
                       {| k_form := k_form k; k_thread := k_thread k; k_heaps := k_heaps k; k_held := k_held k; k_wait := k_wait k;
                          k_cb := false; k_rc := k_rc k - 1; k_sem := S (k_sem k); k_ec := e; k_bytes := b |}) [ev])
  | None => None
  end.

(** Leaving the call, normally or by an exception: the call's pointer to the
    state and the references of its arguments go. *)
Definition leave (s : sst) (c : nat) (k : call) (sem : nat) : sst :=
  with_call s (if k_held k then drop (k_heaps k) (y_heaps s) else y_heaps s) c
    {| k_form := k_form k; k_thread := k_thread k; k_heaps := k_heaps k; k_held := false; k_wait := false;
       k_cb := k_cb k; k_rc := k_rc k - 1; k_sem := sem; k_ec := k_ec k; k_bytes := k_bytes k |}.

Definition sstep (s : sst) (l : slab) : option out :=
  match l with
  | LNew => if py_free (y_mode s) then Some (Ok (with_heaps s (y_heaps s ++ [{| hp_rc := 1; hp_user := 1 |}])) []) else None
  | LRef h =>
      if py_free (y_mode s) && owned s h then
        match nth_error (y_heaps s) h with
        | Some o => Some (Ok (with_heaps s (upd (y_heaps s) h {| hp_rc := S (hp_rc o); hp_user := S (hp_user o) |})) [])
        | None => None end
      else None
  | LUnref h =>
      if py_free (y_mode s) && owned s h then
        match nth_error (y_heaps s) h with
        | Some o => Some (Ok (with_heaps s (upd (y_heaps s) h {| hp_rc := hp_rc o - 1; hp_user := hp_user o - 1 |})) [])
        | None => None end
      else None
  | LSend f t args =>
      if is_open (y_mode s) && negb (existsb (busy t) (y_calls s)) && forallb (fun a => owned s (fst a)) args
         && match f with FOne => length args =? 1 | _ => true end
      then let (s', es) := do_send s f t args in Some (Ok s' es) else None
  | LClear c =>
      (* another thread empties the list passed to send_heaps *)
      if py_free (y_mode s) then
        match nth_error (y_calls s) c with
        | Some k =>
            match k_form k with
            | FList =>
                if k_wait k && k_held k then
                  Some (Ok (with_call s (drop (k_heaps k) (y_heaps s)) c
                              {| k_form := k_form k; k_thread := k_thread k; k_heaps := k_heaps k; k_held := false; k_wait := k_wait k;
                                 k_cb := k_cb k; k_rc := k_rc k; k_sem := k_sem k; k_ec := k_ec k; k_bytes := k_bytes k |}) [VClear c])
                else None
            | _ => None end
        | None => None end
      else None
  | LWake c =>
      (* semaphore_get returns; throw boost_io_error or return the byte count (py_send.cpp:190-194) *)
      if py_free (y_mode s) then
        match nth_error (y_calls s) c with
        | Some k => if k_wait k then
                      if k_rc k =? 0 then Some (Ub UState)
                      else match k_sem k with S n => Some (Ok (leave s c k n) [VRet c (k_ec k) (k_bytes k)]) | O => None end
                    else None
        | None => None end
      else None
  | LIntr c =>
      (* sem.get is interrupted and PyErr_CheckSignals raises (py_common.h:299-304) *)
      if py_free (y_mode s) then
        match nth_error (y_calls s) c with
        | Some k => if k_wait k then Some (Ok (leave s c k (k_sem k)) [VIntr c]) else None
        | None => None end
      else None
  | LRead j n =>
      (* the packet generator builds a packet from one of the heaps, n bytes are sent *)
      match y_queue s with
      | g :: q =>
          match nth_error (gq_heaps g) j with
          | Some h => if live s h
                      then Some (Ok (with_queue s ({| gq_call := gq_call g; gq_heaps := gq_heaps g; gq_bytes := gq_bytes g + n |} :: q) (y_posted s))
                                    [VRead (gq_call g) h n])
                      else Some (Ub UHeap)
          | None => None end
      | [] => None end
  | LFinish e =>
      (* groups_completed: the callback of the oldest group *)
      match y_queue s with
      | g :: q => run_callback (with_queue s q (y_posted s)) (gq_call g) e (gq_bytes g) (VSent (gq_call g) e (gq_bytes g))
      | [] => None end
  | LPosted j =>
      match nth_error (y_posted s) j with
      | Some (c, e) => run_callback (with_queue s (y_queue s) (firstn j (y_posted s) ++ skipn (S j) (y_posted s))) c e 0 (VRefused c e)
      | None => None end
  | LClose =>
      (* the last reference to the stream goes; calls in progress hold one *)
      if is_open (y_mode s) && negb (existsb k_wait (y_calls s)) then Some (Ok (with_mode s Closing) []) else None
  | LCloseDone =>
      (* stream::~stream: flush has waited for the queue to empty *)
      match y_mode s, y_queue s with Closing, [] => Some (Ok (with_mode s Closed) [VClosed]) | _, _ => None end
  end.

Fixpoint srun (s : sst) (ls : list slab) (es : list sev) : option out :=
  match ls with
  | [] => Some (Ok s es)
  | l :: ls' => match sstep s l with
                | Some (Ok s' e) => srun s' ls' (es ++ e)
                | Some (Ub u) => Some (Ub u)
                | None => None end
  end.
