(** Logging from C++ threads to Python: log_function_python (include/spead2/py_common.h:301-328,
    src/py_common.cpp:137-236) and the list of objects to stop at exit (src/py_common.cpp:47-75).
    The ring buffer's operations are atomic here (their own interleavings are C23-C25, RingModel.v), except that
    a slot is given back (space_sem.put) some time after its message was removed, as in
    include/spead2/common_ringbuffer.h:570-581,587-603. *)
From Coq Require Import String List Arith Bool.
From Verif Require Import ConcBase.
Import ListNotations.
Open Scope list_scope.

(** log_level (include/spead2/common_logging.h:35-40) *)
Inductive level := Warning | Info | Debug.
Definition level_index (l : level) : nat := match l with Warning => 0 | Info => 1 | Debug => 2 end.
(** level_methods (src/py_common.cpp:137-142) *)
Definition level_methods : list string := ["warning"%string; "info"%string; "debug"%string].
Record msg := { m_level : level; m_text : string }.
(** The method of the Python logger that log() calls (src/py_common.cpp:198-211).  The method may raise; the
    exception is swallowed there, so nothing depends on it. *)
Definition method (l : level) : string := nth (level_index l) level_methods EmptyString.
Definition drop_text : string := "Log ringbuffer was full - some log messages were dropped".
(** Messages logged in one go while the GIL is held (src/py_common.cpp:171) *)
Definition max_passes : nat := 1024.

Inductive outcome := Accepted | Dropped | Raised.
(** What happens, in order: a call of operator() by thread [p] with its outcome, the overflow flag being set by that
    thread, the consumer taking and releasing the GIL, its calls of the Python logger's methods, ring.stop(), the
    consumer's end, the methods being cleared. *)
Inductive event :=
| ECall (p : nat) (m : msg) (o : outcome)
| EFlag (p : nat)
| EAcq
| ERel
| EMsg (method text : string)
| EWarn (method text : string)
| EStop
| EEnd
| EClear.

(** The consumer thread (run, src/py_common.cpp:154-196): blocked in pop; message removed, slot not yet given back
    ([k] messages of this batch before it); waiting for the GIL; about to log; about to try_pop; about to test the
    flag; about to warn; about to release the GIL; ended *)
Inductive cph :=
| CPop
| CFree (m : msg) (k : nat)
| CGil (m : msg)
| CLog (m : msg) (k : nat)
| CTry (k : nat)
| CXchg
| CWarn
| CRel
| CEnd.
(** A thread that logs: not in a call, or its message was refused and it is about to set the flag *)
Inductive pph := PIdle | PFlag.
(** The thread that calls stop() (src/py_common.cpp:232-243): not yet, GIL released, ring stopped (joining), joined,
    GIL retaken and methods cleared *)
Inductive sph := SNone | SReleased | SJoin | SJoined | SDone.
(** Who holds the GIL: nobody, the consumer, thread [p] of those that log, the thread that stops *)
Inductive owner := ONone | OCons | OProd (p : nat) | OStop.

Record lst := {
  l_q : list msg;
  l_stopped : bool;
  l_ovf : bool;
  l_gil : owner;
  l_prod : list pph;
  l_cons : cph;
  l_stop : sph;
  l_trace : list event      (* newest last *)
}.

Inductive llabel :=
| HCall (p : nat) (m : msg)   (* thread p calls operator(): try_emplace *)
| HFlag (p : nat)             (* ... and sets overflowed *)
| HTake (p : nat)             (* thread p takes the GIL *)
| HDrop (p : nat)             (* thread p releases the GIL *)
| HCons                       (* the consumer's next step *)
| HTakeS                      (* the thread that stops takes the GIL (to call stop, or on the way out) *)
| HStop.                      (* its next step *)

Definition set_cons (s : lst) (c : cph) (evs : list event) : lst :=
  {| l_q := l_q s; l_stopped := l_stopped s; l_ovf := l_ovf s; l_gil := l_gil s; l_prod := l_prod s; l_cons := c; l_stop := l_stop s;
     l_trace := l_trace s ++ evs |}.
Definition set_gil (s : lst) (g : owner) : lst :=
  {| l_q := l_q s; l_stopped := l_stopped s; l_ovf := l_ovf s; l_gil := g; l_prod := l_prod s; l_cons := l_cons s; l_stop := l_stop s;
     l_trace := l_trace s |}.
Definition set_q (s : lst) (q : list msg) : lst :=
  {| l_q := q; l_stopped := l_stopped s; l_ovf := l_ovf s; l_gil := l_gil s; l_prod := l_prod s; l_cons := l_cons s; l_stop := l_stop s;
     l_trace := l_trace s |}.
Definition set_stop (s : lst) (p : sph) (evs : list event) : lst :=
  {| l_q := l_q s; l_stopped := l_stopped s; l_ovf := l_ovf s; l_gil := l_gil s; l_prod := l_prod s; l_cons := l_cons s; l_stop := p;
     l_trace := l_trace s ++ evs |}.
Definition set_ovf (s : lst) (b : bool) : lst :=
  {| l_q := l_q s; l_stopped := l_stopped s; l_ovf := b; l_gil := l_gil s; l_prod := l_prod s; l_cons := l_cons s; l_stop := l_stop s;
     l_trace := l_trace s |}.
Definition set_prod (s : lst) (ps : list pph) (evs : list event) : lst :=
  {| l_q := l_q s; l_stopped := l_stopped s; l_ovf := l_ovf s; l_gil := l_gil s; l_prod := ps; l_cons := l_cons s; l_stop := l_stop s;
     l_trace := l_trace s ++ evs |}.
Definition ring_stop (s : lst) : lst :=
  {| l_q := l_q s; l_stopped := true; l_ovf := l_ovf s; l_gil := l_gil s; l_prod := l_prod s; l_cons := l_cons s; l_stop := l_stop s;
     l_trace := l_trace s |}.

(** Slots in use: the queue and the one not yet given back *)
Definition held (c : cph) : nat := match c with CFree _ _ => 1 | _ => 0 end.
Definition used (s : lst) : nat := length (l_q s) + held (l_cons s).

(** operator() (src/py_common.cpp:213-230): try_emplace, ringbuffer_full is caught, ringbuffer_stopped is not *)
Definition call (cap : nat) (s : lst) (p : nat) (m : msg) : lst :=
  if l_stopped s then set_prod s (l_prod s) [ECall p m Raised]
  else if used s <? cap then set_prod (set_q s (l_q s ++ [m])) (l_prod s) [ECall p m Accepted]
  else set_prod s (upd (l_prod s) p PFlag) [ECall p m Dropped].

(** run (src/py_common.cpp:154-196) *)
Definition cons_step (s : lst) : option lst :=
  match l_cons s with
  | CPop => match l_q s with
            | m :: q => Some (set_cons (set_q s q) (CFree m 0) [])
            | [] => if l_stopped s then Some (set_cons s CEnd [EEnd]) else None
            end
  | CFree m k => Some (set_cons s (match k with O => CGil m | _ => CLog m k end) [])
  | CGil m => match l_gil s with ONone => Some (set_cons (set_gil s OCons) (CLog m 0) [EAcq]) | _ => None end
  | CLog m k => Some (set_cons s (CTry (S k)) [EMsg (method (m_level m)) (m_text m)])
  | CTry k => if k <? max_passes then
                match l_q s with
                | m :: q => Some (set_cons (set_q s q) (CFree m k) [])
                | [] => if l_stopped s then Some (set_cons (set_gil s ONone) CEnd [EEnd])   (* ringbuffer_stopped leaves both try blocks *)
                        else Some (set_cons s CXchg [])
                end
              else Some (set_cons s CXchg [])
  | CXchg => Some (set_cons (set_ovf s false) (if l_ovf s then CWarn else CRel) [])
  | CWarn => Some (set_cons s CRel [EWarn (method Warning) drop_text])
  | CRel => Some (set_cons (set_gil s ONone) CPop [ERel])
  | CEnd => None
  end.

(** stop() (src/py_common.cpp:232-243), called with the GIL held; a second stop (from the destructor) finds the ring
    stopped and the thread joined, and is not modelled *)
Definition stop_step (s : lst) : option lst :=
  match l_stop s with
  | SNone => match l_gil s with OStop => Some (set_stop (set_gil s ONone) SReleased []) | _ => None end
  | SReleased => Some (set_stop (ring_stop s) SJoin [EStop])
  | SJoin => match l_cons s with CEnd => Some (set_stop s SJoined []) | _ => None end
  | SJoined => match l_gil s with OStop => Some (set_stop s SDone [EClear]) | _ => None end
  | SDone => None
  end.

Definition owner_eqb (a b : owner) : bool :=
  match a, b with ONone, ONone => true | OCons, OCons => true | OStop, OStop => true | OProd p, OProd q => Nat.eqb p q | _, _ => false end.

Definition lstep (cap : nat) (s : lst) (l : llabel) : option lst :=
  match l with
  | HCall p m => match nth_error (l_prod s) p with Some PIdle => Some (call cap s p m) | _ => None end
  | HFlag p => match nth_error (l_prod s) p with
               | Some PFlag => Some (set_prod (set_ovf s true) (upd (l_prod s) p PIdle) [EFlag p])
               | _ => None end
  | HTake p => if (p <? length (l_prod s)) && owner_eqb (l_gil s) ONone then Some (set_gil s (OProd p)) else None
  | HDrop p => if owner_eqb (l_gil s) (OProd p) then Some (set_gil s ONone) else None
  | HCons => cons_step s
  | HTakeS => match l_stop s with
              | SNone | SJoined => if owner_eqb (l_gil s) ONone then Some (set_gil s OStop) else None
              | _ => None end
  | HStop => stop_step s
  end.
Fixpoint lrun (cap : nat) (s : lst) (ls : list llabel) : option lst :=
  match ls with
  | [] => Some s
  | l :: ls => match lstep cap s l with Some s' => lrun cap s' ls | None => None end
  end.
(** The constructor (src/py_common.cpp:144-152), with [n] threads that may log *)
Definition linit (n : nat) : lst :=
  {| l_q := []; l_stopped := false; l_ovf := false; l_gil := ONone; l_prod := repeat PIdle n; l_cons := CPop; l_stop := SNone; l_trace := [] |}.

(** ** Objects to stop at exit.  stop_entries (src/py_common.cpp:47) as a list of objects' names, newest first. *)
(** exit_stopper's constructor (src/py_common.cpp:64-67) *)
Definition register (x : nat) (l : list nat) : list nat := x :: l.
(** exit_stopper::reset (src/py_common.cpp:69-76): only the first time *)
Fixpoint reset (x : nat) (l : list nat) : list nat :=
  match l with [] => [] | y :: l => if Nat.eqb x y then l else y :: reset x l end.
Definition resets (xs : list nat) (l : list nat) : list nat := fold_left (fun l x => reset x l) xs l.
(** An object's stop function: it calls its own reset (include/spead2/py_common.h:255-258), and stopping it may destroy
    other objects, whose destructors reset theirs; or it throws after its reset. *)
Record stopfn := { sf_others : list nat; sf_throws : bool }.
(** run_exit_stoppers (src/py_common.cpp:51-58): the objects stopped by the loop in order, the list left, whether the
    logger was put back (not if a stop function threw).  [fuel] bounds the loop; None if it runs out. *)
Fixpoint run_exit (f : nat -> stopfn) (fuel : nat) (l : list nat) : option (list nat * list nat * bool) :=
  match l with
  | [] => Some ([], [], true)
  | x :: _ =>
      match fuel with
      | O => None
      | S fuel =>
          if sf_throws (f x) then Some ([x], reset x l, false)
          else match run_exit f fuel (resets (sf_others (f x)) (reset x l)) with
               | Some (done, rest, restored) => Some (x :: done, rest, restored)
               | None => None
               end
      end
  end.
