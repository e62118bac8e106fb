(** The life of a receiving stream and its readers: spead2::recv::stream and reader
    (/repo/include/spead2/recv_stream.h:584-603, 678-752, 774-1087; /repo/src/recv_stream.cpp:440-474,
    567-691): who may call what, in which thread, under which lock, and when the stream, the
    readers and the state they share may be freed.

    Any number of threads; each executes calls of the user or completion handlers of the
    io_context.  A step is one action between two scheduling points.  The assembly of heaps is
    StreamModel's: here only the number of live heaps is kept, and what a handler does to
    them is up to the environment ([Body]).  Simplified: stats_mutex (a leaf: nothing else is
    locked while it is held) is left out; heap_ready returns (the case where it blocks is
    RingStreamModel's) and does not call back into the stream; constructors and start of
    readers do not throw.  The last field of the state is history: it is not read. *)
From Coq Require Import List Bool Arith.
From Verif Require Import ConcBase.
Import ListNotations.

Inductive event :=
| Made (r : nat)          (* a reader is constructed and added *)
| Ignored                 (* emplace_reader did nothing *)
| Refused                 (* emplace_reader threw *)
| Started (r : nat)       (* reader::start *)
| Stopped (r : nat)       (* reader::stop *)
| Ran (r : nat)           (* the wrapped handler of a reader did something *)
| RanPosted               (* a function given to post was called *)
| Heaps                   (* heap_ready was called *)
| StopRet                 (* stop returned *)
| Gone.                   (* the stream, with its readers, has been destroyed *)

(** Completion handlers: bound_handler of a reader (recv_stream.h:843-866), or a function
    given to post (:684-693).  Each owns a shared_ptr to the shared_state. *)
Inductive handler := Bound (r : nat) | Posted.
(** Where stop_received returns to *)
Inductive ret := FromStop (d : bool) | FromHandler.
Inductive pc :=
| Idle
| ELock | ECheck | EMake | EStart (r : nat) | EUnlock           (* emplace_reader *)
| SLock | STest | SLoop (i : nat) | SUnlock                     (* stream::start *)
| FLock | FRun | FUnlock                                        (* flush *)
| TOnce (d : bool) | TLock (d : bool) | TTest (d : bool) | TUnlock (d : bool) | TDone (d : bool) | TRet (d : bool)   (* stop; [d]: for the destructor *)
| RFlag (k : ret) | RFlush (k : ret) | RLock (k : ret) | RLoop (k : ret) (i : nat) | RUnlock (k : ret)               (* stop_received *)
| HLock (r : nat) | HSelf (r : nat) | HBody (r : nat) (ctx st : bool) | HEnd (st : bool) | HStats | HUnlock (ctx : bool)  (* bound_handler *)
| PLock | PSelf | PBody | PUnlock                               (* post *)
| Destroy.

Record state := {
  pcs : list pc;
  qm : bool; rm : bool;          (* queue_mutex and reader_mutex are locked *)
  once : option bool;            (* stop_once: None new, Some false running, Some true done *)
  self : bool;                   (* shared_state::self is not null *)
  stopped : bool;                (* stream_base::stopped *)
  stop_readers : bool; started : bool;
  nrd : nat;                     (* size of readers *)
  live : nat;                    (* live heaps *)
  pend : list handler;           (* waiting in the io_context *)
  alive : bool;                  (* the stream has not been destroyed *)
  dying : bool;                  (* the destructor has been called *)
  refs : nat;                    (* count of the shared_ptr to the shared_state; freed at 0 *)
  trace : list event
}.
Inductive res := Blocked | Fault | Ok (s : state).

Section Model.
Context (explicit : bool).       (* stream_config::explicit_start *)

(** stream::stream (recv_stream.cpp:639-645), with [n] threads *)
Definition init (n : nat) : state :=
  {| pcs := repeat Idle n; qm := false; rm := false; once := None; self := true; stopped := false; stop_readers := false; started := negb explicit; nrd := 0; live := 0;
     pend := []; alive := true; dying := false; refs := 1; trace := [] |}.

Definition goto (t : nat) (p : pc) (s : state) : state :=
  {| pcs := upd (pcs s) t p; qm := qm s; rm := rm s; once := once s; self := self s; stopped := stopped s; stop_readers := stop_readers s; started := started s; nrd := nrd s; live := live s;
     pend := pend s; alive := alive s; dying := dying s; refs := refs s; trace := trace s |}.
Definition set_qm (b : bool) (s : state) : state :=
  {| pcs := pcs s; qm := b; rm := rm s; once := once s; self := self s; stopped := stopped s; stop_readers := stop_readers s; started := started s; nrd := nrd s; live := live s;
     pend := pend s; alive := alive s; dying := dying s; refs := refs s; trace := trace s |}.
Definition set_rm (b : bool) (s : state) : state :=
  {| pcs := pcs s; qm := qm s; rm := b; once := once s; self := self s; stopped := stopped s; stop_readers := stop_readers s; started := started s; nrd := nrd s; live := live s;
     pend := pend s; alive := alive s; dying := dying s; refs := refs s; trace := trace s |}.
Definition set_once (b : bool) (s : state) : state :=
  {| pcs := pcs s; qm := qm s; rm := rm s; once := Some b; self := self s; stopped := stopped s; stop_readers := stop_readers s; started := started s; nrd := nrd s; live := live s;
     pend := pend s; alive := alive s; dying := dying s; refs := refs s; trace := trace s |}.
Definition emit (e : event) (s : state) : state :=
  {| pcs := pcs s; qm := qm s; rm := rm s; once := once s; self := self s; stopped := stopped s; stop_readers := stop_readers s; started := started s; nrd := nrd s; live := live s;
     pend := pend s; alive := alive s; dying := dying s; refs := refs s; trace := trace s ++ [e] |}.
Definition set_live (n : nat) (s : state) : state :=
  {| pcs := pcs s; qm := qm s; rm := rm s; once := once s; self := self s; stopped := stopped s; stop_readers := stop_readers s; started := started s; nrd := nrd s; live := n;
     pend := pend s; alive := alive s; dying := dying s; refs := refs s; trace := trace s |}.
(** A handler is given to the io_context; its context is new ([n] = 1) or moved ([n] = 0). *)
Definition submit (h : handler) (n : nat) (s : state) : state :=
  {| pcs := pcs s; qm := qm s; rm := rm s; once := once s; self := self s; stopped := stopped s; stop_readers := stop_readers s; started := started s; nrd := nrd s; live := live s;
     pend := pend s ++ [h]; alive := alive s; dying := dying s; refs := n + refs s; trace := trace s |}.
(** [n] shared pointers are destroyed; the shared_state, and so its mutex, with the last one. *)
Definition release (n : nat) (s : state) : res :=
  if refs s <? n then Fault
  else if (refs s =? n) && qm s then Fault
  else Ok {| pcs := pcs s; qm := qm s; rm := rm s; once := once s; self := self s; stopped := stopped s; stop_readers := stop_readers s; started := started s; nrd := nrd s; live := live s;
             pend := pend s; alive := alive s; dying := dying s; refs := refs s - n; trace := trace s |}.
Definition bind (r : res) (f : state -> res) : res := match r with Ok s => f s | r => r end.

(** The stream, or a reader, or the shared_state is accessed. *)
Definition on_stream (s : state) (r : res) : res := if alive s then r else Fault.
Definition on_reader (r : nat) (s : state) (x : res) : res := if alive s && (r <? nrd s) then x else Fault.
Definition on_shared (s : state) (r : res) : res := if 0 <? refs s then r else Fault.
Definition lock_q (t : nat) (p : pc) (s : state) : res := on_shared s (if qm s then Blocked else Ok (goto t p (set_qm true s))).
Definition unlock_q (s : state) : res := on_shared s (if qm s then Ok (set_qm false s) else Fault).
Definition lock_r (t : nat) (p : pc) (s : state) : res := on_stream s (if rm s then Blocked else Ok (goto t p (set_rm true s))).
Definition unlock_r (s : state) : res := on_stream s (if rm s then Ok (set_rm false s) else Fault).

(** stream_base::flush_unlocked (recv_stream.cpp:567-592) *)
Definition flush (s : state) : state := if live s =? 0 then s else set_live 0 (emit Heaps s).

(** The next action of thread [t], at [p] *)
Definition run_pc (t : nat) (p : pc) (s : state) : res :=
  match p with
  | Idle => Blocked
  (* emplace_reader: recv_stream.h:1034-1056 *)
  | ELock => lock_r t ECheck s
  | ECheck => on_stream s (
      if explicit && started s then Ok (goto t EUnlock (emit Refused s))
      else if stop_readers s then Ok (goto t EUnlock (emit Ignored s))
      else Ok (goto t EMake s))
  | EMake => on_stream s (
      let s' := emit (Made (nrd s)) s in
      Ok (goto t (if explicit then EUnlock else EStart (nrd s))
        {| pcs := pcs s'; qm := qm s'; rm := rm s'; once := once s'; self := self s'; stopped := stopped s'; stop_readers := stop_readers s'; started := started s'; nrd := S (nrd s'); live := live s';
           pend := pend s'; alive := alive s'; dying := dying s'; refs := S (refs s'); trace := trace s' |}))
  | EStart r => on_reader r s (Ok (goto t EUnlock (submit (Bound r) 1 (emit (Started r) s))))
  | EUnlock => bind (unlock_r s) (fun s => Ok (goto t Idle s))
  (* stream::start: recv_stream.cpp:647-656 *)
  | SLock => lock_r t STest s
  | STest => on_stream s (Ok (goto t (if started s then SUnlock else SLoop 0) s))
  | SLoop i =>
      if i <? nrd s then on_reader i s (Ok (goto t (SLoop (S i)) (submit (Bound i) 1 (emit (Started i) s))))
      else on_stream s (Ok (goto t SUnlock
        {| pcs := pcs s; qm := qm s; rm := rm s; once := once s; self := self s; stopped := stopped s; stop_readers := stop_readers s; started := true; nrd := nrd s; live := live s;
           pend := pend s; alive := alive s; dying := dying s; refs := refs s; trace := trace s |}))
  | SUnlock => bind (unlock_r s) (fun s => Ok (goto t Idle s))
  (* stream_base::flush: :594-598 *)
  | FLock => on_stream s (lock_q t FRun s)
  | FRun => on_stream s (Ok (goto t FUnlock (flush s)))
  | FUnlock => bind (unlock_q s) (fun s => Ok (goto t Idle s))
  (* stream::stop (:677-680): call_once; stop_impl and stream_base::stop (:672-675, 606-610), stop_unlocked (:600-604) *)
  | TOnce d => on_stream s (
      match once s with
      | None => Ok (goto t (TLock d) (set_once false s))
      | Some false => Blocked
      | Some true => Ok (goto t (TRet d) s)
      end)
  | TLock d => on_stream s (lock_q t (TTest d) s)
  | TTest d => on_stream s (Ok (goto t (if stopped s then TUnlock d else RFlag (FromStop d)) s))
  | TUnlock d => bind (unlock_q s) (fun s => Ok (goto t (TDone d) s))
  | TDone d => on_stream s (Ok (goto t (TRet d) (set_once true s)))
  | TRet d => Ok (goto t (if d then Destroy else Idle) (emit StopRet s))
  (* stream::stop_received (:658-670), calling stream_base::stop_received (:612-618); the two assignments in one step, as both variables are only used under the lock *)
  | RFlag k => on_stream s (
      if stopped s then Fault       (* assert(!stopped) *)
      else Ok (goto t (RFlush k)
        {| pcs := pcs s; qm := qm s; rm := rm s; once := once s; self := false; stopped := true; stop_readers := stop_readers s; started := started s; nrd := nrd s; live := live s;
           pend := pend s; alive := alive s; dying := dying s; refs := refs s; trace := trace s |}))
  | RFlush k => on_stream s (Ok (goto t (RLock k) (flush s)))
  | RLock k => lock_r t (RLoop k 0) s
  | RLoop k i =>
      if i <? nrd s then on_reader i s (Ok (goto t (RLoop k (S i)) (emit (Stopped i) s)))
      else on_stream s (Ok (goto t (RUnlock k)
        {| pcs := pcs s; qm := qm s; rm := rm s; once := once s; self := self s; stopped := stopped s; stop_readers := true; started := started s; nrd := nrd s; live := live s;
           pend := pend s; alive := alive s; dying := dying s; refs := refs s; trace := trace s |}))
  | RUnlock k => bind (unlock_r s) (fun s => Ok (goto t (match k with FromStop d => TUnlock d | FromHandler => HStats end) s))
  (* bound_handler (recv_stream.h:856-865), the constructor of add_packet_state (recv_stream.cpp:440-452) *)
  | HLock r => lock_q t (HSelf r) s
  | HSelf r => on_shared s (if self s then on_stream s (Ok (goto t (HBody r true (stopped s)) s)) else Ok (goto t (HUnlock true) s))
  (* the wrapped handler returns; its parameter is destroyed unless it was moved from *)
  | HBody r ctx st => bind (if ctx then release 1 s else Ok s) (fun s => Ok (goto t (HEnd st) s))
  (* the destructor of add_packet_state (:454-474) *)
  | HEnd st => on_stream s (Ok (goto t (if st then RFlag FromHandler else HStats) s))
  | HStats => on_stream s (Ok (goto t (HUnlock false) s))
  (* the lock is released; then the bound handler is destroyed, with the context if it still has it *)
  | HUnlock ctx => bind (unlock_q s) (fun s => bind (if ctx then release 1 s else Ok s) (fun s => Ok (goto t Idle s)))
  (* post: recv_stream.h:687-692 *)
  | PLock => lock_q t PSelf s
  | PSelf => on_shared s (Ok (goto t (if self s then PBody else PUnlock) s))
  | PBody => on_stream s (Ok (goto t PUnlock (emit RanPosted s)))
  | PUnlock => bind (unlock_q s) (fun s => bind (release 1 s) (fun s => Ok (goto t Idle s)))
  (* ~stream and ~stream_base: the readers, the mutexes and the pointer to the shared_state go; locked mutexes must not be destroyed *)
  | Destroy => on_stream s (
      if rm s then Fault else
      bind (release (S (nrd s)) s) (fun s =>
        Ok (goto t Idle (emit Gone
          {| pcs := pcs s; qm := qm s; rm := rm s; once := once s; self := self s; stopped := stopped s; stop_readers := stop_readers s; started := started s; nrd := nrd s; live := live s;
             pend := pend s; alive := false; dying := dying s; refs := refs s; trace := trace s |}))))
  end.

(** What a wrapped handler may do (recv_udp.cpp, recv_tcp.cpp, recv_mem.cpp, recv_inproc.cpp,
    recv_udp_pcap.cpp, recv_udp_ibv.h): use its reader, add a packet (which leaves [n] live
    heaps, may pass on heaps and may stop the stream), call add_packet_state::stop, and bind
    a new handler, with its own context or a new one. *)
Inductive act := AddPacket (n : nat) (heaps stop : bool) | SayStop | Rebind | BindNew.
Definition body (t : nat) (r : nat) (ctx st : bool) (a : act) (s : state) : res :=
  let s := emit (Ran r) s in
  on_reader r s
    match a with
    | AddPacket n heaps stop =>
        if st then Blocked                      (* the handlers check is_stopped *)
        else if stopped s then Fault            (* assert(!stopped), recv_stream.cpp:479 *)
        else let s := set_live n s in Ok (goto t (HBody r ctx stop) (if heaps then emit Heaps s else s))
    | SayStop => Ok (goto t (HBody r ctx true) s)
    | Rebind => if ctx then Ok (goto t (HBody r false st) (submit (Bound r) 0 s)) else Blocked
    | BindNew => Ok (goto t (HBody r ctx st) (submit (Bound r) 1 s))
    end.

(** Calls of the user.  The user may not call anything once the destructor has been called,
    nor call the destructor while another call is in progress: such calls are not steps. *)
Inductive op := Emplace | Start | Flush | Stop | Post | Destruct.
Definition in_call (p : pc) : bool :=
  match p with
  | Idle | HLock _ | HSelf _ | HBody _ _ _ | HEnd _ | HStats | HUnlock _ | PLock | PSelf | PBody | PUnlock
  | RFlag FromHandler | RFlush FromHandler | RLock FromHandler | RLoop FromHandler _ | RUnlock FromHandler => false
  | _ => true
  end.
Definition call (t : nat) (o : op) (s : state) : res :=
  if dying s then Blocked
  else match o with
       | Emplace => Ok (goto t ELock s)
       | Start => Ok (goto t SLock s)
       | Flush => Ok (goto t FLock s)
       | Stop => Ok (goto t (TOnce false) s)
       | Post => on_stream s (Ok (submit Posted 1 s))
       | Destruct =>
           if existsb in_call (pcs s) then Blocked
           else Ok (goto t (TOnce true)
             {| pcs := pcs s; qm := qm s; rm := rm s; once := once s; self := self s; stopped := stopped s; stop_readers := stop_readers s; started := started s; nrd := nrd s; live := live s;
                pend := pend s; alive := alive s; dying := true; refs := refs s; trace := trace s |})
       end.
Definition unpend (k : nat) (s : state) : state :=
  {| pcs := pcs s; qm := qm s; rm := rm s; once := once s; self := self s; stopped := stopped s; stop_readers := stop_readers s; started := started s; nrd := nrd s; live := live s;
     pend := firstn k (pend s) ++ skipn (S k) (pend s); alive := alive s; dying := dying s; refs := refs s; trace := trace s |}.

Inductive label :=
| Run (t : nat)
| Body (t : nat) (a : act)
| Call (t : nat) (o : op)
| Dispatch (t k : nat)      (* the io_context runs a handler in thread [t] *)
| Drop (k : nat).           (* the io_context is destroyed, with a handler *)
Definition next (s : state) (l : label) : res :=
  match l with
  | Run t => match nth_error (pcs s) t with Some p => run_pc t p s | None => Blocked end
  | Body t a => match nth_error (pcs s) t with Some (HBody r ctx st) => body t r ctx st a s | _ => Blocked end
  | Call t o => match nth_error (pcs s) t with Some Idle => call t o s | _ => Blocked end
  | Dispatch t k =>
      match nth_error (pcs s) t, nth_error (pend s) k with
      | Some Idle, Some (Bound r) => Ok (goto t (HLock r) (unpend k s))
      | Some Idle, Some Posted => Ok (goto t PLock (unpend k s))
      | _, _ => Blocked
      end
  | Drop k => match nth_error (pend s) k with Some _ => release 1 (unpend k s) | None => Blocked end
  end.

Inductive reach (n : nat) : state -> Prop :=
| reach_init : reach n (init n)
| reach_step s l s' : reach n s -> next s l = Ok s' -> reach n s'.
Fixpoint run_labels (s : state) (ls : list label) : res :=
  match ls with [] => Ok s | l :: ls => match next s l with Ok s' => run_labels s' ls | r => r end end.
End Model.
