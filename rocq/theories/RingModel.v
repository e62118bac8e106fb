(** Small-step model of the ring buffer:
    /repo/include/spead2/common_ringbuffer.h:141-643 and the semaphores of
    /repo/include/spead2/common_semaphore.h, /repo/src/common_semaphore.cpp.

    Any number of threads; one atomic step per critical section (head_mutex or
    tail_mutex) and per semaphore operation, interleaved arbitrarily.  The four
    semaphore classes are modelled as a counter (RingSemModel has them as they
    are, and C67_ring says that this makes no difference); try_get may also fail although
    the counter is positive (interrupted system call, or - semaphore_spin,
    common_semaphore.cpp:67-76 - a concurrent change between load and CAS): the
    [spurious] flag of a step.  Simplifications: counters do not overflow;
    constructing and moving a T does not throw; mutex acquisition always
    succeeds eventually. *)
From Coq Require Import List Arith Bool.
From Verif Require Import ConcBase.
Import ListNotations.

Section Ring.
Context {V : Type}.

Inductive op := OpPush (v : V) | OpTryPush (v : V) | OpPop | OpTryPop | OpStop | OpAddProducer | OpRemoveProducer | OpSize.
Inductive result := RPushed | RPopped (v : V) | RStopped | RFull | REmpty | RBool (b : bool) | RUnit | RSize (n : nat).

(** Where a thread is. *)
Inductive pc :=
| Idle
| PushWait (v : V)      (* :536, :496 semaphore_get(space_sem) *)
| TryPush (v : V)       (* :553, :517 space_sem.try_get() *)
| TryPushFail           (* :554, :518 throw_full_or_stopped *)
| PushHave (v : V)      (* :539, :557 emplace_internal *)
| PushPut               (* :540, :558 data_sem.put() *)
| PushUndo              (* :542-547, :560-565 space_sem.put(); throw *)
| PopWait               (* :572 semaphore_get(data_sem) *)
| TryPop                (* :590 data_sem.try_get() *)
| TryPopFail            (* :591 throw_empty_or_stopped *)
| PopHave               (* :575, :594 pop_internal *)
| PopPut (v : V)        (* :576-577, :595-596 space_sem.put(); return *)
| PopUndo               (* :579-584, :598-603 data_sem.put(); throw *)
| StopTail (remove : bool)  (* stop_internal :322-333 *)
| StopHead (saved_tail : nat) (* stop_internal :335-338 *)
| StopSpace             (* :611, :624 space_sem.put() in stop / remove_producer *)
| StopData              (* :612-613, :625-626 data_sem.put(); return true *)
| AddProducer
| Size.

(** :144-164, 385-386: [storage] holds [None] where no T is constructed.
    [fault]: a T was constructed over a live one, or a dead or non-existent
    slot was popped (undefined behaviour), or the assert in stop_internal failed
    is [assert_failed]. *)
Record ring := {
  storage : list (option V); head : nat; stop_position : nat; tail : nat; stopped : bool; producers : nat;
  data_sem : nat; space_sem : nat; fault : bool; assert_failed : bool; threads : list pc }.

(** Number of slots (the C++ member [cap]). *)
Definition slots (s : ring) : nat := length (storage s).
(** :167-174 next *)
Definition next (s : ring) (idx : nat) : nat := if S idx =? slots s then 0 else S idx.

(** :266-275 and :486-490 constructors *)
Definition ring_new (cap nthreads : nat) : ring :=
  {| storage := repeat None (S cap); head := 0; stop_position := S cap; tail := 0; stopped := false; producers := 0;
     data_sem := 0; space_sem := cap; fault := false; assert_failed := false; threads := repeat Idle nthreads |}.

(** Observable events: calls, returns, and the moments at which a push, a pop
    and a stop take effect. *)
Inductive event :=
| ECall (t : nat) (o : op) | ERet (t : nat) (r : result)
| EPush (t : nat) (v : V) | EPop (t : nat) (v : V) | EStop (t : nat).

Definition set_thread (s : ring) (t : nat) (p : pc) : ring :=
  {| storage := storage s; head := head s; stop_position := stop_position s; tail := tail s; stopped := stopped s; producers := producers s;
     data_sem := data_sem s; space_sem := space_sem s; fault := fault s; assert_failed := assert_failed s; threads := upd (threads s) t p |}.
Definition set_data (s : ring) (n : nat) : ring :=
  {| storage := storage s; head := head s; stop_position := stop_position s; tail := tail s; stopped := stopped s; producers := producers s;
     data_sem := n; space_sem := space_sem s; fault := fault s; assert_failed := assert_failed s; threads := threads s |}.
Definition set_space (s : ring) (n : nat) : ring :=
  {| storage := storage s; head := head s; stop_position := stop_position s; tail := tail s; stopped := stopped s; producers := producers s;
     data_sem := data_sem s; space_sem := n; fault := fault s; assert_failed := assert_failed s; threads := threads s |}.
Definition set_stop_position (s : ring) (n : nat) : ring :=
  {| storage := storage s; head := head s; stop_position := n; tail := tail s; stopped := stopped s; producers := producers s;
     data_sem := data_sem s; space_sem := space_sem s; fault := fault s; assert_failed := assert_failed s; threads := threads s |}.
Definition set_producers (s : ring) (n : nat) (a : bool) : ring :=
  {| storage := storage s; head := head s; stop_position := stop_position s; tail := tail s; stopped := stopped s; producers := n;
     data_sem := data_sem s; space_sem := space_sem s; fault := fault s; assert_failed := assert_failed s || a; threads := threads s |}.
Definition set_stopped (s : ring) : ring :=
  {| storage := storage s; head := head s; stop_position := stop_position s; tail := tail s; stopped := true; producers := producers s;
     data_sem := data_sem s; space_sem := space_sem s; fault := fault s; assert_failed := assert_failed s; threads := threads s |}.

(** :288-300 emplace_internal, after the [stopped] check *)
Definition construct (s : ring) (v : V) : ring :=
  let ok := match nth_error (storage s) (tail s) with Some None => true | _ => false end in
  {| storage := upd (storage s) (tail s) (Some v); head := head s; stop_position := stop_position s; tail := next s (tail s);
     stopped := stopped s; producers := producers s; data_sem := data_sem s; space_sem := space_sem s;
     fault := fault s || negb ok; assert_failed := assert_failed s; threads := threads s |}.
(** :302-315 pop_internal, after the [stop_position] check *)
Definition destroy_head (s : ring) (bad : bool) : ring :=
  {| storage := upd (storage s) (head s) None; head := next s (head s); stop_position := stop_position s; tail := tail s;
     stopped := stopped s; producers := producers s; data_sem := data_sem s; space_sem := space_sem s;
     fault := fault s || bad; assert_failed := assert_failed s; threads := threads s |}.
(** :245-254 size() *)
Definition ring_size (s : ring) : nat :=
  if head s <=? tail s then tail s - head s else tail s + slots s - head s.

(** A call by an idle thread. *)
Definition start (o : op) : pc :=
  match o with
  | OpPush v => PushWait v
  | OpTryPush v => TryPush v
  | OpPop => PopWait
  | OpTryPop => TryPop
  | OpStop => StopTail false
  | OpRemoveProducer => StopTail true
  | OpAddProducer => AddProducer
  | OpSize => Size
  end.

(** One step of thread [t]; [None]: it cannot move (it is idle, or blocked on a
    semaphore). *)
Definition step (s : ring) (t : nat) (spurious : bool) : option (ring * list event) :=
  match nth_error (threads s) t with
  | None | Some Idle => None
  | Some (PushWait v) =>
      match space_sem s with
      | O => None
      | S n => Some (set_thread (set_space s n) t (PushHave v), [])
      end
  | Some (TryPush v) =>
      match space_sem s, spurious with
      | S n, false => Some (set_thread (set_space s n) t (PushHave v), [])
      | _, _ => Some (set_thread s t TryPushFail, [])
      end
  | Some TryPushFail =>                                   (* :256-264 *)
      Some (set_thread s t Idle, [ERet t (if stopped s then RStopped else RFull)])
  | Some (PushHave v) =>
      if stopped s then Some (set_thread s t PushUndo, [])
      else Some (set_thread (construct s v) t PushPut, [EPush t v])
  | Some PushPut => Some (set_thread (set_data s (S (data_sem s))) t Idle, [ERet t RPushed])
  | Some PushUndo => Some (set_thread (set_space s (S (space_sem s))) t Idle, [ERet t RStopped])
  | Some PopWait =>
      match data_sem s with
      | O => None
      | S n => Some (set_thread (set_data s n) t PopHave, [])
      end
  | Some TryPop =>
      match data_sem s, spurious with
      | S n, false => Some (set_thread (set_data s n) t PopHave, [])
      | _, _ => Some (set_thread s t TryPopFail, [])
      end
  | Some TryPopFail =>                                    (* :229-237 *)
      Some (set_thread s t Idle, [ERet t (if head s =? stop_position s then RStopped else REmpty)])
  | Some PopHave =>
      if stop_position s =? head s then Some (set_thread s t PopUndo, [])
      else
        match nth_error (storage s) (head s) with
        | Some (Some v) => Some (set_thread (destroy_head s false) t (PopPut v), [EPop t v])
        | _ => Some (set_thread (destroy_head s true) t PopUndo, [])   (* undefined behaviour *)
        end
  | Some (PopPut v) => Some (set_thread (set_space s (S (space_sem s))) t Idle, [ERet t (RPopped v)])
  | Some PopUndo => Some (set_thread (set_data s (S (data_sem s))) t Idle, [ERet t RStopped])
  | Some (StopTail remove) =>                             (* :322-333 *)
      let s1 := if remove then set_producers s (producers s - 1) (producers s =? 0) else s in
      if remove && negb (producers s1 =? 0) then Some (set_thread s1 t Idle, [ERet t (RBool false)])
      else Some (set_thread (set_stopped s1) t (StopHead (tail s1)), [EStop t])
  | Some (StopHead saved) => Some (set_thread (set_stop_position s saved) t StopSpace, [])   (* :335-338 *)
  | Some StopSpace => Some (set_thread (set_space s (S (space_sem s))) t StopData, [])       (* :611, :624 *)
  | Some StopData => Some (set_thread (set_data s (S (data_sem s))) t Idle, [ERet t (RBool true)])
  | Some AddProducer => Some (set_thread (set_producers s (S (producers s)) false) t Idle, [ERet t RUnit])  (* :342-347 *)
  | Some Size => Some (set_thread s t Idle, [ERet t (RSize (ring_size s))])
  end.

(** Anything that can happen next. *)
Inductive label := LCall (t : nat) (o : op) | LStep (t : nat) (spurious : bool).
Definition ring_next (s : ring) (l : label) : option (ring * list event) :=
  match l with
  | LCall t o =>
      match nth_error (threads s) t with
      | Some Idle => Some (set_thread s t (start o), [ECall t o])
      | _ => None
      end
  | LStep t sp => step s t sp
  end.

(** Every execution of a ring buffer of capacity [cap] shared by [n] threads,
    and the events it produces (oldest first). *)
Inductive exec (cap n : nat) : list event -> ring -> Prop :=
| exec_new : exec cap n [] (ring_new cap n)
| exec_next tr s l s' ev : exec cap n tr s -> ring_next s l = Some (s', ev) -> exec cap n (tr ++ ev) s'.

(** :277-286 destructor: drain; [None] if a dead slot is destroyed or the loop
    does not end within [fuel]. *)
Fixpoint drain (fuel : nat) (s : ring) : option ring :=
  if head s =? tail s then Some s
  else
    match fuel with
    | O => None
    | S fuel' =>
        match nth_error (storage s) (head s) with
        | Some (Some _) => drain fuel' (destroy_head s false)
        | _ => None
        end
    end.

End Ring.
Arguments pc : clear implicits.
Arguments ring : clear implicits.
Arguments op : clear implicits.
Arguments event : clear implicits.
Arguments result : clear implicits.
Arguments label : clear implicits.
