(** The ring buffer of RingModel with the semaphores of SemModel in place of
    counters: /repo/include/spead2/common_ringbuffer.h:486-630 with
    /repo/src/common_semaphore.cpp.

    The fields [data_sem] and [space_sem] of the ring hold the shared values of
    the two semaphores; [rs_sub] says where inside put, get or try_get a thread
    is ([None]: at its start, or in no semaphore function).  A semaphore call is
    several steps (SemModel.sem_step) and other threads run in between.
    semaphore_get (common_semaphore.h:202-209) calls get again when it returns
    -1.  An exception of a semaphore leaves the function of the ring: the
    handlers (:502, :524, :542, :560, :579, :598) catch ringbuffer_stopped only. *)
From Coq Require Import List Arith Bool.
From Verif Require Import ConcBase RingModel SemModel.
Import ListNotations.

Section RS.
Context {V : Type}.

(** Classes of the two semaphores (template parameters, :381) and the largest
    values they can hold. *)
Record sems := { kd : kind; ld : nat; ks : kind; ls : nat }.
Definition sem_k (c : sems) (data : bool) : kind := if data then kd c else ks c.
Definition sem_l (c : sems) (data : bool) : nat := if data then ld c else ls c.
Definition sem_v (r : ring V) (data : bool) : nat := if data then data_sem r else space_sem r.
Definition sem_set (r : ring V) (data : bool) (v : nat) : ring V := if data then set_data r v else set_space r v.

Record rsem := { rs_ring : ring V; rs_sub : list (option spc) }.
Inductive revent := Ev (e : event V) | EThrow (t : nat).

(** :486-490 with both semaphores constructed. *)
Definition rs_new (cap n : nat) : rsem := {| rs_ring := ring_new cap n; rs_sub := repeat None n |}.

(** One step inside a semaphore function: [done] when it has returned 0, [again]
    when it has returned -1 ([None]: the caller is semaphore_get). *)
Definition via (c : sems) (x : rsem) (t : nat) (e : env) (data : bool) (o : sop)
    (done : ring V -> ring V * list (event V)) (again : option (ring V -> ring V * list (event V))) : option (rsem * list revent) :=
  let p := match nth_error (rs_sub x) t with Some (Some p) => p | _ => sem_start (sem_k c data) o end in
  match sem_step (sem_k c data) (sem_l c data) e (sem_v (rs_ring x) data) p with
  | SBlock => None
  | SMove p' => Some ({| rs_ring := rs_ring x; rs_sub := upd (rs_sub x) t (Some p') |}, [])
  | SRet v' Zero => let '(r', ev) := done (sem_set (rs_ring x) data v') in
                    Some ({| rs_ring := r'; rs_sub := upd (rs_sub x) t None |}, map Ev ev)
  | SRet _ Minus => match again with
                    | None => Some ({| rs_ring := rs_ring x; rs_sub := upd (rs_sub x) t None |}, [])
                    | Some f => let '(r', ev) := f (rs_ring x) in Some ({| rs_ring := r'; rs_sub := upd (rs_sub x) t None |}, map Ev ev)
                    end
  | SRet _ Throw => Some ({| rs_ring := set_thread (rs_ring x) t Idle; rs_sub := upd (rs_sub x) t None |}, [EThrow t])
  end.

Definition rs_step (c : sems) (x : rsem) (t : nat) (e : env) : option (rsem * list revent) :=
  let goto p ev := fun r : ring V => (set_thread r t p, ev) in
  match nth_error (threads (rs_ring x)) t with
  | Some (PushWait v) => via c x t e false Get (goto (PushHave v) []) None                             (* :536 *)
  | Some (TryPush v) => via c x t e false TryGet (goto (PushHave v) []) (Some (goto TryPushFail []))    (* :553 *)
  | Some PushPut => via c x t e true Put (goto Idle [ERet t RPushed]) None                              (* :540, :558 *)
  | Some PushUndo => via c x t e false Put (goto Idle [ERet t RStopped]) None                           (* :545, :563 *)
  | Some PopWait => via c x t e true Get (goto PopHave []) None                                         (* :572 *)
  | Some TryPop => via c x t e true TryGet (goto PopHave []) (Some (goto TryPopFail []))                (* :590 *)
  | Some (PopPut v) => via c x t e false Put (goto Idle [ERet t (RPopped v)]) None                      (* :576, :595 *)
  | Some PopUndo => via c x t e true Put (goto Idle [ERet t RStopped]) None                             (* :582, :601 *)
  | Some StopSpace => via c x t e false Put (goto StopData []) None                                     (* :611, :624 *)
  | Some StopData => via c x t e true Put (goto Idle [ERet t (RBool true)]) None                        (* :612, :625 *)
  | _ =>
      match e, step (rs_ring x) t false with
      | Normal, Some (r', ev) => Some ({| rs_ring := r'; rs_sub := rs_sub x |}, map Ev ev)
      | _, _ => None
      end
  end.

Inductive rslabel := RSCall (t : nat) (o : op V) | RSStep (t : nat) (e : env).
Definition rs_next (c : sems) (x : rsem) (l : rslabel) : option (rsem * list revent) :=
  match l with
  | RSCall t o =>
      match nth_error (threads (rs_ring x)) t with
      | Some Idle => Some ({| rs_ring := set_thread (rs_ring x) t (start o); rs_sub := rs_sub x |}, [Ev (ECall t o)])
      | _ => None
      end
  | RSStep t e => rs_step c x t e
  end.
Fixpoint rs_run (c : sems) (x : rsem) (l : list rslabel) : option (rsem * list revent) :=
  match l with
  | [] => Some (x, [])
  | a :: l' =>
      match rs_next c x a with
      | None => None
      | Some (x1, ev) => match rs_run c x1 l' with None => None | Some (x2, ev') => Some (x2, ev ++ ev') end
      end
  end.
End RS.
Arguments rsem : clear implicits.
Arguments revent : clear implicits.
Arguments rslabel : clear implicits.
