(** The four semaphores:
    /repo/include/spead2/common_semaphore.h:41-209 and
    /repo/src/common_semaphore.cpp:43-369, one step per atomic operation on the
    shared value and per system call.

    [v] is the shared value: the atomic of semaphore_spin, the value of the
    POSIX semaphore, the number of bytes in the pipe, the count of the eventfd.
    [lim] is the largest value it can hold (UINT_MAX, SEM_VALUE_MAX, the
    capacity of the pipe, 2^64-2).  [env] is what the environment does with the
    step: a system call may be interrupted by a signal, and
    compare_exchange_weak may fail for no reason.

    A function returns right after its last access to shared state, so that
    step and the return are one step here.  Simplifications: sequentially
    consistent memory (the memory orders are not modelled); system calls fail
    only as described (never with EBADF and the like). *)
From Coq Require Import List Arith Bool.
From Verif Require Import ConcBase.
Import ListNotations.

Inductive kind := Spin | Posix | Pipe | Eventfd.
Inductive sop := Put | Get | TryGet.
Inductive env := Normal | Interrupted | CasFail.
(** The functions return 0, -1, or throw std::system_error. *)
Inductive sret := Zero | Minus | Throw.

(** Where a call is. *)
Inductive spc :=
| APut              (* :50 fetch_add; :99 sem_post; :207 write; :310 eventfd_write *)
| GLoad             (* :55, :59 value.load *)
| GCas (cur : nat)  (* :60 compare_exchange_weak, cur <> 0 *)
| GWait             (* :119 sem_wait *)
| GPoll             (* :223, :342 poll *)
| GRead             (* :231, :350 read, eventfd_read in get *)
| TLoad             (* :69 value.load *)
| TCas (cur : nat)  (* :71 compare_exchange_strong *)
| TTry              (* :105 sem_trywait *)
| TRead.            (* :250 read; :322 eventfd_read in try_get *)

(** First step of a call. *)
Definition sem_start (k : kind) (o : sop) : spc :=
  match o, k with
  | Put, _ => APut
  | Get, Spin => GLoad
  | Get, Posix => GWait
  | Get, (Pipe | Eventfd) => GPoll
  | TryGet, Spin => TLoad
  | TryGet, Posix => TTry
  | TryGet, (Pipe | Eventfd) => TRead
  end.

(** The call cannot go on; goes on at another place; returns, leaving the value
    at [v]. *)
Inductive sres := SBlock | SMove (p : spc) | SRet (v : nat) (r : sret).

Definition sem_step (k : kind) (lim : nat) (e : env) (v : nat) (p : spc) : sres :=
  match p, e with
  | APut, Normal =>
      match k with
      | Spin => SRet (if v <? lim then S v else 0) Zero             (* :50, wraps *)
      | Posix => if v <? lim then SRet (S v) Zero else SRet v Throw  (* :99-100 EOVERFLOW *)
      | Pipe => if v <? lim then SRet (S v) Zero else SBlock         (* :207, blocking write to a full pipe *)
      | Eventfd => if v <? lim then SRet (S v) Zero else SRet v Throw (* :310-314 EAGAIN *)
      end
  | APut, Interrupted =>
      match k with
      | Pipe => SMove APut          (* :208-212 EINTR: again *)
      | Eventfd => SRet v Throw     (* :313 errno != -1 *)
      | _ => SBlock
      end
  | GLoad, Normal => if v =? 0 then SMove GLoad else SMove (GCas v)  (* :55-59 *)
  | GCas cur, (Normal | CasFail) =>                                  (* :60-62 *)
      if (v =? cur) && match e with CasFail => false | _ => true end then SRet (cur - 1) Zero
      else SMove (if v =? 0 then GLoad else GCas v)
  | GWait, Normal => if v =? 0 then SBlock else SRet (v - 1) Zero    (* :119 *)
  | GWait, Interrupted => SRet v Minus                               (* :122-123 *)
  | GPoll, Normal => if v =? 0 then SBlock else SMove GRead          (* :223, :342 *)
  | GPoll, Interrupted => SRet v Minus                               (* :226-227, :345-346 *)
  | GRead, Normal => if v =? 0 then SMove GPoll else SRet (v - 1) Zero (* :231-243, :350-362 *)
  | GRead, Interrupted => SRet v Throw                               (* :236-237, :355-356 *)
  | TLoad, Normal => if v =? 0 then SRet v Minus else SMove (TCas v) (* :69-70, :75 *)
  | TCas cur, Normal => if v =? cur then SRet (cur - 1) Zero else SRet v Minus (* :71-75 *)
  | TTry, Normal => if v =? 0 then SRet v Minus else SRet (v - 1) Zero (* :105-114 *)
  | TTry, Interrupted => SRet v Minus                                (* :108 *)
  | TRead, Normal => if v =? 0 then SRet v Minus else SRet (v - 1) Zero (* :250-262, :322-331 *)
  | TRead, Interrupted => match k with Pipe => SRet v Throw | _ => SRet v Minus end (* :255-256; :325 *)
  | _, _ => SBlock
  end.

(** Constructors: :43-46; :82-86 sem_init (EINVAL); :184-185 one put after the
    other; :298-303.  [None]: throws, or (pipe) blocks for ever. *)
Fixpoint pipe_fill (lim v n : nat) : option nat :=
  match n with
  | O => Some v
  | S n' => match sem_step Pipe lim Normal v APut with SRet v' Zero => pipe_fill lim v' n' | _ => None end
  end.
Definition sem_new (k : kind) (lim n : nat) : option nat :=
  match k with
  | Pipe => pipe_fill lim 0 n
  | _ => if n <=? lim then Some n else None
  end.

(** get_fd is readable when poll would return: :264-267, :366-369 (the pipe has
    a byte, the eventfd a count). *)
Definition fd_readable (v : nat) : bool := negb (v =? 0).

(** Any number of threads calling one semaphore. *)
Record sem := { s_v : nat; s_th : list (option (sop * spc)) }.
Inductive slabel := SCall (t : nat) (o : sop) | SStep (t : nat) (e : env).
Inductive sevent := ECallS (t : nat) (o : sop) | ERetS (t : nat) (o : sop) (r : sret).
Definition sem_next (k : kind) (lim : nat) (s : sem) (l : slabel) : option (sem * list sevent) :=
  match l with
  | SCall t o =>
      match nth_error (s_th s) t with
      | Some None => Some ({| s_v := s_v s; s_th := upd (s_th s) t (Some (o, sem_start k o)) |}, [ECallS t o])
      | _ => None
      end
  | SStep t e =>
      match nth_error (s_th s) t with
      | Some (Some (o, p)) =>
          match sem_step k lim e (s_v s) p with
          | SBlock => None
          | SMove p' => Some ({| s_v := s_v s; s_th := upd (s_th s) t (Some (o, p')) |}, [])
          | SRet v' r => Some ({| s_v := v'; s_th := upd (s_th s) t None |}, [ERetS t o r])
          end
      | _ => None
      end
  end.
Fixpoint sem_run (k : kind) (lim : nat) (s : sem) (ls : list slabel) : option (sem * list sevent) :=
  match ls with
  | [] => Some (s, [])
  | l :: ls' =>
      match sem_next k lim s l with
      | None => None
      | Some (s1, ev) => match sem_run k lim s1 ls' with None => None | Some (s2, ev') => Some (s2, ev ++ ev') end
      end
  end.
(** [n] threads, a semaphore with value [v]. *)
Definition sem_init (v n : nat) : sem := {| s_v := v; s_th := repeat None n |}.
