(** What a semaphore is for: counting the calls that have returned. *)
From Coq Require Import List Arith Bool.
From Verif Require Import SemModel.
Import ListNotations.

(** Calls of [put] that have returned normally; calls of [get] and [try_get]
    that have returned 0. *)
Definition puts (tr : list sevent) : nat := length (filter (fun e => match e with ERetS _ Put Zero => true | _ => false end) tr).
Definition gets (tr : list sevent) : nat :=
  length (filter (fun e => match e with ERetS _ (Get | TryGet) Zero => true | _ => false end) tr).
(** Thread [t] is in a call of [o]. *)
Definition calling (s : sem) (t : nat) (o : sop) : Prop := exists p, nth_error (s_th s) t = Some (Some (o, p)).
(** Thread [t] runs alone, without interruptions, for [m] steps. *)
Definition solo (k : kind) (lim : nat) (s : sem) (t m : nat) : option (sem * list sevent) := sem_run k lim s (repeat (SStep t Normal) m).
