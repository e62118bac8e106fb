(** What is said about the thread pool. *)
From Coq Require Import List Bool Arith.
From Verif Require Import ConcBase PoolModel.
Import ListNotations.

(** The handlers posted and started, in order; how many ended; how many threw. *)
Definition posts (es : list pev) : list nat := flat_map (fun e => match e with VPost h => [h] | _ => [] end) es.
Definition starts (es : list pev) : list nat := flat_map (fun e => match e with VStart _ h => [h] | _ => [] end) es.
Definition nends (es : list pev) : nat := sumw (fun e => match e with VEnd _ _ _ => 1 | _ => 0 end) es.
Definition throws (es : list pev) : nat := sumw (fun e => match e with VEnd _ _ HReturn => 0 | VEnd _ _ _ => 1 | _ => 0 end) es.

(** No handler throws anything but a [std::exception]. *)
Definition std_only (ls : list plab) : Prop := forall w, ~ In (LFinish w HOther) ls.
(** Steps of the workers alone, all handlers returning. *)
Definition worker_step (l : plab) : bool := match l with LStart _ | LFinish _ HReturn | LLeave _ => true | _ => false end.
Definition join_step (l : plab) : bool := match l with LFinish _ HReturn | LLeave _ | LJoin => true | _ => false end.
