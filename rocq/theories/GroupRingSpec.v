(** What is seen of a group with rings, in the events of an execution. *)
From Coq Require Import ZArith List Bool.
From Verif Require Import ChunkModel ChunkSpec GroupModel GroupProofs GroupRingModel.
Import ListNotations.
Open Scope Z_scope.

Implicit Types tr : list rgev.
Definition g_events tr : list gev := flat_map (fun e => match e with EvG x => [x] | _ => [] end) tr.
(** The chunks that the group has been given by the free ring, with the id for which, in order *)
Definition given_ids tr : list (Z * Z) := allocs (chunk_events (g_events tr)).
Definition given tr : list Z := map snd (given_ids tr).
(** The chunks that the group has made ready *)
Definition made tr : list Z := readies (chunk_events (g_events tr)).
Definition sents tr : list Z := flat_map (fun e => match e with EvSent c => [c] | _ => [] end) tr.
Definition burieds tr : list Z := flat_map (fun e => match e with EvBuried c => [c] | _ => [] end) tr.
Definition freeds tr : list Z := flat_map (fun e => match e with EvFreed c => [c] | _ => [] end) tr.
Definition gots tr : list Z := flat_map (fun e => match e with EvGot c => [c] | _ => [] end) tr.
(** The user has called stop, or has stopped a ring. *)
Definition user_stop tr : Prop := In EvStopCall tr \/ In EvExt tr.
Definition opt_list (o : option Z) : list Z := match o with Some c => [c] | None => [] end.
(** The chunks of a call that is waiting with the group's mutex *)
Definition held (h : hold) : list Z := match h with HFree => [] | HAlloc _ _ acc => flat_map (fun p => opt_list (snd p)) acc | HPush _ out => out end.
Definition pushing (h : hold) : list Z := match h with HPush _ out => out | _ => [] end.

(** What goes on without packets or the user *)
Definition on_its_own (l : rlabel) : bool := match l with RGo _ | RFlush _ _ | RRemove _ | RPop | RPush | RStopGo => true | _ => false end.
(** What gives the group something to do *)
Definition brings (l : rlabel) : bool := match l with RGet _ _ | RNet _ | RSpur _ | RStop => true | _ => false end.
Definition count (f : rlabel -> bool) (ls : list rlabel) : nat := length (filter f ls).
(** No call is in progress in the group. *)
Definition at_rest (s : rgst) : Prop := x_hold s = HFree /\ forall m, In m (g_members (x_g s)) -> mb_pc m = PIdle /\ mb_pending m = [].
