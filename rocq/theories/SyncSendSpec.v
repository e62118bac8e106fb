(** What is said about synchronous sends: predicates on what was observed. *)
From Coq Require Import ZArith List Lia Bool.
From Verif Require Import ConcBase SyncSendModel.
Import ListNotations.

(** The calls whose heaps were accepted, and those whose heaps were sent, in order. *)
Definition accepted (es : list sev) : list nat := flat_map (fun e => match e with VAccept c => [c] | _ => [] end) es.
Definition sent (es : list sev) : list nat := flat_map (fun e => match e with VSent c _ _ => [c] | _ => [] end) es.
(** The stream is done with call [c], with that result. *)
Definition done (c : nat) (r : ecode) (b : nat) (es : list sev) : Prop :=
  In (VSent c r b) es \/ (In (VRefused c r) es /\ b = 0).
Definition finished (c : nat) (es : list sev) : Prop := exists r b, done c r b es.
(** How often the stream finished [c]; how often the call came back. *)
Definition ends (c : nat) (es : list sev) : nat :=
  sumw (fun e => match e with VSent c' _ _ | VRefused c' _ => if c' =? c then 1 else 0 | _ => 0 end) es.
Definition returns (c : nat) (es : list sev) : nat :=
  sumw (fun e => match e with VRet c' _ _ | VIntr c' => if c' =? c then 1 else 0 | _ => 0 end) es.
(** Bytes sent from the heaps of [c]. *)
Definition bytes_of (c : nat) (es : list sev) : nat :=
  sumw (fun e => match e with VRead c' _ n => if c' =? c then n else 0 | _ => 0 end) es.

(** The heaps of call [c] of a program: the arguments of its [c]-th send. *)
Fixpoint sends (ls : list slab) : list (list nat) :=
  match ls with
  | [] => []
  | LSend _ _ args :: r => map fst args :: sends r
  | _ :: r => sends r
  end.

(** The program's own references to heap [h], by counting. *)
Definition user_refs (s : sst) (h : nat) : nat := match nth_error (y_heaps s) h with Some o => hp_user o | None => 0 end.
(** A call that no longer keeps its heaps: it was interrupted, or its list was changed. *)
Definition loose (c : nat) (es : list sev) : Prop := In (VIntr c) es \/ In (VClear c) es.

(** The program is careful: at every moment it refers itself to the heaps of
    loose calls that the stream has not finished. *)
Definition careful (cap : nat) (ls : list slab) : Prop :=
  forall ls1 ls2 s es c hs h,
    ls = ls1 ++ ls2 -> srun (sst_init cap) ls1 [] = Some (Ok s es) ->
    nth_error (sends ls1) c = Some hs -> loose c es -> ~ finished c es -> In h hs -> 0 < user_refs s h.

(** No signal interrupts a call and no thread changes a list that was passed. *)
Definition quiet (l : slab) : bool := match l with LIntr _ | LClear _ => false | _ => true end.
