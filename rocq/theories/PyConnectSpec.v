(** What is said about opening TCP streams from Python. *)
From Coq Require Import ZArith List Lia Bool.
From Verif Require Import ConcBase PyConnectModel.
Import ListNotations.

(** How often the attempt ended; Python learned the result; the callback was called. *)
Definition nets (i : nat) (es : list cev) : nat := sumw (fun e => match e with VNet j _ => if j =? i then 1 else 0 | _ => 0 end) es.
Definition opens (i : nat) (es : list cev) : nat := sumw (fun e => match e with VOpen j _ => if j =? i then 1 else 0 | _ => 0 end) es.
Definition calls (i : nat) (es : list cev) : nat := sumw (fun e => match e with VCall j _ => if j =? i then 1 else 0 | _ => 0 end) es.

(** The connections a program opens, in order: asynchronous or not. *)
Fixpoint kinds (ls : list clab) : list bool :=
  match ls with [] => [] | LOpen _ a :: r => a :: kinds r | _ :: r => kinds r end.

(** Steps that run Python code or end the destructor of a stream: everything but
    the network and the parts of the handlers outside Python. *)
Definition python (l : clab) : bool := match l with LNet _ _ | LHandle _ | LWakeup _ => false | _ => true end.

(** A patient program: it drops an asynchronous stream only after the callback of
    its connection has been called; and the loop is not closed before that. *)
Definition patient (n : nat) (ls : list clab) : Prop :=
  (forall i, ~ In (LCall i false) ls) /\
  forall ls1 ls2 t i s es,
    ls = ls1 ++ LDrop t i :: ls2 -> crun (cst_init n) ls1 [] = Some (Ok s es) ->
    nth_error (kinds ls1) i = Some true -> calls i es = 1.
