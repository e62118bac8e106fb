(** What logging to Python promises, in terms of what happens (events). *)
From Coq Require Import String List Arith Bool.
From Verif Require Import LogModel.
Import ListNotations.
Open Scope list_scope.

(** The name of the Python logger's method for a level *)
Definition method_name (l : level) : string := match l with Warning => "warning" | Info => "info" | Debug => "debug" end.
(** The calls that the accepted messages should cause, in the order in which they were accepted *)
Definition accepted (t : list event) : list (string * string) :=
  flat_map (fun e => match e with ECall _ m Accepted => [(method_name (m_level m), m_text m)] | _ => [] end) t.
(** The calls that were made for messages *)
Definition logged (t : list event) : list (string * string) :=
  flat_map (fun e => match e with EMsg a b => [(a, b)] | _ => [] end) t.
Definition count (f : event -> bool) (t : list event) : nat := length (filter f t).
Definition is_drop (e : event) : bool := match e with ECall _ _ Dropped => true | _ => false end.
Definition is_warn (e : event) : bool := match e with EWarn _ _ => true | _ => false end.
Definition is_msg (e : event) : bool := match e with EMsg _ _ => true | _ => false end.
Definition is_end (e : event) : bool := match e with EEnd => true | _ => false end.
Definition is_edge (e : event) : bool := match e with EAcq | ERel | EEnd => true | _ => false end.
(** [sublist a l]: [a] is [l] with some elements left out *)
Inductive sublist : list nat -> list nat -> Prop :=
| sub_nil : forall l, sublist [] l
| sub_skip : forall x a l, sublist a l -> sublist a (x :: l)
| sub_take : forall x a l, sublist a l -> sublist (x :: a) (x :: l).
