(** C56: a sender's item group, its heap generator and a receiver's item group. *)
From Coq Require Import ZArith List Bool.
From Verif Require Import ItemGroupModel ItemGroupSpec.
Import ListNotations.
Open Scope Z_scope.

(** The sender may do anything to its group at any time.  A heap made with the
    default arguments is received by the receiver; a new receiver may be put in its
    place by sending a heap with all the descriptors and data to it. *)
Inductive sys (freq : option Z) : group -> gen -> group -> Prop :=
| s_init g r : reach g -> reach r -> sys freq g (n_init freq) r
| s_op g n r p g' : sys freq g n r -> step g p = Some g' -> sys freq g' n r
| s_send g n r n' h r' : sys freq g n r -> get_heap g Stale Stale n = (n', h) -> update r h = Some r' -> sys freq g n' r'
| s_join g n r0 r n' h r' : sys freq g n r0 -> reach r -> get_heap g All All n = (n', h) -> update r h = Some r' -> sys freq g n' r'.

(** The receiver has the items of the sender, with the same names and descriptions *)
Definition same_items (g r : group) : Prop := forall k x, by_id g k = Some x -> exists y, by_id r k = Some y /\ it_name y = it_name x /\ it_desc y = it_desc x.
(** and the values that were set.  Items with small ids have no values for a
    receiver: these are the ids that SPEAD uses itself. *)
Definition same_values (g r : group) : Prop := forall k x y v, stream_ctrl_id < k -> by_id g k = Some x -> by_id r k = Some y -> it_value x = Some v -> it_value y = Some v.
