(** What it means for an item group to be consistent. *)
From Coq Require Import ZArith List Bool.
From Verif Require Import ItemGroupModel.
Import ListNotations.
Open Scope Z_scope.

(** What a user sees: group[id] and group[name] *)
Definition by_id (g : group) (k : Z) : option item := match lookup k (g_id g) with Some o => obj g o | None => None end.
Definition by_name (g : group) (k : Z) : option item := match lookup k (g_name g) with Some o => obj g o | None => None end.

(** The two ways of looking up refer to the same objects; every key is there once. *)
Record consistent (g : group) : Prop := {
  c_id : forall k o, lookup k (g_id g) = Some o -> exists x, obj g o = Some x /\ it_id x = k /\ lookup (it_name x) (g_name g) = Some o;
  c_name : forall k o, lookup k (g_name g) = Some o -> exists x, obj g o = Some x /\ it_name x = k /\ lookup (it_id x) (g_id g) = Some o;
  c_nid : NoDup (map fst (g_id g));
  c_nname : NoDup (map fst (g_name g)) }.

(** What can be done to a group: add_item, a descriptor or an item of a heap that
    is received, an assignment to the value of an item. *)
Inductive op := OAdd (id : option Z) (name desc : Z) (v : option Z) | ODescr (id name desc : Z) | OItem (id v : Z) | OSet (o : nat) (v : Z).
Definition step (g : group) (p : op) : option group :=
  match p with
  | OAdd id name desc v => add_item g id name desc v
  | ODescr id name desc => add_item_obj g (new_item id name desc None)
  | OItem id v => Some (update_item g id v)
  | OSet o v => Some (set_value g o v)
  end.
Inductive reach : group -> Prop :=
| r_empty : reach g_empty
| r_step g p g' : reach g -> step g p = Some g' -> reach g'.
