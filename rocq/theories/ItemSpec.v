(** What values an item can have. *)
From Coq Require Import ZArith List Bool.
From Verif Require Import Base BitsModel BitsSpec ItemModel.
Import ListNotations.
Open Scope Z_scope.

(** Descriptors that can be made: at most one unknown dimension, sizes positive *)
Definition descr_ok (d : descr) : Prop :=
  (length (filter is_none (ds_shape d)) <= 1)%nat /\
  match ds_typ d with Dtype n => 0 < n | Fmt fmt => fmt <> [] /\ Forall code_ok fmt end.
(** A shape that fits *)
Definition fits (shape : list (option Z)) (s : list Z) : Prop := Forall2 (fun x n => match x with Some m => n = m | None => True end) shape s.
(** A value of the type of the descriptor *)
Definition value_ok (d : descr) (x : pyval) : Prop :=
  match x with
  | Array s elems => path d = PNumpy /\ fits (ds_shape d) s /\ zlen elems = product s /\ Forall (fun e => bytes_ok e /\ 8 * zlen e = itemsize_bits d) elems
  | Nested s v => path d <> PNumpy /\ fits (ds_shape d) s /\
      match ds_typ d with Fmt fmt => shaped s v /\ elements_ok fmt v /\ Forall (fun x => field_ok (fst x) (snd x)) (fields fmt v) | Dtype _ => False end
  end.
Definition shape_of (x : pyval) : list Z := match x with Array s _ => s | Nested s _ => s end.
