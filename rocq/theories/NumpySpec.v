(** When arrays and texts can be sent. *)
From Coq Require Import ZArith List Bool.
From Verif Require Import Base BitsModel BitsSpec ItemModel ItemSpec NumpyModel.
Import ListNotations.
Open Scope Z_scope.

(** The indices of an array of a shape *)
Definition index_ok (shape idx : list nat) : Prop := Forall2 (fun i n => (i < n)%nat) idx shape.
(** An element: for each field of the dtype a number of its size *)
Definition elem_ok (dt : dtype) (v : list Z) : Prop := Forall2 (fun (f : border * nat) z => 0 <= z < 256 ^ Z.of_nat (snd f)) dt v.
(** A descriptor on the numpy path *)
Definition ndescr_ok (d : ndescr) : Prop := descr_ok (to_descr d) /\ path (to_descr d) = PNumpy.
Definition array_ok (d : ndescr) (a : arr (list Z)) : Prop :=
  fits (nd_shape d) (map Z.of_nat (a_shape a)) /\ Forall (fun n => (0 < n)%nat) (a_shape a) /\ forall idx, index_ok (a_shape a) idx -> elem_ok (internal_dtype d) (a_get a idx).
Definition chars (t : text) : list Z := match t with Str l => l | Bytes l => l end.
(** The position of an element in the buffer, by Horner's rule: in C order the last
    index runs fastest, in Fortran order the first *)
Definition horner (shape idx : list nat) : nat := fold_left (fun acc x => (acc * snd x + fst x)%nat) (combine idx shape) 0%nat.
Definition position (o : order) (shape idx : list nat) : nat := match o with OC => horner shape idx | OF => horner (rev shape) (rev idx) end.
(** The byte orders that each choice allows *)
Definition border_as (n : neworder) (b b' : border) : Prop :=
  match b with
  | NA => b' = NA
  | _ => match n with Swap => b' <> b /\ b' <> NA | Native | ToLittle => b' = Little | ToBig => b' = Big end
  end.
(** A format of SPEAD: the fields one after the other, as one number with the first
    field in the most significant bits *)
Fixpoint field_number (fmt : format) (v : list Z) : Z := match fmt, v with _ :: fmt, z :: v => z * 2 ^ bits_of fmt + field_number fmt v | _, _ => 0 end.
