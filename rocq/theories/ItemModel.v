(** Descriptors and items in Python (src/spead2/__init__.py): from a value to the
    bytes of a heap item, and back. *)
From Coq Require Import ZArith List Bool.
From Verif Require Import Base BitsModel.
Import ListNotations.
Open Scope Z_scope.

(** A type: a numpy dtype (of which only the size matters here) or a format. *)
Inductive typ := Dtype (itemsize : Z) | Fmt (fmt : format).
(** Descriptor, lines 130-172 (id, name and description have no part in it).
    The elements are in the order of the buffer; [NumpyModel] has the memory order. *)
Record descr := { ds_shape : list (option Z); ds_typ : typ }.

(** _parse_format, lines 230-249: is the field one that numpy has?  The last case
    raises ValueError for other codes. *)
Definition numpy_field (f : code * Z) : bool :=
  match fst f with
  | CU | CI => (snd f =? 8) || (snd f =? 16) || (snd f =? 32) || (snd f =? 64)
  | CF => (snd f =? 32) || (snd f =? 64)
  | CB => snd f =? 8
  | CC => snd f =? 8
  end.
Inductive fastpath := PNone | PImmediate | PNumpy.
(** lines 160-172 *)
Definition path (d : descr) : fastpath :=
  match ds_typ d with
  | Dtype _ => PNumpy
  | Fmt fmt =>
      if forallb numpy_field fmt then PNumpy
      else match ds_shape d, fmt with
           | [], [(CU, n)] | [], [(CI, n)] => if n <? 64 then PImmediate else PNone
           | _, _ => PNone
           end
  end.
(** itemsize_bits, lines 251-257; for a format numpy has, it is also 8 times the
    size of the internal dtype, which has no padding *)
Definition itemsize_bits (d : descr) : Z := match ds_typ d with Dtype n => 8 * n | Fmt fmt => bits_of fmt end.
Definition is_none (x : option Z) : bool := match x with None => true | Some _ => false end.
(** is_variable_size, lines 259-261 *)
Definition is_variable_size (d : descr) : bool := existsb is_none (ds_shape d).
(** allow_immediate, lines 263-275 *)
Definition allow_immediate (d : descr) : bool :=
  negb (is_variable_size d) && match ds_typ d with Dtype _ => true | Fmt fmt => itemsize_bits d mod 8 =? 0 end.
(** dynamic_shape, lines 277-297 (there is at most one unknown dimension, lines 133-135) *)
Definition known (shape : list (option Z)) : Z := fold_right (fun x k => match x with Some n => n * k | None => k end) 1 shape.
Definition dynamic_shape (d : descr) (max_elements : Z) : list Z :=
  map (fun x => match x with Some n => n | None => if known (ds_shape d) =? 0 then 0 else max_elements / known (ds_shape d) end) (ds_shape d).
(** compatible_shape, lines 299-307 *)
Definition compatible_shape (d : descr) (shape : list Z) : bool :=
  Nat.eqb (length shape) (length (ds_shape d)) && forallb (fun x => match fst x with Some n => n =? snd x | None => true end) (combine (ds_shape d) shape).

(** The value of an item: a numpy array without objects, given by the bytes of its
    elements in the order of the buffer, or nested lists.  Simplified: strings and
    zero-dimensional arrays are not told apart from the arrays and scalars they
    stand for (lines 563-568, 611-615). *)
Inductive pyval := Array (shape : list Z) (elems : list (list Z)) | Nested (shape : list Z) (v : value).

(** numpy.asarray(value, dtype=">u8") for a Python integer: up to version 1 numbers
    out of range wrap, from version 2 on they raise OverflowError. *)
Inductive numpy := Numpy1 | Numpy2.
Definition as_u8 (np : numpy) (z : Z) : res (list Z) :=
  if (0 <=? z) && (z <? 2 ^ 64) then Ret (be_encode 8 z) else match np with Numpy1 => Ret (be_encode 8 (z mod 2 ^ 64)) | Numpy2 => Raise OverflowError end.
(** raw[-n:] in Python *)
Definition tail_of (n : Z) (l : list Z) : list Z := if n =? 0 then l else skipn (Z.to_nat (zlen l - n)) l.

(** _transform_value and to_buffer, lines 583-655 *)
Definition to_buffer (np : numpy) (d : descr) (x : pyval) : res (list Z) :=
  match path d, ds_typ d, x with
  | PNumpy, _, Array shape elems => if compatible_shape d shape then Ret (concat elems) else Raise ValueError
  | PImmediate, Fmt fmt, Nested shape v =>
      if itemsize_bits d mod 8 =? 0 then
        match v with
        | VElem [FInt z] => bind (as_u8 np z) (fun b => if compatible_shape d shape then Ret (tail_of (itemsize_bits d / 8) b) else Raise ValueError)
        | _ => Raise TypeError
        end
      else if compatible_shape d shape then pack fmt shape v else Raise ValueError
  | PNone, Fmt fmt, Nested shape v => if compatible_shape d shape then pack fmt shape v else Raise ValueError
  | _, _, _ => Raise TypeError
  end.

(** spead2.recv.RawItem: include/spead2/recv_heap.h:41-53, src/py_recv.cpp:69-91 *)
Record raw_item := { rw_imm : bool; rw_value : Z; rw_bytes : list Z }.

(** array.view(dtype) on bytes *)
Fixpoint chunks (fuel : nat) (n : nat) (l : list Z) : list (list Z) :=
  match fuel, l with S f, _ :: _ => firstn n l :: chunks f n (skipn n l) | _, _ => [] end.
Definition view (n : Z) (l : list Z) : res (list (list Z)) :=
  if zlen l mod n =? 0 then Ret (chunks (length l) (Z.to_nat n) l) else Raise ValueError.
(** numpy.reshape *)
Definition reshape (elems : list (list Z)) (shape : list Z) : res pyval :=
  if zlen elems =? product shape then Ret (Array shape elems) else Raise ValueError.
(** The shape that numpy.array finds in nested lists of objects: an empty list
    hides the dimensions below it. *)
Fixpoint found_shape (shape : list Z) : list Z := match shape with [] => [] | n :: r => if n =? 0 then [0] else n :: found_shape r end.

(** set_from_raw, lines 511-569 *)
Definition set_from_raw (d : descr) (r : raw_item) : res pyval :=
  let raw := rw_bytes r in
  let general (fmt : format) :=
    let max_elements := zlen raw * 8 / itemsize_bits d in
    let shape := dynamic_shape d max_elements in
    let elements := product shape in
    if max_elements <? elements then Raise ValueError
    else let raw := if rw_imm r then tail_of ((elements * itemsize_bits d + 7) / 8) raw else raw in
      bind (unpack fmt shape raw) (fun v => Ret (Nested (found_shape shape) v)) in
  match path d, ds_typ d with
  | PNumpy, _ =>
      let size := itemsize_bits d / 8 in
      let max_elements := zlen raw / size in
      let shape := dynamic_shape d max_elements in
      let elements := product shape in
      if max_elements <? elements then Raise ValueError
      else let n := elements * size in
        bind (view size (if rw_imm r then tail_of n raw else firstn (Z.to_nat n) raw)) (fun elems => reshape elems shape)
  | PImmediate, Fmt ([(c, n)] as fmt) =>
      if rw_imm r && (zlen raw * 8 =? n) then
        let value := rw_value r in
        let top := Z.shiftl 1 (n - 1) in
        Ret (Nested [] (VElem [FInt (match c with CI => if top <=? value then value - 2 * top else value | _ => value end)]))
      else general fmt
  | _, Fmt fmt => general fmt
  | _, Dtype _ => Raise TypeError
  end.
