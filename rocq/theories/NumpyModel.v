(** Numpy arrays and strings as values of items (src/spead2/__init__.py): memory
    order, byte order and text, on top of [ItemModel], whose arrays are in the
    order of the buffer. *)
From Coq Require Import ZArith List Bool Arith.
From Verif Require Import Base BitsModel ItemModel.
Import ListNotations.
Open Scope Z_scope.

(** An array: a shape and an element at every index. *)
Record arr (X : Type) := { a_shape : list nat; a_get : list nat -> X }.
Arguments a_shape {X}. Arguments a_get {X}. Arguments Build_arr {X}.
Inductive order := OC | OF.

(** The elements of an array in the order of a C-contiguous buffer: the last index
    runs fastest. *)
Fixpoint c_ravel {X} (shape : list nat) (get : list nat -> X) : list X :=
  match shape with
  | [] => [get []]
  | n :: r => flat_map (fun i => c_ravel r (fun idx => get (i :: idx))) (seq 0 n)
  end.
(** numpy.transpose: the axes in reverse order *)
Definition transpose {X} (a : arr X) : arr X := {| a_shape := rev (a_shape a); a_get := fun idx => a_get a (rev idx) |}.
(** to_buffer, lines 648-654, on the numpy path: the bytes are those of the C-contiguous
    view (PyBUF_C_CONTIGUOUS, src/py_send.cpp:68). *)
Definition buffer_order {X} (o : order) (a : arr X) : list X :=
  let a := match o with OF => transpose a | OC => a end in c_ravel (a_shape a) (a_get a).
(** numpy.reshape(array1d, shape, order): where the element at an index is taken from.
    In C order the last index runs fastest, in Fortran order the first. *)
Definition elements (shape : list nat) : nat := fold_right Nat.mul 1%nat shape.
Fixpoint c_pos (shape idx : list nat) : nat := match shape, idx with _ :: r, i :: t => (i * elements r + c_pos r t)%nat | _, _ => 0%nat end.
Fixpoint f_pos (shape idx : list nat) : nat := match shape, idx with n :: r, i :: t => (i + n * f_pos r t)%nat | _, _ => 0%nat end.
Definition reshape_nd {X} (dflt : X) (o : order) (shape : list nat) (l : list X) : arr X :=
  {| a_shape := shape; a_get := fun idx => nth (match o with OC => c_pos | OF => f_pos end shape idx) l dflt |}.

(** A dtype without padding: its fields, with byte order and size.  The value of a
    field is taken as an unsigned number (two's complement and IEEE numbers by
    their bits); fields to which byte order does not apply are [NA]. *)
Inductive border := Big | Little | NA.
Definition dtype := list (border * nat).
Definition dsize (dt : dtype) : nat := fold_right (fun f n => (snd f + n)%nat) 0%nat dt.
Definition enc_field (f : border * nat) (z : Z) : list Z := match fst f with Little => rev (be_encode (snd f) z) | _ => be_encode (snd f) z end.
Definition dec_field (f : border * nat) (b : list Z) : Z := match fst f with Little => be_decode (rev b) | _ => be_decode b end.
Fixpoint enc (dt : dtype) (v : list Z) : list Z := match dt, v with f :: dt, z :: v => enc_field f z ++ enc dt v | _, _ => [] end.
Fixpoint dec (dt : dtype) (b : list Z) : list Z := match dt with f :: dt => dec_field f (firstn (snd f) b) :: dec dt (skipn (snd f) b) | [] => [] end.

(** dtype.newbyteorder: 'S' (the default), '=' on a little-endian machine, '>', '<' *)
Inductive neworder := Swap | Native | ToBig | ToLittle.
Definition set_border (n : neworder) (b : border) : border :=
  match b with
  | NA => NA
  | _ => match n with Swap => match b with Big => Little | _ => Big end | Native => Little | ToBig => Big | ToLittle => Little end
  end.
Definition newbyteorder (n : neworder) (dt : dtype) : dtype := map (fun f => (set_border n (fst f), snd f)) dt.

(** _parse_format, lines 230-249, for the fields that numpy has *)
Definition field_dtype (f : code * Z) : border * nat :=
  match fst f with CU | CI | CF => (Big, Z.to_nat (snd f / 8)) | _ => (NA, 1%nat) end.
(** A descriptor: dtype and order, or format (lines 130-158) *)
Inductive ntyp := NDtype (dt : dtype) (o : order) | NFmt (fmt : format).
Record ndescr := { nd_shape : list (option Z); nd_typ : ntyp }.
Definition to_descr (d : ndescr) : descr :=
  {| ds_shape := nd_shape d; ds_typ := match nd_typ d with NDtype dt _ => Dtype (Z.of_nat (dsize dt)) | NFmt fmt => Fmt fmt end |}.
Definition internal_dtype (d : ndescr) : dtype := match nd_typ d with NDtype dt _ => dt | NFmt fmt => map field_dtype fmt end.
Definition nd_order (d : ndescr) : order := match nd_typ d with NDtype _ o => o | NFmt _ => OC end.

(** to_raw and from_raw, lines 309-347: the dtype in the numpy header *)
Definition header_dtype (swap_endian : bool) (dt : dtype) : dtype := if swap_endian then newbyteorder Swap dt else dt.

(** _transform_value and to_buffer, lines 583-655, on the numpy path, for an array
    of elements given by the values of their fields *)
Definition to_buffer_nd (np : numpy) (d : ndescr) (a : arr (list Z)) : res (list Z) :=
  to_buffer np (to_descr d) (Array (map Z.of_nat (a_shape a)) (map (enc (internal_dtype d)) (buffer_order (nd_order d) a))).
(** set_from_raw, lines 511-534, on the numpy path: a dtype, and an array of elements
    given by their bytes.  astype to a byte order changes bytes, not values. *)
Definition astype (dt dt' : dtype) (b : list Z) : list Z := enc dt' (dec dt b).
Definition set_from_raw_nd (d : ndescr) (n : neworder) (r : raw_item) : res (dtype * arr (list Z)) :=
  bind (set_from_raw (to_descr d) r) (fun x =>
  match x with
  | Array shape elems =>
      let dt' := newbyteorder n (internal_dtype d) in
      Ret (dt', reshape_nd [] (nd_order d) (map Z.to_nat shape) (map (astype (internal_dtype d) dt') elems))
  | Nested _ _ => Raise TypeError
  end).

(** *** Text: one-dimensional items with the format [("c", 8)] *)
Inductive text := Str (code_points : list Z) | Bytes (bytes : list Z).
(** Lines 611-623: the text is split into characters; numpy.asarray with dtype S1
    encodes those of a str in ASCII or raises UnicodeEncodeError (a ValueError). *)
Definition s1_elems (t : text) : res (list (list Z)) :=
  match t with
  | Str l => if forallb (fun c => c <? 128) l then Ret (map (fun c => [c]) l) else Raise ValueError
  | Bytes l => Ret (map (fun c => [c]) l)
  end.
Definition text_descr (dim : option Z) : descr := {| ds_shape := [dim]; ds_typ := Fmt [(CC, 8)] |}.
Definition text_len (t : text) : Z := match t with Str l => zlen l | Bytes l => zlen l end.
Definition to_buffer_text (np : numpy) (dim : option Z) (t : text) : res (list Z) :=
  bind (s1_elems t) (fun e => to_buffer np (text_descr dim) (Array [text_len t] e)).
(** Lines 566-568: the elements of an S1 array, without trailing zeros as numpy has
    it, are joined; decoding raises UnicodeDecodeError (a ValueError). *)
Definition s1_item (b : list Z) : list Z := match b with [0] => [] | _ => b end.
Definition set_from_raw_text (dim : option Z) (r : raw_item) : res text :=
  bind (set_from_raw (text_descr dim) r) (fun x =>
  match x with
  | Array _ elems => let l := concat (map s1_item elems) in if forallb (fun c => c <? 128) l then Ret (Str l) else Raise ValueError
  | Nested _ _ => Raise TypeError
  end).
