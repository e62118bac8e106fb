(** Item values in Python (src/spead2/__init__.py): the bit generators and the
    recursive packing and unpacking of values.  Python's integers are [Z]. *)
From Coq Require Import ZArith List Bool.
From Verif Require Import Base.
Import ListNotations.
Open Scope Z_scope.

Inductive exn := ValueError | IndexError | StopIteration | TypeError | OverflowError | StructError.
Inductive res (A : Type) := Ret (a : A) | Raise (e : exn).
Arguments Ret {A}. Arguments Raise {A}.
Definition bind {A B} (r : res A) (f : A -> res B) : res B := match r with Ret a => f a | Raise e => Raise e end.

(** ** Item._write_bits, lines 408-433: a generator that fills a bytearray *)
Record wst := { w_arr : list Z; w_pos : nat; w_cur : Z; w_bits : Z }.
Definition w_init (arr : list Z) : wst := {| w_arr := arr; w_pos := 0; w_cur := 0; w_bits := 0 |}.
(** array[pos] = value on a bytearray: IndexError outside, ValueError unless it is a byte *)
Definition store8 (arr : list Z) (pos : nat) (v : Z) : res (list Z) :=
  if (Nat.ltb pos (length arr)) then
    if (0 <=? v) && (v <? 256) then Ret (firstn pos arr ++ v :: skipn (S pos) arr) else Raise ValueError
  else Raise IndexError.
(** lines 424-428; the fuel is enough for the bits there are *)
Fixpoint w_drain (fuel : nat) (g : wst) : res wst :=
  if 8 <=? w_bits g then
    match fuel with
    | O => Raise TypeError
    | S f => bind (store8 (w_arr g) (w_pos g) (Z.shiftr (w_cur g) (w_bits g - 8))) (fun arr =>
        w_drain f {| w_arr := arr; w_pos := S (w_pos g); w_cur := Z.land (w_cur g) (Z.shiftl 1 (w_bits g - 8) - 1); w_bits := w_bits g - 8 |})
    end
  else Ret g.
(** lines 418-428: gen.send((value, bits)) *)
Definition w_send (g : wst) (value bits : Z) : res wst :=
  if (value <? 0) || (Z.shiftl 1 bits <=? value) then Raise ValueError
  else let n := w_bits g + bits in
    w_drain (Z.to_nat n) {| w_arr := w_arr g; w_pos := w_pos g; w_cur := Z.lor (Z.shiftl (w_cur g) bits) value; w_bits := n |}.
(** lines 429-432: gen.close() *)
Definition w_close (g : wst) : res (list Z) :=
  if 0 <? w_bits g then store8 (w_arr g) (w_pos g) (Z.shiftl (w_cur g) (8 - w_bits g)) else Ret (w_arr g).

(** ** Item._read_bits, lines 386-406 *)
Record rdst := { d_have : Z; d_bits : Z; d_src : list Z }.
Definition d_init (raw : list Z) : rdst := {| d_have := 0; d_bits := 0; d_src := raw |}.
(** lines 397-402; at the end of the bytes the generator returns, which is StopIteration for the caller *)
Fixpoint d_fill (src : list Z) (have bits need : Z) : res rdst :=
  if have <? need then
    match src with
    | [] => Raise StopIteration
    | b :: r => d_fill r (have + 8) (Z.lor (Z.shiftl bits 8) b) need
    end
  else Ret {| d_have := have; d_bits := bits; d_src := src |}.
Definition d_send (g : rdst) (need : Z) : res (Z * rdst) :=
  bind (d_fill (d_src g) (d_have g) (d_bits g) need) (fun g =>
    Ret (Z.shiftr (d_bits g) (d_have g - need),
         {| d_have := d_have g - need; d_bits := Z.land (d_bits g) (Z.shiftl 1 (d_have g - need) - 1); d_src := d_src g |})).

(** ** Values *)
Inductive code := CU | CI | CB | CC | CF.
Definition format := list (code * Z).
(** A field of an element.  Simplified: a float is its IEEE bit pattern, so that
    numpy's view of the pattern is the identity; a character is its byte. *)
Inductive field := FInt (z : Z) | FBool (b : bool) | FChar (b : Z) | FFloat (pattern : Z).
(** A value: nested lists, at the bottom the fields of an element (a tuple, or a
    scalar if the format has one field). *)
Inductive value := VElem (fs : list field) | VList (l : list value).

(** the body of the loop of _store_recursive, lines 481-508 *)
Definition store_field (f : code * Z) (v : field) : res Z :=
  let '(c, len) := f in
  match c, v with
  | CU, FInt raw => if (raw <? 0) || (Z.shiftl 1 len <=? raw) then Raise ValueError else Ret raw
  | CI, FInt raw => let top := Z.shiftl 1 (len - 1) in
      if (raw <? - top) || (top <=? raw) then Raise ValueError else Ret (if raw <? 0 then raw + 2 * top else raw)
  | CB, FBool b => Ret (if b then 1 else 0)
  | CC, FChar b => Ret b
  | CF, FFloat p => if (len =? 32) || (len =? 64) then Ret p else Raise ValueError
  | _, _ => Raise TypeError
  end.
Fixpoint store_fields (l : list ((code * Z) * field)) (g : wst) : res wst :=
  match l with
  | [] => Ret g
  | (f, v) :: r => bind (store_field f v) (fun raw => bind (w_send g raw (snd f)) (store_fields r))
  end.
Fixpoint for_each {A G} (f : A -> G -> res G) (l : list A) (g : G) : res G :=
  match l with [] => Ret g | a :: r => bind (f a g) (for_each f r) end.
(** _store_recursive, lines 475-508 *)
Fixpoint store (fmt : format) (dims : nat) (v : value) (g : wst) : res wst :=
  match dims, v with
  | S d, VList l => for_each (store fmt d) l g
  | O, VElem fs => store_fields (combine fmt fs) g
  | _, _ => Raise TypeError
  end.

(** the body of the loop of _load_recursive, lines 446-468 *)
Definition load_field (f : code * Z) (raw : Z) : res field :=
  let '(c, len) := f in
  match c with
  | CU => Ret (FInt raw)
  | CI => Ret (FInt (if Z.shiftl 1 (len - 1) <=? raw then raw - Z.shiftl 1 len else raw))
  | CB => Ret (FBool (negb (raw =? 0)))
  | CC => if (0 <=? raw) && (raw <? 256) then Ret (FChar raw) else Raise StructError
  | CF => if (len =? 32) || (len =? 64) then Ret (FFloat raw) else Raise ValueError
  end.
Fixpoint load_fields (fmt : format) (g : rdst) : res (list field * rdst) :=
  match fmt with
  | [] => Ret ([], g)
  | f :: r => bind (d_send g (snd f)) (fun '(raw, g) => bind (load_field f raw) (fun v =>
                bind (load_fields r g) (fun '(vs, g) => Ret (v :: vs, g))))
  end.
Fixpoint times {A G} (n : nat) (f : G -> res (A * G)) (g : G) : res (list A * G) :=
  match n with
  | O => Ret ([], g)
  | S k => bind (f g) (fun '(a, g) => bind (times k f g) (fun '(l, g) => Ret (a :: l, g)))
  end.
(** _load_recursive, lines 435-473 *)
Fixpoint load (fmt : format) (shape : list Z) (g : rdst) : res (value * rdst) :=
  match shape with
  | n :: r => bind (times (Z.to_nat n) (load fmt r) g) (fun '(l, g) => Ret (VList l, g))
  | [] => bind (load_fields fmt g) (fun '(fs, g) => Ret (VElem fs, g))
  end.

(** Descriptor.itemsize_bits for a format, lines 251-257 *)
Definition bits_of (fmt : format) : Z := fold_right (fun f n => snd f + n) 0 fmt.
(** _shape_elements, lines 69-73 *)
Definition product (shape : list Z) : Z := fold_right Z.mul 1 shape.
(** Item.to_buffer on the general path, lines 634-647, for a value of the given
    shape (_num_elements is the product of the dimensions) *)
Definition pack (fmt : format) (shape : list Z) (v : value) : res (list Z) :=
  bind (store fmt (length shape) v (w_init (repeat 0 (Z.to_nat ((bits_of fmt * product shape + 7) / 8))))) w_close.
(** The end of set_from_raw's general path, lines 559-561 *)
Definition unpack (fmt : format) (shape : list Z) (raw : list Z) : res value := bind (load fmt shape (d_init raw)) (fun '(v, _) => Ret v).
