(** What packed item values look like. *)
From Coq Require Import ZArith List Bool.
From Verif Require Import Base BitsModel.
Import ListNotations.
Open Scope Z_scope.

(** Bits [off .. off + w) of a byte string, the most significant bit first. *)
Definition bits_at (raw : list Z) (off w : Z) : Z := (be_decode raw / 2 ^ (8 * zlen raw - off - w)) mod 2 ^ w.

(** The formats accepted by _parse_format *)
Definition code_ok (f : code * Z) : Prop := 0 < snd f /\ match fst f with CC => snd f = 8 | CF => snd f = 32 \/ snd f = 64 | _ => True end.
(** The values that a field can hold *)
Definition field_ok (f : code * Z) (v : field) : Prop :=
  match fst f, v with
  | CU, FInt z => 0 <= z < 2 ^ snd f
  | CI, FInt z => - 2 ^ (snd f - 1) <= z < 2 ^ (snd f - 1)
  | CB, FBool _ => True
  | CC, FChar b => 0 <= b < 256
  | CF, FFloat p => 0 <= p < 2 ^ snd f
  | _, _ => False
  end.
(** An integer field with an integer too large for it *)
Definition field_bad (f : code * Z) (v : field) : Prop :=
  match fst f, v with CU, FInt z => ~ 0 <= z < 2 ^ snd f | CI, FInt z => ~ - 2 ^ (snd f - 1) <= z < 2 ^ (snd f - 1) | _, _ => False end.
(** Integers in two's complement *)
Definition wire (f : code * Z) (v : field) : Z :=
  match v with FInt z => z mod 2 ^ snd f | FBool b => if b then 1 else 0 | FChar b => b | FFloat p => p end.

Fixpoint shaped (shape : list Z) (v : value) : Prop :=
  match shape, v with
  | n :: r, VList l => zlen l = n /\ Forall (shaped r) l
  | [], VElem _ => True
  | _, _ => False
  end.
(** The fields in order *)
Fixpoint fields (fmt : format) (v : value) : list ((code * Z) * field) :=
  match v with VElem fs => combine fmt fs | VList l => flat_map (fields fmt) l end.
Fixpoint elements_ok (fmt : format) (v : value) : Prop :=
  match v with VElem fs => length fs = length fmt | VList l => fold_right (fun v P => elements_ok fmt v /\ P) True l end.
Definition width (l : list ((code * Z) * field)) : Z := fold_right (fun x n => snd (fst x) + n) 0 l.
