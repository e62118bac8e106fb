(** IEEE 754 binary64 rounding of a rational number, to nearest, ties to even
    (the arithmetic of a C++ double, as the code is compiled for).  Simplified:
    there is no largest number, infinity or NaN; the users of this file deal
    with overflow. *)
From Coq Require Import ZArith QArith Qround Qpower.
Open Scope Q_scope.

Definition pow2 (k : Z) : Q := Qpower 2 k.
(** The exponent of [q > 0]: 2^e <= q < 2^(e+1) *)
Definition ilog (q : Q) : Z :=
  let e := (Z.log2 (Qnum q) - Z.log2 (QDen q))%Z in
  if Qle_bool (pow2 e) q then e else (e - 1)%Z.
(** The nearest integer, ties to even *)
Definition rne (x : Q) : Z :=
  let f := Qfloor x in
  match Qcompare (x - inject_Z f) (1 # 2) with
  | Lt => f
  | Gt => (f + 1)%Z
  | Eq => if Z.even f then f else (f + 1)%Z
  end.
(** A significand of 53 bits; the smallest positive number is 2^-1074. *)
Definition rnd_pos (q : Q) : Q :=
  let k := Z.max (ilog q - 52) (-1074) in
  inject_Z (rne (q / pow2 k)) * pow2 k.
Definition rnd (q : Q) : Q :=
  match Qcompare q 0 with
  | Eq => 0
  | Gt => rnd_pos q
  | Lt => - rnd_pos (- q)
  end.

(** The numbers a non-negative double can hold (but for the largest) *)
Definition is_double (q : Q) : Prop := exists m k : Z, (0 <= m <= 2 ^ 53)%Z /\ (-1074 <= k)%Z /\ q == inject_Z m * pow2 k.
(** The unit roundoff, and half the smallest positive number *)
Definition u53 : Q := pow2 (-53).
Definition eta : Q := pow2 (-1075).
