(** The search of the sustainable rate: /repo/src/spead2_bench.cpp:400-465, and the same in
    /repo/src/spead2/tools/bench_asyncio.py:245-296.

    Simplified: rates are exact rationals, not doubles; a measurement is its outcome. *)
From Coq Require Import QArith List Bool.
Import ListNotations.
Open Scope Q_scope.

(** One pass: enough heaps arrived; the rate at which they were sent. *)
Definition pass := (bool * Q)%type.
(** :400-415 measure_connection: the passes at one rate ([passes] = 5 in the code) *)
Definition measure (ps : list pass) : bool * Q :=
  (forallb fst ps, fold_left Qplus (map snd ps) 0 / inject_Z (Z.of_nat (length ps))).

Record search := { low : Q; high : Q; best : Q }.
(** :441 *)
Definition goes_on (s : search) : bool := negb (Qle_bool (high s - low s) (high s * (2 # 100))).
(** :445 *)
Definition rate (s : search) : Q := (low s + high s) * (1 # 2).
(** :447-457 *)
Definition round (s : search) (ps : list pass) : search :=
  let '(good, actual) := measure ps in
  if good then {| low := rate s; high := high s; best := actual |} else {| low := low s; high := rate s; best := best s |}.
(** :420, :427-440: [first]: the passes as fast as possible; the result, or a search *)
Definition begin (first : list pass) : Q + search :=
  let '(good, actual) := measure first in if good then inl actual else inr {| low := 0; high := actual; best := 0 |}.
(** :441-458: the rounds, with the rate of each; [None]: the loop had ended before *)
Fixpoint rounds (s : search) (pss : list (list pass)) : option (search * list Q) :=
  match pss with
  | [] => Some (s, [])
  | ps :: r => if goes_on s then match rounds (round s ps) r with Some (s', rs) => Some (s', rate s :: rs) | None => None end else None
  end.
