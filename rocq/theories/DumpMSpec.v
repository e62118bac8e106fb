(** What mcdump with a multi-packet receive queue is to capture. *)
From Coq Require Import ZArith List Bool Arith.
From Verif Require Import Base DumpSpec DumpMModel.
Import ListNotations.
Open Scope Z_scope.

(** A packet received at a time, cut to the snap length *)
Definition capture (stamped : bool) (snap : Z) (x : list Z * Z) : captured :=
  {| c_sec := if stamped then snd x / 10 ^ 9 else 0; c_nsec := if stamped then snd x mod 10 ^ 9 else 0; c_orig := zlen (fst x); c_data := firstn (Z.to_nat snap) (fst x) |}.
(** The packets that an execution receives *)
Definition received (ls : list dlabel) : list (list Z * Z) := flat_map (fun l => match l with HRecv pkt ns => [(pkt, ns)] | _ => [] end) ls.
(** Executions in which no receive fails, and times fit in the file *)
Definition label_ok (l : dlabel) : Prop := match l with HFail => False | HRecv _ ns => 0 <= ns < 2 ^ 32 * 10 ^ 9 | _ => True end.
