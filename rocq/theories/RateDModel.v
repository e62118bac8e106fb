(** The software rate limiter of the send stream (src/send_writer.cpp) with the
    arithmetic of the code: durations are doubles, each operation on which is
    rounded; times are 64-bit counts of ticks.  [None] is undefined behaviour: a
    conversion to or an operation on 64-bit integers that overflows.  (A double
    too large for binary64 would be an infinity; the value here is too large for
    64 bits as well, so that the next conversion is undefined in both.)
    Simplified: rate_bytes does not wrap. *)
From Coq Require Import ZArith QArith Qround List Bool.
From Verif Require Import DoubleModel RateModel.
Import ListNotations.
Open Scope Q_scope.

Definition in64 (z : Z) : bool := (- 2 ^ 63 <=? z)%Z && (z <? 2 ^ 63)%Z.
Definition ck (z : Z) : option Z := if in64 z then Some z else None.
Definition bind {A B} (o : option A) (f : A -> option B) : option B := match o with Some a => f a | None => None end.

(** The duration of a byte, include/spead2/send_stream.h:313-324 and
    src/send_stream.cpp:82-84: std::chrono::duration<double>(1.0 / rate), in
    seconds, converted to nanoseconds (a tick of the clock). *)
Definition wait_per_byte (rate : Q) : Q := rnd (rnd (1 / rate) * inject_Z 1000000000).

(** normalize, src/send_writer.cpp:42-49 *)
Definition normalizeD (t : ptime) : option ptime :=
  bind (ck (trunc (p_corr t))) (fun f =>
  let f := if Qlt_b (p_corr t) (rnd (inject_Z f)) then (f - 1)%Z else f in
  bind (ck (p_coarse t + f)) (fun z =>
  Some {| p_coarse := z; p_corr := rnd (p_corr t - rnd (inject_Z f)) |})).
(** operator+=, :51-56 *)
Definition paddD (t : ptime) (d : Q) : option ptime := normalizeD {| p_coarse := p_coarse t; p_corr := rnd (p_corr t + d) |}.

(** update_send_times, :78-92; gives the target time *)
Definition update_send_timesD (c : config) (now : Z) (s : rst) : option (Z * rst) :=
  bind (paddD (r_burst s) (rnd (r_wait s / burst_ratio c))) (fun b =>
  bind (paddD (r_time s) (r_wait s)) (fun t =>
  let target := pmax b t in
  Some (p_coarse target, {| r_burst := pmax (of_coarse now) target; r_time := t; r_bytes := 0; r_wait := 0; r_must := r_must s |}))).

(** update_send_time_empty, :94-104 *)
Definition update_send_time_emptyD (now : Z) (s : rst) : option rst :=
  bind (ck (trunc (r_wait s))) (fun wait =>
  bind (ck (now - wait)) (fun backdate =>
  Some {| r_burst := r_burst s; r_time := pmax (r_time s) (of_coarse backdate); r_bytes := r_bytes s; r_wait := r_wait s; r_must := r_must s |})).

(** get_packet, :106-150, as in RateModel *)
Definition get_packetD (c : config) (now1 now2 : Z) (pk : option (Z * Q)) (s : rst) : option (gres * rst) :=
  if r_must s && (now1 <? p_coarse (r_burst s))%Z then Some (SLEEP, s)
  else
    let s := {| r_burst := r_burst s; r_time := r_time s; r_bytes := r_bytes s; r_wait := r_wait s; r_must := false |} in
    bind (if (burst_size c <=? r_bytes s)%Z then update_send_timesD c now2 s else Some (now2, s)) (fun '(target, s) =>
    if (now2 <? target)%Z then
      Some (SLEEP, {| r_burst := r_burst s; r_time := r_time s; r_bytes := r_bytes s; r_wait := r_wait s; r_must := true |})
    else match pk with
         | None => Some (EMPTY, s)
         | Some (size, w) =>
             Some (SUCCESS, if hw_rate c then s
                       else {| r_burst := r_burst s; r_time := r_time s; r_bytes := (r_bytes s + size)%Z;
                               r_wait := rnd (r_wait s + rnd (rnd (inject_Z size) * w)); r_must := r_must s |})
         end).
