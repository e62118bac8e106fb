(** The software rate limiter of the send stream (src/send_writer.cpp).  Times
    are in ticks of the clock.  Simplified: the doubles are rationals, so
    rounding is not modelled (it is in RateDModel). *)
From Coq Require Import ZArith QArith Qround List Bool.
Import ListNotations.
Open Scope Q_scope.

(** detail::precise_time, include/spead2/send_writer.h:45-63 *)
Record ptime := { p_coarse : Z; p_corr : Q }.
(** std::chrono::duration_cast from a floating-point to an integral duration truncates. *)
Definition trunc (q : Q) : Z := if Qle_bool 0 q then Qfloor q else (- Qfloor (- q))%Z.
Definition Qlt_b (a b : Q) : bool := negb (Qle_bool b a).
(** normalize, src/send_writer.cpp:42-49 *)
Definition normalize (t : ptime) : ptime :=
  let f := trunc (p_corr t) in
  let f := if Qlt_b (p_corr t) (inject_Z f) then (f - 1)%Z else f in
  {| p_coarse := (p_coarse t + f)%Z; p_corr := p_corr t - inject_Z f |}.
(** operator+=, :51-56 *)
Definition padd (t : ptime) (d : Q) : ptime := normalize {| p_coarse := p_coarse t; p_corr := p_corr t + d |}.
(** operator<, :58-61: the tuple comparison *)
Definition plt (a b : ptime) : bool :=
  (p_coarse a <? p_coarse b)%Z || negb (p_coarse b <? p_coarse a)%Z && Qlt_b (p_corr a) (p_corr b).
(** std::max, which takes the first of two equal arguments *)
Definition pmax (a b : ptime) : ptime := if plt a b then b else a.
Definition of_coarse (c : Z) : ptime := {| p_coarse := c; p_corr := 0 |}.

Record config := { burst_size : Z; burst_ratio : Q; hw_rate : bool }.

(** The members of writer used by the rate limiter, include/spead2/send_writer.h:126-140 *)
Record rst := { r_burst : ptime; r_time : ptime; r_bytes : Z; r_wait : Q; r_must : bool }.
Definition r_init : rst := {| r_burst := of_coarse 0; r_time := of_coarse 0; r_bytes := 0; r_wait := 0; r_must := false |}.

(** update_send_times, src/send_writer.cpp:78-92; gives the target time *)
Definition update_send_times (c : config) (now : Z) (s : rst) : Z * rst :=
  let b := padd (r_burst s) (r_wait s / burst_ratio c) in
  let t := padd (r_time s) (r_wait s) in
  let target := pmax b t in
  (p_coarse target, {| r_burst := pmax (of_coarse now) target; r_time := t; r_bytes := 0; r_wait := 0; r_must := r_must s |}).

(** update_send_time_empty, :94-104 *)
Definition update_send_time_empty (now : Z) (s : rst) : rst :=
  {| r_burst := r_burst s; r_time := pmax (r_time s) (of_coarse (now - trunc (r_wait s))); r_bytes := r_bytes s; r_wait := r_wait s; r_must := r_must s |}.

Inductive gres := SLEEP | EMPTY | SUCCESS.
(** get_packet, :106-150, as far as it concerns the rate: [now1] and [now2] are the
    two readings of the clock, [pk] the size and the wait_per_byte of the next packet
    if there is one. *)
Definition get_packet (c : config) (now1 now2 : Z) (pk : option (Z * Q)) (s : rst) : gres * rst :=
  if r_must s && (now1 <? p_coarse (r_burst s))%Z then (SLEEP, s)
  else
    let s := {| r_burst := r_burst s; r_time := r_time s; r_bytes := r_bytes s; r_wait := r_wait s; r_must := false |} in
    let '(target, s) := if (burst_size c <=? r_bytes s)%Z then update_send_times c now2 s else (now2, s) in
    if (now2 <? target)%Z then
      (SLEEP, {| r_burst := r_burst s; r_time := r_time s; r_bytes := r_bytes s; r_wait := r_wait s; r_must := true |})
    else match pk with
         | None => (EMPTY, s)
         | Some (size, w) =>
             (SUCCESS, if hw_rate c then s
                       else {| r_burst := r_burst s; r_time := r_time s; r_bytes := (r_bytes s + size)%Z; r_wait := r_wait s + inject_Z size * w; r_must := r_must s |})
         end.

(** The handler of the timer, :267-278 *)
Definition on_timer (s : rst) : rst := {| r_burst := r_burst s; r_time := r_time s; r_bytes := r_bytes s; r_wait := r_wait s; r_must := false |}.
