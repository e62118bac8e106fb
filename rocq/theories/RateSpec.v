(** Runs of the rate limiter, and the packets it lets through. *)
From Coq Require Import ZArith QArith List Bool.
From Verif Require Import RateModel.
Import ListNotations.
Open Scope Q_scope.

(** A packet let through: its size and its wait_per_byte (1 / rate). *)
Definition release := (Z * Q)%type.
Definition bytes (l : list release) : Z := fold_right (fun r b => (fst r + b)%Z) 0%Z l.
(** The time the packets take at their rates. *)
Definition duration (l : list release) : Q := fold_right (fun r d => inject_Z (fst r) * snd r + d) 0 l.

(** The clock does not go back; timers do not expire early; sizes and rates are
    not negative. *)
Inductive steps (c : config) : Z * rst -> list release -> Z * rst -> Prop :=
| steps0 p : steps c p [] p
| steps_idle p tr k s now : steps c p tr (k, s) -> (k <= now)%Z -> steps c p tr (now, update_send_time_empty now s)
| steps_timer p tr k s now : steps c p tr (k, s) -> (k <= now)%Z -> (p_coarse (r_burst s) <= now)%Z -> steps c p tr (now, on_timer s)
| steps_wait p tr k s now1 now2 pk r s' : steps c p tr (k, s) -> (k <= now1 <= now2)%Z -> get_packet c now1 now2 pk s = (r, s') -> r <> SUCCESS -> steps c p tr (now2, s')
| steps_get p tr k s now1 now2 size w s' : steps c p tr (k, s) -> (k <= now1 <= now2)%Z -> (0 <= size)%Z -> 0 <= w -> get_packet c now1 now2 (Some (size, w)) s = (SUCCESS, s') ->
    steps c p (tr ++ [(size, w)]) (now2, s').
