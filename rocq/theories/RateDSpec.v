(** Runs of the rate limiter on doubles that are defined. *)
From Coq Require Import ZArith QArith List Bool.
From Verif Require Import DoubleModel RateModel RateDModel RateSpec.
Import ListNotations.
Open Scope Q_scope.

(** As [RateSpec.steps]: the clock does not go back; timers do not expire early;
    sizes are not negative, and the wait_per_byte is a double, not negative. *)
Inductive stepsD (c : config) : Z * rst -> list release -> Z * rst -> Prop :=
| stepsD0 p : stepsD c p [] p
| stepsD_idle p tr k s now s' : stepsD c p tr (k, s) -> (k <= now)%Z -> update_send_time_emptyD now s = Some s' -> stepsD c p tr (now, s')
| stepsD_timer p tr k s now : stepsD c p tr (k, s) -> (k <= now)%Z -> (p_coarse (r_burst s) <= now)%Z -> stepsD c p tr (now, on_timer s)
| stepsD_wait p tr k s now1 now2 pk r s' : stepsD c p tr (k, s) -> (k <= now1 <= now2)%Z -> get_packetD c now1 now2 pk s = Some (r, s') -> r <> SUCCESS -> stepsD c p tr (now2, s')
| stepsD_get p tr k s now1 now2 size w s' : stepsD c p tr (k, s) -> (k <= now1 <= now2)%Z -> (0 <= size)%Z -> is_double w -> get_packetD c now1 now2 (Some (size, w)) s = Some (SUCCESS, s') ->
    stepsD c p (tr ++ [(size, w)]) (now2, s').

(** 2^-53: the relative error of an operation on doubles *)
Definition ulp : Q := 1 # 9007199254740992.
(** A number of packets *)
Definition count (l : list release) : Q := inject_Z (Z.of_nat (length l)).
