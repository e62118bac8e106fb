(** What a ring buffer should do, as a monitor of the events: an atomic FIFO
    queue with a capacity, a stop flag and a producer count, in which the effect
    of each call happens once, between the call and the return. *)
From Coq Require Import List Arith Bool.
From Verif Require Import ConcBase RingModel.
Import ListNotations.

Section Spec.
Context {V : Type}.

(** The part of the current call of a thread that has been seen. *)
Inductive tstatus :=
| TIdle
| TCalled (o : op V)
| TPushed
| TPopped (v : V)
| TStopping.

Record mon := { m_q : list V; m_stopped : bool; m_prod : nat; m_th : list tstatus }.
Definition mon_new (n : nat) : mon := {| m_q := []; m_stopped := false; m_prod := 0; m_th := repeat TIdle n |}.

Definition with_th (m : mon) (t : nat) (x : tstatus) : mon :=
  {| m_q := m_q m; m_stopped := m_stopped m; m_prod := m_prod m; m_th := upd (m_th m) t x |}.
Definition with_q (m : mon) (q : list V) : mon :=
  {| m_q := q; m_stopped := m_stopped m; m_prod := m_prod m; m_th := m_th m |}.
Definition with_prod (m : mon) (n : nat) : mon :=
  {| m_q := m_q m; m_stopped := m_stopped m; m_prod := n; m_th := m_th m |}.
Definition with_stopped (m : mon) : mon :=
  {| m_q := m_q m; m_stopped := true; m_prod := m_prod m; m_th := m_th m |}.
Definition is_nil {A} (l : list A) : bool := match l with [] => true | _ => false end.

(** [eqV]: decidable equality of values (a call of push must push its own value). *)
Context (eqV : forall a b : V, {a = b} + {a <> b}).

(** Is return value [r] allowed now for a call [o] that had no effect on the
    queue, and what becomes of the producer count?  REmpty is allowed at any
    time here; see C25. *)
Definition ret_ok (m : mon) (o : op V) (r : result V) : option nat :=
  match o, r with
  | (OpPush _ | OpTryPush _), RStopped => if m_stopped m then Some (m_prod m) else None
  | OpTryPush _, RFull => if m_stopped m then None else Some (m_prod m)
  | (OpPop | OpTryPop), RStopped => if m_stopped m && is_nil (m_q m) then Some (m_prod m) else None
  | OpTryPop, REmpty => Some (m_prod m)
  | OpAddProducer, RUnit => Some (S (m_prod m))
  | OpRemoveProducer, RBool false => if 1 <? m_prod m then Some (m_prod m - 1) else None
  | OpSize, RSize k => if k =? length (m_q m) then Some (m_prod m) else None
  | _, _ => None
  end.

Definition mon_step (cap : nat) (m : mon) (e : event V) : option mon :=
  match e with
  | ECall t o =>
      match nth_error (m_th m) t with
      | Some TIdle => Some (with_th m t (TCalled o))
      | _ => None
      end
  | EPush t v =>
      match nth_error (m_th m) t with
      | Some (TCalled (OpPush w | OpTryPush w)) =>
          if eqV v w then
            if m_stopped m then None
            else if length (m_q m) <? cap then Some (with_th (with_q m (m_q m ++ [v])) t TPushed) else None
          else None
      | _ => None
      end
  | EPop t v =>
      match nth_error (m_th m) t, m_q m with
      | Some (TCalled (OpPop | OpTryPop)), w :: q => if eqV v w then Some (with_th (with_q m q) t (TPopped v)) else None
      | _, _ => None
      end
  | EStop t =>
      match nth_error (m_th m) t with
      | Some (TCalled OpStop) => Some (with_th (with_stopped m) t TStopping)
      | Some (TCalled OpRemoveProducer) => if 1 <? m_prod m then None else Some (with_th (with_stopped (with_prod m (m_prod m - 1))) t TStopping)
      | _ => None
      end
  | ERet t r =>
      match nth_error (m_th m) t, r with
      | Some TPushed, RPushed => Some (with_th m t TIdle)
      | Some (TPopped v), RPopped w => if eqV v w then Some (with_th m t TIdle) else None
      | Some TStopping, RBool true => Some (with_th m t TIdle)
      | Some (TCalled o), _ => option_map (fun p => with_th (with_prod m p) t TIdle) (ret_ok m o r)
      | _, _ => None
      end
  end.

Fixpoint mon_run (cap : nat) (m : mon) (tr : list (event V)) : option mon :=
  match tr with
  | [] => Some m
  | e :: tr' => match mon_step cap m e with Some m' => mon_run cap m' tr' | None => None end
  end.

(** Values pushed and popped, in the order in which that took effect. *)
Definition pushes (tr : list (event V)) : list V := flat_map (fun e => match e with EPush _ v => [v] | _ => [] end) tr.
Definition pops (tr : list (event V)) : list V := flat_map (fun e => match e with EPop _ v => [v] | _ => [] end) tr.

End Spec.
Arguments mon : clear implicits.
Arguments tstatus : clear implicits.
