(** C67: the ring buffer on top of the real semaphores behaves as the ring buffer
    of C23-C25. *)
From Coq Require Import List Arith Bool Lia.
From Verif Require Import ConcBase RingModel RingSpec RingProofs RingProps SemModel SemProps RingSemModel.
Import ListNotations.

Section P.
Context {V : Type} (eqV : forall a b : V, {a = b} + {a <> b}).
Notation ring := (ring V).

(** ** How many tokens there can be *)
Definition stops (tr : list (event V)) : nat := length (filter (fun e => match e with EStop _ => true | _ => false end) tr).
Lemma stops_app a b : stops (a ++ b) = stops a + stops b.
Proof. unfold stops. now rewrite filter_app, app_length. Qed.
Lemma pushes_app' (a b : list (event V)) : pushes (a ++ b) = pushes a ++ pushes b.
Proof. unfold pushes. apply flat_map_app. Qed.
Lemma pops_app' (a b : list (event V)) : pops (a ++ b) = pops a ++ pops b.
Proof. unfold pops. apply flat_map_app. Qed.

Definition tokens (cap : nat) (tr : list (event V)) (s : ring) : Prop :=
  data_sem s + sumw wD (threads s) + sumw wSD (threads s) + length (pops tr) = length (pushes tr) + stops tr /\
  space_sem s + sumw wS (threads s) + sumw wSS (threads s) + length (pushes tr) = cap + length (pops tr) + stops tr.

Lemma tokens_next cap tr s l s' ev : tokens cap tr s -> ring_next s l = Some (s', ev) -> tokens cap (tr ++ ev) s'.
Proof.
  intros [T1 T2] H. unfold tokens. rewrite pushes_app', pops_app', stops_app, !app_length.
  destruct l as [t o|t sp]; cbn [ring_next] in H.
  - destruct (nth_error (threads s) t) as [[]|] eqn:Ht; try discriminate. injection H as <- <-. cbn [set_thread threads data_sem space_sem].
    pose proof (sumw_upd wD _ _ _ (start o) Ht). pose proof (sumw_upd wSD _ _ _ (start o) Ht). pose proof (sumw_upd wS _ _ _ (start o) Ht). pose proof (sumw_upd wSS _ _ _ (start o) Ht).
    destruct o; cbn in *; lia.
  - unfold step in H. destruct (nth_error (threads s) t) as [p|] eqn:Ht; [|discriminate].
    pose proof (fun y => sumw_upd wD _ _ _ y Ht) as W1. pose proof (fun y => sumw_upd wSD _ _ _ y Ht) as W2.
    pose proof (fun y => sumw_upd wS _ _ _ y Ht) as W3. pose proof (fun y => sumw_upd wSS _ _ _ y Ht) as W4.
    assert (Fin : forall (x : ring) p' evx, threads x = threads s ->
        (data_sem x + wD p' + wSD p' + length (pops evx) + length (pushes tr) + stops tr + data_sem s * 0 = data_sem s + wD p + wSD p + length (pushes evx) + stops evx + length (pushes tr) + stops tr) ->
        (space_sem x + wS p' + wSS p' + length (pushes evx) = space_sem s + wS p + wSS p + length (pops evx) + stops evx) ->
        data_sem (set_thread x t p') + sumw wD (threads (set_thread x t p')) + sumw wSD (threads (set_thread x t p')) + (length (pops tr) + length (pops evx)) = length (pushes tr) + length (pushes evx) + (stops tr + stops evx) /\
        space_sem (set_thread x t p') + sumw wS (threads (set_thread x t p')) + sumw wSS (threads (set_thread x t p')) + (length (pushes tr) + length (pushes evx)) = cap + (length (pops tr) + length (pops evx)) + (stops tr + stops evx)).
    { intros x p' evx Hx E1 E2. cbn [set_thread threads data_sem space_sem]. rewrite Hx. specialize (W1 p'). specialize (W2 p'). specialize (W3 p'). specialize (W4 p'). lia. }
    clear W1 W2 W3 W4.
    destruct p; try discriminate.
    + destruct (space_sem s) eqn:E; [discriminate|]. injection H as <- <-. apply Fin; [reflexivity|cbn; lia..].
    + destruct (space_sem s) eqn:E; [|destruct sp]; injection H as <- <-; (apply Fin; [reflexivity|cbn; lia..]).
    + injection H as <- <-. apply Fin; [reflexivity|cbn; lia..].
    + destruct (stopped s); injection H as <- <-; (apply Fin; [reflexivity|cbn; lia..]).
    + injection H as <- <-. apply Fin; [reflexivity|cbn; lia..].
    + injection H as <- <-. apply Fin; [reflexivity|cbn; lia..].
    + destruct (data_sem s) eqn:E; [discriminate|]. injection H as <- <-. apply Fin; [reflexivity|cbn; lia..].
    + destruct (data_sem s) eqn:E; [|destruct sp]; injection H as <- <-; (apply Fin; [reflexivity|cbn; lia..]).
    + injection H as <- <-. apply Fin; [reflexivity|cbn; lia..].
    + destruct (stop_position s =? head s); [injection H as <- <-; apply Fin; [reflexivity|cbn; lia..]|].
      destruct (nth_error (storage s) (head s)) as [[v|]|]; injection H as <- <-; (apply Fin; [reflexivity|cbn; lia..]).
    + injection H as <- <-. apply Fin; [reflexivity|cbn; lia..].
    + injection H as <- <-. apply Fin; [reflexivity|cbn; lia..].
    + destruct (_ && _); injection H as <- <-; (apply Fin; [destruct remove; reflexivity|destruct remove; cbn; lia..]).
    + injection H as <- <-. apply Fin; [reflexivity|cbn; lia..].
    + injection H as <- <-. apply Fin; [reflexivity|cbn; lia..].
    + injection H as <- <-. apply Fin; [reflexivity|cbn; lia..].
    + injection H as <- <-. apply Fin; [reflexivity|cbn; lia..].
    + injection H as <- <-. apply Fin; [reflexivity|cbn; lia..].
Qed.
Lemma exec_tokens cap n tr s : exec cap n tr s -> tokens cap tr s.
Proof.
  induction 1 as [|tr s l s' ev _ IH H]; [|eapply tokens_next; eauto]. unfold tokens. cbn [ring_new data_sem space_sem threads]. rewrite !sumw_repeat. cbn. lia.
Qed.

(** A semaphore never holds more than the capacity and one for each stop. *)
Lemma exec_bound cap n tr s : exec cap n tr s ->
  data_sem s + sumw wD (threads s) + sumw wSD (threads s) <= cap + stops tr /\ space_sem s + sumw wS (threads s) + sumw wSS (threads s) <= cap + stops tr.
Proof.
  intro H. destruct (exec_tokens _ _ _ _ H) as [T1 T2]. destruct (C23_fifo eqV _ _ _ _ H) as (q & Q1 & Q2 & _). rewrite Q1, app_length in *. lia.
Qed.

(** ** Where a thread is inside a semaphore *)
Definition sem_at (p : pc V) : option (bool * sop) :=
  match p with
  | PushWait _ => Some (false, Get) | TryPush _ => Some (false, TryGet) | PushPut => Some (true, Put) | PushUndo => Some (false, Put)
  | PopWait => Some (true, Get) | TryPop => Some (true, TryGet) | PopPut _ => Some (false, Put) | PopUndo => Some (true, Put)
  | StopSpace => Some (false, Put) | StopData => Some (true, Put)
  | _ => None
  end.
Definition sub_ok (c : sems) (x : rsem V) : Prop :=
  length (rs_sub x) = length (threads (rs_ring x)) /\
  forall t q, nth_error (rs_sub x) t = Some (Some q) ->
    exists p data o, nth_error (threads (rs_ring x)) t = Some p /\ sem_at p = Some (data, o) /\ pcok (sem_k c data) o q.

Definition plain (tr : list (revent V)) : list (event V) := flat_map (fun e => match e with Ev e' => [e'] | EThrow _ => [] end) tr.
Definition no_throw (tr : list (revent V)) : Prop := forall t, ~ In (EThrow t) tr.
Lemma plain_app a b : plain (a ++ b) = plain a ++ plain b.
Proof. unfold plain. apply flat_map_app. Qed.
Lemma plain_map l : plain (map Ev l) = l.
Proof. induction l as [|e l IH]; cbn; [reflexivity|]. f_equal. exact IH. Qed.

(** Strictly below the limit when a put is under way. *)
Definition room (c : sems) (x : rsem V) : Prop :=
  data_sem (rs_ring x) + sumw wD (threads (rs_ring x)) + sumw wSD (threads (rs_ring x)) <= ld c /\
  space_sem (rs_ring x) + sumw wS (threads (rs_ring x)) + sumw wSS (threads (rs_ring x)) <= ls c.

(** One step on the real semaphores: nothing visible, or one step of the ring of
    RingModel, or an exception. *)
Definition matches (x x' : rsem V) (t : nat) (ev : list (revent V)) : Prop :=
  (rs_ring x' = rs_ring x /\ ev = []) \/
  (exists sp ev', step (rs_ring x) t sp = Some (rs_ring x', ev') /\ ev = map Ev ev') \/
  ev = [EThrow t].

Lemma room_put c x t p data : room c x -> nth_error (threads (rs_ring x)) t = Some p -> sem_at p = Some (data, Put) -> sem_v (rs_ring x) data < sem_l c data.
Proof.
  intros [R1 R2] Ht HA. pose proof (sumw_ge wD _ _ _ Ht). pose proof (sumw_ge wSD _ _ _ Ht). pose proof (sumw_ge wS _ _ _ Ht). pose proof (sumw_ge wSS _ _ _ Ht).
  destruct p; try discriminate; injection HA as <-; cbn in *; lia.
Qed.
Lemma room_le c x data : room c x -> sem_v (rs_ring x) data <= sem_l c data.
Proof. intros [R1 R2]. destruct data; cbn; lia. Qed.

Lemma sub_ok_upd c x t r' sub' : sub_ok c x -> t < length (threads (rs_ring x)) -> length (threads r') = length (threads (rs_ring x)) ->
  (forall i, i <> t -> nth_error (threads r') i = nth_error (threads (rs_ring x)) i) ->
  (forall q, sub' = Some q -> exists p data o, nth_error (threads r') t = Some p /\ sem_at p = Some (data, o) /\ pcok (sem_k c data) o q) ->
  sub_ok c {| rs_ring := r'; rs_sub := upd (rs_sub x) t sub' |}.
Proof.
  intros [S1 S2] Ht HL HO HQ. split; cbn [rs_ring rs_sub]; [rewrite upd_length; congruence|].
  intros i q Hi. rewrite nth_upd in Hi. destruct (Nat.eqb_spec i t) as [->|N].
  - destruct (t <? length (rs_sub x)); [|discriminate]. injection Hi as ->. now apply HQ.
  - rewrite HO by exact N. apply S2. exact Hi.
Qed.

Lemma rs_step_ok c x t e x' ev : sub_ok c x -> room c x -> rs_step c x t e = Some (x', ev) -> sub_ok c x' /\ matches x x' t ev.
Proof.
  intros HS HR H. unfold rs_step in H. destruct (nth_error (threads (rs_ring x)) t) as [p|] eqn:Ht; [|unfold step in H; rewrite Ht in H; destruct e; discriminate].
  assert (Htl : t < length (threads (rs_ring x))) by (apply nth_error_Some; congruence).
  (* a step inside a semaphore *)
  assert (VIA : forall data o p1 ev1 ag, sem_at p = Some (data, o) ->
     via c x t e data o (fun r => (set_thread r t p1, ev1)) ag = Some (x', ev) ->
     (match o with
      | Put => step (rs_ring x) t false = Some (set_thread (sem_set (rs_ring x) data (S (sem_v (rs_ring x) data))) t p1, ev1)
      | _ => forall n, sem_v (rs_ring x) data = S n -> step (rs_ring x) t false = Some (set_thread (sem_set (rs_ring x) data n) t p1, ev1)
      end) ->
     (forall f, ag = Some f -> exists p2 ev2, f = (fun r => (set_thread r t p2, ev2)) /\ step (rs_ring x) t true = Some (set_thread (rs_ring x) t p2, ev2)) ->
     sub_ok c x' /\ matches x x' t ev).
  { clear H. intros data o p1 ev1 ag HA HV HZ HM. unfold via in HV.
    set (q := match nth_error (rs_sub x) t with Some (Some p0) => p0 | _ => sem_start (sem_k c data) o end) in HV.
    assert (HQ : pcok (sem_k c data) o q).
    { unfold q. destruct (nth_error (rs_sub x) t) as [[q0|]|] eqn:Eq; [|apply pcok_start..]. destruct HS as [_ HS]. destruct (HS _ _ Eq) as (p' & d' & o' & X1 & X2 & X3).
      assert (p' = p) by congruence. subst p'. rewrite X2 in HA. injection HA as -> ->. exact X3. }
    pose proof (sem_step_ok (sem_k c data) (sem_l c data) o e _ q HQ (room_le c x data HR)) as X.
    assert (TH : forall r d v, threads (sem_set r d v) = @threads V r) by (intros r d v; destruct d; reflexivity).
    assert (SET : forall (r : ring) p', threads r = threads (rs_ring x) -> sub_ok c {| rs_ring := set_thread r t p'; rs_sub := upd (rs_sub x) t None |}).
    { intros r p' Hr. apply sub_ok_upd; auto; cbn [set_thread threads]; rewrite ?Hr, ?upd_length; auto; [intros i Hi; now rewrite upd_other|discriminate]. }
    destruct (sem_step (sem_k c data) (sem_l c data) e (sem_v (rs_ring x) data) q) as [|q'|v' r] eqn:Es; [discriminate| |].
    - injection HV as <- <-. split; [|left; auto]. apply sub_ok_upd; auto. intros q0 E. injection E as <-. exists p, data, o. auto.
    - destruct r.
      + injection HV as <- <-. split; [apply SET; apply TH|]. right. left. exists false, ev1. split; [|reflexivity]. cbn [rs_ring]. destruct o.
        * destruct X as [[-> _]|(_ & X & _)]; [exact HZ|]. exfalso. pose proof (room_put c x t p data HR Ht HA). lia.
        * apply HZ. exact X.
        * apply HZ. exact X.
      + destruct ag as [f|].
        * destruct (HM f eq_refl) as (p2 & ev2 & -> & HM2). injection HV as <- <-. split; [apply SET; reflexivity|]. right. left. exists true, ev2. auto.
        * injection HV as <- <-. split; [|left; auto]. apply sub_ok_upd; auto. discriminate.
      + injection HV as <- <-. split; [apply SET; reflexivity|]. right. right. reflexivity. }
  (* a step outside *)
  assert (OUT : sem_at p = None -> match e, step (rs_ring x) t false with Normal, Some (r', ev0) => Some ({| rs_ring := r'; rs_sub := rs_sub x |}, map Ev ev0) | _, _ => None end = Some (x', ev) ->
     sub_ok c x' /\ matches x x' t ev).
  { clear H VIA. intros HA HV. destruct e; try discriminate. destruct (step (rs_ring x) t false) as [[r' ev0]|] eqn:E; [|discriminate]. injection HV as <- <-.
    split; [|right; left; exists false, ev0; auto]. destruct HS as [S1 S2].
    assert (TH : exists p', threads r' = upd (threads (rs_ring x)) t p').
    { unfold step in E. rewrite Ht in E. destruct p; try discriminate.
      - injection E as <- <-. eexists; reflexivity.
      - destruct (stopped (rs_ring x)); injection E as <- <-; eexists; reflexivity.
      - injection E as <- <-. eexists; reflexivity.
      - destruct (stop_position (rs_ring x) =? head (rs_ring x)); [|destruct (nth_error (storage (rs_ring x)) (head (rs_ring x))) as [[]|]]; injection E as <- <-; eexists; reflexivity.
      - destruct (_ && _); injection E as <- <-; destruct remove; eexists; reflexivity.
      - injection E as <- <-. eexists; reflexivity.
      - injection E as <- <-. eexists; reflexivity.
      - injection E as <- <-. eexists; reflexivity. }
    destruct TH as [p' TH]. split; cbn [rs_ring rs_sub]; [rewrite TH, upd_length; exact S1|]. intros i q Hi. destruct (S2 i q Hi) as (p0 & d & o & X1 & X2 & X3).
    exists p0, d, o. rewrite TH, upd_other; [auto|]. intros ->. assert (p0 = p) by congruence. subst. congruence. }
  destruct p; try (apply OUT; [reflexivity|exact H]); (eapply VIA; [reflexivity|exact H| |]);
    try (intros f Ef; discriminate); try (intros f Ef; injection Ef as <-; eexists _, _; split; [reflexivity|]); unfold step; rewrite Ht; cbn [sem_set sem_v]; try reflexivity;
    try (intros n0 E0; rewrite E0; reflexivity).
  - destruct (space_sem (rs_ring x)); reflexivity.
  - destruct (data_sem (rs_ring x)); reflexivity.
Qed.

Lemma rs_run_app c l : forall (x : rsem V) l', rs_run c x (l ++ l') =
  match rs_run c x l with None => None | Some (x1, ev) => match rs_run c x1 l' with None => None | Some (x2, ev') => Some (x2, ev ++ ev') end end.
Proof.
  induction l as [|a l IH]; intros x l'; cbn [app rs_run]. { destruct (rs_run c x l') as [[]|]; reflexivity. }
  destruct (rs_next c x a) as [[x1 ev]|]; [|reflexivity]. rewrite IH. destruct (rs_run c x1 l) as [[x2 ev2]|]; [|reflexivity].
  destruct (rs_run c x2 l') as [[x3 ev3]|]; [|reflexivity]. now rewrite app_assoc.
Qed.
Definition fits (c : sems) (cap : nat) (tr : list (revent V)) : Prop := cap + stops (plain tr) <= ld c /\ cap + stops (plain tr) <= ls c.
Lemma fits_app c cap a b : fits c cap (a ++ b) -> fits c cap a.
Proof. unfold fits. rewrite plain_app, stops_app. lia. Qed.
Lemma no_throw_app a b : no_throw (a ++ b) -> no_throw a /\ no_throw b.
Proof. intro H. split; intros t X; apply (H t), in_or_app; auto. Qed.
Lemma exec_room c cap n tr x : exec cap n (plain tr) (rs_ring x) -> fits c cap tr -> room c x.
Proof. intros H [F1 F2]. destruct (exec_bound _ _ _ _ H) as [B1 B2]. split; lia. Qed.

Lemma rs_next_ok c cap n tr x l x' ev : exec cap n (plain tr) (rs_ring x) -> sub_ok c x -> fits c cap tr -> rs_next c x l = Some (x', ev) -> no_throw ev ->
  exec cap n (plain (tr ++ ev)) (rs_ring x') /\ sub_ok c x'.
Proof.
  intros HE HS HF H HN. rewrite plain_app. destruct l as [t o|t e]; cbn [rs_next] in H.
  - destruct (nth_error (threads (rs_ring x)) t) as [[]|] eqn:Ht; try discriminate. injection H as <- <-. cbn [rs_ring]. split.
    + eapply exec_next with (l := LCall t o); [exact HE|]. cbn [ring_next]. now rewrite Ht.
    + destruct HS as [S1 S2]. split; cbn [rs_ring rs_sub set_thread threads]; [now rewrite upd_length|]. intros i q Hi. destruct (S2 i q Hi) as (p & d & o' & X1 & X2 & X3).
      exists p, d, o'. rewrite upd_other; [auto|]. intros ->. assert (p = Idle) by congruence. subst. discriminate.
  - destruct (rs_step_ok c x t e x' ev HS (exec_room _ _ _ _ _ HE HF) H) as [HS' [[E ->]|[(sp & ev' & E & ->)| ->]]].
    + cbn [plain flat_map]. rewrite app_nil_r, E. auto.
    + rewrite plain_map. split; [|exact HS']. eapply exec_next with (l := LStep t sp); eauto.
    + exfalso. apply (HN t). now left.
Qed.
Lemma rs_run_ok c cap n l : forall x tr, rs_run c (rs_new cap n) l = Some (x, tr) -> no_throw tr -> fits c cap tr -> exec cap n (plain tr) (rs_ring x) /\ sub_ok c x.
Proof.
  induction l as [|a l IH] using rev_ind; intros x tr H HN HF.
  - cbn [rs_run] in H. injection H as <- <-. split; [constructor|]. split; [cbn; now rewrite !repeat_length|]. cbn [rs_new rs_sub]. intros t q Hq.
    apply nth_error_In in Hq. apply repeat_spec in Hq. discriminate.
  - rewrite rs_run_app in H. destruct (rs_run c (rs_new cap n) l) as [[x1 tr1]|] eqn:E; [|discriminate]. cbn [rs_run] in H.
    destruct (rs_next c x1 a) as [[x2 ev]|] eqn:E2; [|discriminate]. injection H as <- <-. rewrite app_nil_r in *.
    destruct (no_throw_app _ _ HN) as [N1 N2]. destruct (IH x1 tr1 eq_refl N1 (fits_app _ _ _ _ HF)) as [HE HS].
    eapply rs_next_ok; eauto. now apply fits_app in HF.
Qed.

(** ** The ring on real semaphores is the ring on counters *)
(** Whatever classes the two semaphores have: as long as none of them throws, and
    each can hold the capacity and one token for each stop, everything that is
    called, returned, pushed, popped and stopped, in order, is an execution of
    the ring of RingModel, in the same state. *)
Theorem C67_ring : forall c cap n l x tr, rs_run c (rs_new cap n) l = Some (x, tr) -> no_throw tr ->
  cap + stops (plain tr) <= ld c -> cap + stops (plain tr) <= ls c -> exec cap n (plain tr) (rs_ring x).
Proof. intros c cap n l x tr H HN F1 F2. apply (rs_run_ok c cap n l x tr H HN). split; assumption. Qed.

(** So it is first in, first out, never loses a value and never touches a dead
    slot. *)
Theorem C67_ring_fifo : forall c cap n l x tr, rs_run c (rs_new cap n) l = Some (x, tr) -> no_throw tr ->
  cap + stops (plain tr) <= ld c -> cap + stops (plain tr) <= ls c ->
  fault (rs_ring x) = false /\
  exists queued, pushes (plain tr) = pops (plain tr) ++ queued /\ length queued <= cap /\ stored (rs_ring x) = map Some queued.
Proof.
  intros c cap n l x tr H HN F1 F2. pose proof (C67_ring c cap n l x tr H HN F1 F2) as HE. split; [apply (C23_linearizable eqV _ _ _ _ HE)|apply (C23_fifo eqV _ _ _ _ HE)].
Qed.

(** A semaphore throws only if a system call on its descriptor is interrupted
    (semaphore_pipe and semaphore_eventfd). *)
Lemma rs_step_throw c x t e x' ev t' : sub_ok c x -> room c x -> rs_step c x t e = Some (x', ev) -> In (EThrow t') ev ->
  e = Interrupted /\ exists data, sem_k c data = Pipe \/ sem_k c data = Eventfd.
Proof.
  intros HS HR H HI. unfold rs_step in H. destruct (nth_error (threads (rs_ring x)) t) as [p|] eqn:Ht; [|unfold step in H; rewrite Ht in H; destruct e; discriminate].
  assert (NE : forall l : list (event V), ~ In (EThrow t') (map Ev l)) by (intros l X; apply in_map_iff in X; destruct X as (y & Y & _); discriminate).
  assert (VIA : forall data o dn ag, sem_at p = Some (data, o) -> via c x t e data o dn ag = Some (x', ev) -> e = Interrupted /\ exists data, sem_k c data = Pipe \/ sem_k c data = Eventfd).
  { clear H. intros data o dn ag HA HV. unfold via in HV.
    set (q := match nth_error (rs_sub x) t with Some (Some p0) => p0 | _ => sem_start (sem_k c data) o end) in HV.
    assert (HQ : pcok (sem_k c data) o q).
    { unfold q. destruct (nth_error (rs_sub x) t) as [[q0|]|] eqn:Eq; [|apply pcok_start..]. destruct HS as [_ HS]. destruct (HS _ _ Eq) as (p' & d' & o' & X1 & X2 & X3).
      assert (p' = p) by congruence. subst p'. rewrite X2 in HA. injection HA as -> ->. exact X3. }
    destruct (sem_step (sem_k c data) (sem_l c data) e (sem_v (rs_ring x) data) q) as [|q'|v' r] eqn:Es; [discriminate| |].
    { injection HV as <- <-. contradiction. }
    destruct r; [destruct (dn _); injection HV as <- <-; apply NE in HI; contradiction| |].
    { destruct ag as [f|]; [destruct (f _); injection HV as <- <-; apply NE in HI; contradiction|]. injection HV as <- <-. contradiction. }
    assert (RP : o = Put -> sem_v (rs_ring x) data < sem_l c data) by (intros ->; eapply room_put; eauto).
    clear HV HI. destruct q, e; cbn [sem_step pcok] in *; try discriminate.
    - specialize (RP HQ). apply Nat.ltb_lt in RP. rewrite RP in Es. destruct (sem_k c data); discriminate.
    - split; [reflexivity|]. exists data. destruct (sem_k c data); try discriminate. auto.
    - destruct (sem_v (rs_ring x) data =? 0); discriminate.
    - destruct (_ && _); discriminate.
    - destruct (_ && _); discriminate.
    - destruct (sem_v (rs_ring x) data =? 0); discriminate.
    - destruct (sem_v (rs_ring x) data =? 0); discriminate.
    - destruct (sem_v (rs_ring x) data =? 0); discriminate.
    - split; [reflexivity|]. exists data. tauto.
    - destruct (sem_v (rs_ring x) data =? 0); discriminate.
    - destruct (sem_v (rs_ring x) data =? cur); discriminate.
    - destruct (sem_v (rs_ring x) data =? 0); discriminate.
    - destruct (sem_v (rs_ring x) data =? 0); discriminate.
    - split; [reflexivity|]. exists data. tauto. }
  destruct p; try (eapply VIA; [reflexivity|exact H]); exfalso; destruct e; try discriminate; (destruct (step (rs_ring x) t false) as [[r' ev']|]; [|discriminate]); injection H as <- <-; now apply NE in HI.
Qed.
Theorem C67_ring_no_throw : forall c cap n l x tr, rs_run c (rs_new cap n) l = Some (x, tr) ->
  cap + stops (plain tr) <= ld c -> cap + stops (plain tr) <= ls c ->
  (forall t, ~ In (RSStep t Interrupted) l) \/ ((kd c = Spin \/ kd c = Posix) /\ (ks c = Spin \/ ks c = Posix)) -> no_throw tr.
Proof.
  intros c cap n l x tr H F1 F2 HC. assert (HF : fits c cap tr) by (split; assumption). clear F1 F2. revert x tr H HF HC. induction l as [|a l IH] using rev_ind; intros x tr H HF HC.
  - cbn [rs_run] in H. injection H as <- <-. intros t [].
  - rewrite rs_run_app in H. destruct (rs_run c (rs_new cap n) l) as [[x1 tr1]|] eqn:E; [|discriminate]. cbn [rs_run] in H.
    destruct (rs_next c x1 a) as [[x2 ev]|] eqn:E2; [|discriminate]. injection H as <- <-. rewrite app_nil_r in *.
    assert (N1 : no_throw tr1). { apply (IH x1 tr1 eq_refl (fits_app _ _ _ _ HF)). destruct HC as [HC|HC]; [left; intros t X; apply (HC t), in_or_app; auto|auto]. }
    destruct (rs_run_ok c cap n l x1 tr1 E N1 (fits_app _ _ _ _ HF)) as [HE HS].
    intros t X. apply in_app_or in X. destruct X as [X|X]; [now apply (N1 t)|]. destruct a as [t0 o|t0 e]; cbn [rs_next] in E2.
    + destruct (nth_error (threads (rs_ring x1)) t0) as [[]|]; try discriminate. injection E2 as <- <-. destruct X as [X|[]]. discriminate.
    + destruct (rs_step_throw c x1 t0 e x2 ev t HS (exec_room _ _ _ _ _ HE (fits_app _ _ _ _ HF)) E2 X) as [-> [data K]].
      destruct HC as [HC|[K1 K2]]; [apply (HC t0), in_or_app; right; now left|]. destruct data; cbn [sem_k] in K; destruct K, K1, K2; congruence.
Qed.

(** ** Progress *)
Definition rs_solo (c : sems) (x : rsem V) (t m : nat) : option (rsem V * list (revent V)) := rs_run c x (repeat (RSStep t Normal) m).

Fixpoint finish (k : kind) (lim v : nat) (q : spc) (fuel : nat) : option (nat * sret) :=
  match fuel with
  | O => None
  | S f => match sem_step k lim Normal v q with SBlock => None | SMove q' => finish k lim v q' f | SRet v' r => Some (v', r) end
  end.
Lemma finish_ok k lim o v q : pcok k o q -> v <= lim ->
  match o with
  | Get => 0 < v -> finish k lim v q 3 = Some (v - 1, Zero)
  | Put => v < lim -> finish k lim v q 3 = Some (S v, Zero)
  | TryGet => exists v' r, finish k lim v q 3 = Some (v', r) /\ ((r = Zero /\ v = S v') \/ (r = Minus /\ v' = v))
  end.
Proof.
  intros H L. destruct q; cbn [pcok] in H.
  - subst o. intro HV. apply Nat.ltb_lt in HV. cbn [finish sem_step]. rewrite HV. destruct k; reflexivity.
  - destruct H as [-> _]. intro HV. assert (NZ : (v =? 0) = false) by (apply Nat.eqb_neq; lia). cbn [finish sem_step]. rewrite NZ. cbn [sem_step]. rewrite Nat.eqb_refl. reflexivity.
  - destruct H as (-> & _ & _). intro HV. assert (NZ : (v =? 0) = false) by (apply Nat.eqb_neq; lia). cbn [finish sem_step]. destruct (Nat.eqb_spec v cur) as [->|E]; cbn [andb]; [reflexivity|].
    rewrite NZ. cbn [sem_step]. rewrite Nat.eqb_refl. reflexivity.
  - destruct H as [-> _]. intro HV. assert (NZ : (v =? 0) = false) by (apply Nat.eqb_neq; lia). cbn [finish sem_step]. now rewrite NZ.
  - destruct H as [-> _]. intro HV. assert (NZ : (v =? 0) = false) by (apply Nat.eqb_neq; lia). cbn [finish sem_step]. rewrite NZ. cbn [sem_step]. now rewrite NZ.
  - destruct H as [-> _]. intro HV. assert (NZ : (v =? 0) = false) by (apply Nat.eqb_neq; lia). cbn [finish sem_step]. now rewrite NZ.
  - destruct H as [-> _]. cbn [finish sem_step]. destruct (Nat.eqb_spec v 0) as [->|NZ]; [exists 0, Minus; auto|]. cbn [sem_step]. rewrite Nat.eqb_refl.
    exists (v - 1), Zero. split; [reflexivity|]. left. split; [reflexivity|lia].
  - destruct H as (-> & _ & C). cbn [finish sem_step]. destruct (Nat.eqb_spec v cur) as [->|NZ]; [|exists v, Minus; auto].
    exists (cur - 1), Zero. split; [reflexivity|]. left. split; [reflexivity|lia].
  - destruct H as [-> _]. cbn [finish sem_step]. destruct (Nat.eqb_spec v 0) as [->|NZ]; [exists 0, Minus; auto|].
    exists (v - 1), Zero. split; [reflexivity|]. left. split; [reflexivity|lia].
  - destruct H as [-> _]. cbn [finish sem_step]. destruct (Nat.eqb_spec v 0) as [->|NZ]; [exists 0, Minus; auto|].
    exists (v - 1), Zero. split; [reflexivity|]. left. split; [reflexivity|lia].
Qed.

(** Running one thread through a semaphore function. *)
Lemma solo_via c t data o p1 ev1 ag (r : ring) : t < length (threads r) ->
  (forall x, rs_ring x = r -> rs_step c x t Normal = via c x t Normal data o (fun r => (set_thread r t p1, ev1)) ag) ->
  forall fuel x q, rs_ring x = r -> length (rs_sub x) = length (threads r) ->
  q = match nth_error (rs_sub x) t with Some (Some p0) => p0 | _ => sem_start (sem_k c data) o end ->
  forall v' s, finish (sem_k c data) (sem_l c data) (sem_v r data) q fuel = Some (v', s) ->
  exists m x', m <= fuel /\
    match s with
    | Zero => rs_solo c x t m = Some (x', map Ev ev1) /\ rs_ring x' = set_thread (sem_set r data v') t p1
    | Minus => match ag with
               | Some f => rs_solo c x t m = Some (x', map Ev (snd (f r))) /\ rs_ring x' = fst (f r)
               | None => True
               end
    | Throw => True
    end.
Proof.
  intros Ht HD. induction fuel as [|f IH]; intros x q Hx HL HQ v' s HF; [discriminate|]. cbn [finish] in HF.
  pose proof (HD x Hx) as HS. unfold via in HS. rewrite <- HQ, Hx in HS.
  destruct (sem_step (sem_k c data) (sem_l c data) Normal (sem_v r data) q) as [|q'|v1 r1] eqn:Es; [discriminate| |].
  - destruct (IH {| rs_ring := r; rs_sub := upd (rs_sub x) t (Some q') |} q' eq_refl) with (v' := v') (s := s) as (m & x' & Hm & HR).
    + cbn [rs_sub]. now rewrite upd_length.
    + cbn [rs_sub]. rewrite upd_same; [reflexivity|congruence].
    + exact HF.
    + exists (S m), x'. split; [lia|].
      assert (G : forall y evs, rs_solo c {| rs_ring := r; rs_sub := upd (rs_sub x) t (Some q') |} t m = Some (y, evs) -> rs_solo c x t (S m) = Some (y, evs)).
      { intros y evs E. unfold rs_solo in *. cbn [repeat rs_run rs_next]. rewrite HS, E. reflexivity. }
      destruct s; [destruct HR; split; [apply G|]; assumption| |exact I]. destruct ag; [destruct HR; split; [apply G|]; assumption|exact I].
  - injection HF as <- <-. destruct r1; [|destruct ag as [f0|]; [|exists 0, x; auto with arith]|exists 0, x; auto with arith].
    + eexists 1, _. split; [lia|]. unfold rs_solo. cbn [repeat rs_run rs_next]. rewrite HS. rewrite app_nil_r. split; reflexivity.
    + destruct (f0 r) as [r2 ev2] eqn:E2. eexists 1, _. split; [lia|]. unfold rs_solo. cbn [repeat rs_run rs_next]. rewrite HS. rewrite app_nil_r. split; reflexivity.
Qed.

(** Whenever the ring on counters lets a thread move, that thread, left to run
    alone for at most three steps, makes that move (a non-blocking call may fail
    instead, as its step with the [spurious] flag). *)
Theorem C67_ring_progress : forall c cap n l x tr t r' ev, rs_run c (rs_new cap n) l = Some (x, tr) -> no_throw tr ->
  cap + stops (plain tr) <= ld c -> cap + stops (plain tr) <= ls c ->
  step (rs_ring x) t false = Some (r', ev) ->
  exists m x' sp ev', m <= 3 /\ step (rs_ring x) t sp = Some (rs_ring x', ev') /\ rs_solo c x t m = Some (x', map Ev ev').
Proof.
  intros c cap n l x tr t r' ev H HN F1 F2 HS. assert (HF : fits c cap tr) by (split; assumption).
  destruct (rs_run_ok c cap n l x tr H HN HF) as [HE SO]. pose proof (exec_room _ _ _ _ _ HE HF) as HR.
  destruct (nth_error (threads (rs_ring x)) t) as [p|] eqn:Ht; [|unfold step in HS; rewrite Ht in HS; discriminate].
  assert (Htl : t < length (threads (rs_ring x))) by (apply nth_error_Some; congruence).
  assert (OUT : sem_at p = None -> exists m x' sp ev', m <= 3 /\ step (rs_ring x) t sp = Some (rs_ring x', ev') /\ rs_solo c x t m = Some (x', map Ev ev')).
  { intro HA. exists 1, {| rs_ring := r'; rs_sub := rs_sub x |}, false, ev. split; [lia|]. split; [exact HS|]. unfold rs_solo. cbn [repeat rs_run rs_next].
    unfold rs_step. rewrite Ht, HS. destruct p; try discriminate; rewrite app_nil_r; reflexivity. }
  assert (VIA : forall data o p1 ev1 ag, sem_at p = Some (data, o) ->
     (forall y, rs_ring y = rs_ring x -> rs_step c y t Normal = via c y t Normal data o (fun r => (set_thread r t p1, ev1)) ag) ->
     (match o with
      | Put => step (rs_ring x) t false = Some (set_thread (sem_set (rs_ring x) data (S (sem_v (rs_ring x) data))) t p1, ev1)
      | Get => exists n, sem_v (rs_ring x) data = S n /\ step (rs_ring x) t false = Some (set_thread (sem_set (rs_ring x) data n) t p1, ev1)
      | TryGet => (forall n, sem_v (rs_ring x) data = S n -> step (rs_ring x) t false = Some (set_thread (sem_set (rs_ring x) data n) t p1, ev1)) /\
                  exists p2 ev2, ag = Some (fun r => (set_thread r t p2, ev2)) /\ step (rs_ring x) t true = Some (set_thread (rs_ring x) t p2, ev2)
      end) -> exists m x' sp ev', m <= 3 /\ step (rs_ring x) t sp = Some (rs_ring x', ev') /\ rs_solo c x t m = Some (x', map Ev ev')).
  { intros data o p1 ev1 ag HA HD HZ.
    set (q := match nth_error (rs_sub x) t with Some (Some p0) => p0 | _ => sem_start (sem_k c data) o end).
    assert (HQ : pcok (sem_k c data) o q).
    { unfold q. destruct (nth_error (rs_sub x) t) as [[q0|]|] eqn:Eq; [|apply pcok_start..]. destruct SO as [_ SO]. destruct (SO _ _ Eq) as (p' & d' & o' & X1 & X2 & X3).
      assert (p' = p) by congruence. subst p'. rewrite X2 in HA. injection HA as -> ->. exact X3. }
    pose proof (finish_ok (sem_k c data) (sem_l c data) o _ q HQ (room_le c x data HR)) as FN.
    pose proof (solo_via c t data o p1 ev1 ag (rs_ring x) Htl HD 3 x q eq_refl (proj1 SO) eq_refl) as SV.
    destruct o.
    - specialize (FN (room_put c x t p data HR Ht HA)). destruct (SV _ _ FN) as (m & x' & Hm & E1 & E2). exists m, x', false, ev1. rewrite E2. auto.
    - destruct HZ as (n0 & Ev0 & HZ). rewrite Ev0 in FN at 1. specialize (FN (Nat.lt_0_succ _)). destruct (SV _ _ FN) as (m & x' & Hm & E1 & E2).
      exists m, x', false, ev1. rewrite E2, Ev0. cbn [Nat.sub]. rewrite Nat.sub_0_r. auto.
    - destruct FN as (v' & s & FN & [[-> Ev0]|[-> ->]]); destruct (SV _ _ FN) as (m & x' & Hm & E).
      + destruct E as [E1 E2]. exists m, x', false, ev1. rewrite E2. split; [exact Hm|]. split; [now apply (proj1 HZ)|exact E1].
      + destruct HZ as (_ & p2 & ev2 & -> & HZ). cbn [fst snd] in E. destruct E as [E1 E2]. exists m, x', true, ev2. rewrite E2. auto. }
  assert (DI : forall y, rs_ring y = rs_ring x -> nth_error (threads (rs_ring y)) t = Some p) by (intros y E; now rewrite E).
  destruct p; try (apply OUT; reflexivity);
    (eapply VIA; [reflexivity|intros y Ey; unfold rs_step; rewrite (DI y Ey); reflexivity|]); unfold step in HS |- *; rewrite Ht in HS |- *; cbn [sem_set sem_v]; try reflexivity.
  - destruct (space_sem (rs_ring x)) as [|n0]; [discriminate|]. exists n0. auto.
  - split; [intros n0 E0; rewrite E0; reflexivity|]. eexists _, _. split; [reflexivity|]. destruct (space_sem (rs_ring x)); reflexivity.
  - destruct (data_sem (rs_ring x)) as [|n0]; [discriminate|]. exists n0. auto.
  - split; [intros n0 E0; rewrite E0; reflexivity|]. eexists _, _. split; [reflexivity|]. destruct (data_sem (rs_ring x)); reflexivity.
Qed.

(** No wakeup is lost: if no thread, left to run alone, would get anywhere, then
    the calls in progress are pushes into a full ring and pops from an empty one,
    and the ring is not stopped. *)
Theorem C67_ring_no_lost_wakeup : forall c cap n l x tr m, rs_run c (rs_new cap n) l = Some (x, tr) -> no_throw tr ->
  cap + stops (plain tr) <= ld c -> cap + stops (plain tr) <= ls c -> mon_run eqV cap (mon_new n) (plain tr) = Some m ->
  (forall t k x' tr', k <= 3 -> rs_solo c x t k = Some (x', tr') -> rs_ring x' = rs_ring x) ->
  forall t, in_call (rs_ring x) t -> m_stopped m = false /\
    ((exists v, nth_error (m_th m) t = Some (TCalled (OpPush v)) /\ length (m_q m) = cap) \/
     (nth_error (m_th m) t = Some (TCalled OpPop) /\ m_q m = [])).
Proof.
  intros c cap n l x tr m H HN F1 F2 HM HK t Ht. pose proof (C67_ring c cap n l x tr H HN F1 F2) as HE.
  apply (C24_no_lost_wakeup eqV cap n (plain tr) (rs_ring x) m HE HM); [|exact Ht].
  intros t1 H1. split; [exact H1|].
  assert (NS : forall r' ev, step (rs_ring x) t1 false <> Some (r', ev)).
  { intros r' ev E. destruct (C67_ring_progress c cap n l x tr t1 r' ev H HN F1 F2 E) as (k & x' & sp & ev' & Hk & Es & Er).
    pose proof (HK t1 k x' _ Hk Er) as X. rewrite X in Es. apply step_left in Es. lia. }
  intros []; [|destruct (step (rs_ring x) t1 false) as [[r' ev]|]; [now destruct (NS r' ev)|reflexivity]].
  destruct (step (rs_ring x) t1 true) as [[r' ev]|] eqn:E; [|reflexivity]. exfalso. unfold step in E.
  destruct (nth_error (threads (rs_ring x)) t1) as [p|] eqn:Hp; [|discriminate]. unfold step in NS. rewrite Hp in NS.
  destruct p; try (eapply NS; exact E).
  - destruct (space_sem (rs_ring x)); eapply NS; reflexivity.
  - destruct (data_sem (rs_ring x)); eapply NS; reflexivity.
Qed.
End P.
Print Assumptions C67_ring.
Print Assumptions C67_ring_fifo.
Print Assumptions C67_ring_no_throw.
Print Assumptions C67_ring_progress.
Print Assumptions C67_ring_no_lost_wakeup.

(** The semaphores of the Python wrapper's rings: eventfd for data, POSIX for
    space (or spinning).  A pop waits, is interrupted, waits again; a push
    wakes it up; a second push waits for space; then everybody else stops and
    nobody is left who could move. *)
Definition ex_sems : sems := {| kd := Eventfd; ld := 100; ks := Posix; ls := 50 |}.
Definition run1 (t k : nat) : list (rslabel nat) := repeat (RSStep t Normal) k.
Definition ex_rs : list (rslabel nat) :=
  [RSCall 1 OpPop; RSStep 1 Interrupted; RSCall 0 (OpPush 7)] ++ run1 0 3 ++ run1 1 1 ++ [RSCall 2 OpTryPop] ++ run1 2 1 ++ run1 1 1 ++ run1 2 2 ++
  [RSCall 0 (OpPush 8)] ++ run1 0 3 ++ [RSCall 0 (OpPush 9)].
Example C67_ring_ex : exists x tr, rs_run ex_sems (rs_new 1 3) ex_rs = Some (x, tr) /\ no_throw tr /\ pushes (plain tr) = [7; 8] /\ pops (plain tr) = [7] /\
  1 + stops (plain tr) <= ld ex_sems /\ 1 + stops (plain tr) <= ls ex_sems /\ in_call (rs_ring x) 0 /\ in_call (rs_ring x) 1 /\
  exists r' ev, step (rs_ring x) 1 false = Some (r', ev).
Proof.
  eexists _, _. split; [vm_compute; reflexivity|]. split; [intros t H; cbn in H; repeat (destruct H as [H|H]; [discriminate|]); exact H|].
  split; [reflexivity|]. split; [reflexivity|]. split; [repeat constructor|]. split; [repeat constructor|].
  split; [eexists; split; [reflexivity|discriminate]|]. split; [eexists; split; [reflexivity|discriminate]|]. eexists _, _. reflexivity.
Qed.

(** If the eventfd_write inside a push is interrupted, the value is in the ring
    but its token is lost: the push throws std::system_error, and a consumer
    waits for ever beside a value it could have. *)
Theorem C67_ring_lost_token_refuted : exists c l x tr t, rs_run (V := nat) c (rs_new 4 2) l = Some (x, tr) /\ 4 < ld c /\ 4 < ls c /\
  pushes (plain tr) = [7] /\ stored (rs_ring x) = [Some 7] /\ In (EThrow 0) tr /\
  (exists p, nth_error (threads (rs_ring x)) t = Some p /\ p = PopWait) /\ rs_step c x t Normal = None /\
  (forall t', t' <> t -> ~ in_call (rs_ring x) t').
Proof.
  exists ex_sems, ([RSCall 0 (OpPush 7)] ++ run1 0 2 ++ [RSStep 0 Interrupted; RSCall 1 OpPop]).
  eexists _, _, 1. split; [vm_compute; reflexivity|]. split; [cbn; repeat constructor|]. split; [cbn; repeat constructor|]. split; [reflexivity|]. split; [reflexivity|].
  split; [cbn; auto|]. split; [eexists; split; reflexivity|]. split; [reflexivity|].
  intros t' Ht (p & Hp & Hn). destruct t' as [|[|t']]; cbn in Hp; [congruence|congruence|destruct t'; discriminate].
Qed.
Print Assumptions C67_ring_lost_token_refuted.
