(** C26: the unbounded queue, for any number of threads and any schedule. *)
From Coq Require Import List Arith Bool Lia.
From Verif Require Import ConcBase QueueModel.
Import ListNotations.

Section P.
Context {V : Type} (eqV : forall a b : V, {a = b} + {a <> b}).

(** * Spec: an atomic FIFO queue with a stop flag; each call takes effect when it returns. *)
Record qmon := { qm_q : list V; qm_stopped : bool; qm_th : list (option (qop V)) }.
Definition qmon_new (n : nat) : qmon := {| qm_q := []; qm_stopped := false; qm_th := repeat None n |}.
(** The atomic operation: result and new contents. *)
Definition atomic (q : list V) (stopped : bool) (o : qop V) : qresult V * list V * bool :=
  match o with
  | QPush v => if stopped then (QRStopped, q, stopped) else (QRPushed, q ++ [v], stopped)
  | QPop | QTryPop => match q with
                      | v :: q' => (QRPopped v, q', stopped)
                      | [] => if stopped then (QRStopped, [], stopped) else (QREmpty, [], stopped)
                      end
  | QStop => (QRDone, q, true)
  end.
Definition qresult_eqb (a b : qresult V) : bool :=
  match a, b with
  | QRPushed, QRPushed | QRStopped, QRStopped | QREmpty, QREmpty | QRDone, QRDone => true
  | QRPopped v, QRPopped w => if eqV v w then true else false
  | _, _ => false
  end.
Definition qmon_step (m : qmon) (e : qevent V) : option qmon :=
  match e with
  | QCall t o =>
      match nth_error (qm_th m) t with
      | Some None => Some {| qm_q := qm_q m; qm_stopped := qm_stopped m; qm_th := upd (qm_th m) t (Some o) |}
      | _ => None
      end
  | QRet t r =>
      match nth_error (qm_th m) t with
      | Some (Some o) =>
          let '(r', q, st) := atomic (qm_q m) (qm_stopped m) o in
          (* a blocking pop never reports 'empty' *)
          if qresult_eqb r r' && negb (match o, r with QPop, QREmpty => true | _, _ => false end)
          then Some {| qm_q := q; qm_stopped := st; qm_th := upd (qm_th m) t None |} else None
      | _ => None
      end
  end.
Fixpoint qmon_run (m : qmon) (tr : list (qevent V)) : option qmon :=
  match tr with [] => Some m | e :: tr' => match qmon_step m e with Some m' => qmon_run m' tr' | None => None end end.

(** * Invariant *)
Definition qrel (p : qpc V) (x : option (qop V)) : Prop :=
  match p, x with
  | QIdle, None => True
  | QAtPush v, Some (QPush w) => v = w
  | (QPopWait | QPopHave), Some QPop => True
  | (QAtTryPop | QTryLock _), Some QTryPop => True
  | QAtStop, Some QStop => True
  | _, _ => False
  end.
Definition wT (p : qpc V) : nat := match p with QPopHave | QTryLock true => 1 | _ => 0 end.
Record qinv (s : queue V) (m : qmon) : Prop := {
  qi_q : q_data s = qm_q m;
  qi_st : q_stopped s = qm_stopped m;
  qi_th : Forall2 qrel (q_threads s) (qm_th m);
  qi_sem : q_sem s + sumw wT (q_threads s) = length (q_data s) + (if q_stopped s then 1 else 0);
  qi_assert : q_assert s = false
}.
Lemma Forall2_nth {A B} (R : A -> B -> Prop) l l' n x : Forall2 R l l' -> nth_error l n = Some x -> exists y, nth_error l' n = Some y /\ R x y.
Proof.
  intro H. revert n. induction H as [|a b l l' Hab H IH]; intros [|n] Hx; cbn [nth_error] in *; try discriminate.
  - injection Hx as <-. eauto.
  - eauto.
Qed.
Lemma Forall2_upd {A B} (R : A -> B -> Prop) l l' n x y : Forall2 R l l' -> R x y -> Forall2 R (upd l n x) (upd l' n y).
Proof. intros H Hxy. revert n. induction H; intros [|n]; cbn [upd]; constructor; auto. Qed.

Lemma qmk s m d (st : bool) n a t p y : qinv s m -> Forall2 qrel (upd (q_threads s) t p) (upd (qm_th m) t y) ->
  n + sumw wT (upd (q_threads s) t p) = length d + (if st then 1 else 0) -> a = false ->
  qinv (q_set s d st n a t p) {| qm_q := d; qm_stopped := st; qm_th := upd (qm_th m) t y |}.
Proof. intros [] HF HS ->. constructor; cbn [q_set q_data q_stopped q_sem q_assert q_threads qm_q qm_stopped qm_th]; auto. now rewrite qi_assert0. Qed.

Lemma qinv_next s m l s' ev : qinv s m -> q_next s l = Some (s', ev) -> exists m', qmon_run m ev = Some m' /\ qinv s' m'.
Proof.
  intros I HN. pose proof I as [Eq Est Hth Hsem Has]. destruct m as [mq mst mth]. cbn [qm_q qm_stopped qm_th] in *. subst mq mst.
  destruct l as [t o|t sp]; cbn [q_next] in HN.
  { destruct (nth_error (q_threads s) t) as [[]|] eqn:Ht; try discriminate. injection HN as <- <-. destruct (Forall2_nth _ _ _ _ _ Hth Ht) as (y & Hy & Hr). destruct y; try contradiction.
    eexists. split; [cbn [qmon_run qmon_step qm_th qm_q qm_stopped]; rewrite Hy; reflexivity|].
    apply (qmk s _ _ _ _ _ _ _ _ I); auto; [apply Forall2_upd; [assumption|destruct o; exact (Logic.I) || reflexivity]|].
    pose proof (sumw_upd wT _ _ _ (q_start o) Ht) as W. destruct o; cbn [q_start wT] in *; lia. }
  unfold q_step in HN. destruct (nth_error (q_threads s) t) as [p|] eqn:Ht; [|discriminate].
  destruct (Forall2_nth _ _ _ _ _ Hth Ht) as (y & Hy & Hr). pose proof (fun p' => sumw_upd wT _ _ _ p' Ht) as W. pose proof (sumw_ge wT _ _ _ Ht) as G.
  assert (U : forall x, nth_error mth t = Some x -> upd mth t x = mth) by (intros x Hx; now apply upd_id).
  destruct p as [|v| | | |status|]; try discriminate; cbn [wT] in W, G.
  - destruct y as [[w| | |]|]; try contradiction. cbn [qrel] in Hr. subst w. destruct (q_stopped s) eqn:Es; injection HN as <- <-; eexists;
      (split; [cbn [qmon_run qmon_step qm_th qm_q qm_stopped]; rewrite Hy; cbn [atomic qresult_eqb andb negb]; reflexivity|]);
      apply (qmk s _ _ _ _ _ _ _ _ I); auto; try (apply Forall2_upd; [assumption|exact Logic.I]); specialize (W QIdle); cbn [wT] in W; rewrite ?app_length; cbn [length]; lia.
  - destruct (q_sem s) as [|n] eqn:En; [discriminate|]. injection HN as <- <-. eexists. split; [reflexivity|].
    rewrite <- (U y Hy) at 1. apply (qmk s _ _ _ _ _ _ _ _ I); auto; [apply Forall2_upd; [assumption|destruct y as [[]|]; try contradiction; exact Logic.I]|].
    specialize (W QPopHave). cbn [wT] in W. lia.
  - destruct y as [[w| | |]|]; try contradiction. specialize (W QIdle). cbn [wT] in W.
    destruct (q_data s) as [|v d] eqn:Ed; injection HN as <- <-; cbn [length] in Hsem.
    + assert (Es : q_stopped s = true) by (destruct (q_stopped s); [reflexivity|lia]). rewrite Es in *. eexists.
      split; [cbn [qmon_run qmon_step qm_th qm_q qm_stopped]; rewrite Hy; cbn [atomic qresult_eqb andb negb]; reflexivity|].
      apply (qmk s _ _ _ _ _ _ _ _ I); auto; [apply Forall2_upd; [assumption|exact Logic.I]|cbn [length]; lia].
    + eexists. split; [cbn [qmon_run qmon_step qm_th qm_q qm_stopped]; rewrite Hy; cbn [atomic qresult_eqb andb negb]; destruct (eqV v v); [reflexivity|congruence]|].
      apply (qmk s _ _ _ _ _ _ _ _ I); auto; [apply Forall2_upd; [assumption|exact Logic.I]|lia].
  - destruct y as [[w| | |]|]; try contradiction.
    destruct (q_sem s) as [|n] eqn:En; [|destruct sp]; injection HN as <- <-; (eexists; split; [reflexivity|]);
      rewrite <- (U _ Hy) at 1; apply (qmk s _ _ _ _ _ _ _ _ I); auto; try (apply Forall2_upd; [assumption|exact Logic.I]).
    + specialize (W (QTryLock false)). cbn [wT] in W. lia.
    + specialize (W (QTryLock false)). cbn [wT] in W. lia.
    + specialize (W (QTryLock true)). cbn [wT] in W. lia.
  - destruct y as [[w| | |]|]; try contradiction. destruct status.
    + specialize (W QIdle). cbn [wT] in W, G. destruct (q_data s) as [|v d] eqn:Ed; injection HN as <- <-; cbn [length] in Hsem.
      * assert (Es : q_stopped s = true) by (destruct (q_stopped s); [reflexivity|lia]). rewrite Es in *. eexists.
        split; [cbn [qmon_run qmon_step qm_th qm_q qm_stopped]; rewrite Hy; cbn [atomic qresult_eqb andb negb]; reflexivity|].
        apply (qmk s _ _ _ _ _ _ _ _ I); auto; [apply Forall2_upd; [assumption|exact Logic.I]|cbn [length]; lia].
      * eexists. split; [cbn [qmon_run qmon_step qm_th qm_q qm_stopped]; rewrite Hy; cbn [atomic qresult_eqb andb negb]; destruct (eqV v v); [reflexivity|congruence]|].
        apply (qmk s _ _ _ _ _ _ _ _ I); auto; [apply Forall2_upd; [assumption|exact Logic.I]|lia].
    + destruct (q_data s) as [|v d] eqn:Ed; injection HN as <- <-.
      * specialize (W QIdle). cbn [wT] in W. exists {| qm_q := []; qm_stopped := q_stopped s; qm_th := upd mth t None |}.
        split; [cbn [qmon_run qmon_step qm_th qm_q qm_stopped]; rewrite Hy; cbn [atomic]; destruct (q_stopped s); cbn [qresult_eqb andb negb]; reflexivity|].
        apply (qmk s _ _ _ _ _ _ _ _ I); auto; [apply Forall2_upd; [assumption|exact Logic.I]|lia].
      * specialize (W QAtTryPop). cbn [wT] in W. eexists. split; [reflexivity|]. rewrite <- (U _ Hy) at 1.
        apply (qmk s _ _ _ _ _ _ _ _ I); auto; [apply Forall2_upd; [assumption|exact Logic.I]|lia].
  - destruct y as [[w| | |]|]; try contradiction. specialize (W QIdle). cbn [wT] in W. destruct (q_stopped s) eqn:Es; injection HN as <- <-; eexists;
      (split; [cbn [qmon_run qmon_step qm_th qm_q qm_stopped]; rewrite Hy; cbn [atomic qresult_eqb andb negb]; reflexivity|]);
      apply (qmk s _ _ _ _ _ _ _ _ I); auto; try (apply Forall2_upd; [assumption|exact Logic.I]); lia.
Qed.

Lemma qmon_run_app m tr tr' : qmon_run m (tr ++ tr') = match qmon_run m tr with Some m' => qmon_run m' tr' | None => None end.
Proof. revert m. induction tr as [|e tr IH]; intro m; cbn [app qmon_run]; [reflexivity|]. destruct (qmon_step m e); [apply IH|reflexivity]. Qed.
Lemma q_exec_inv n tr s : q_exec n tr s -> exists m, qmon_run (qmon_new n) tr = Some m /\ qinv s m.
Proof.
  induction 1 as [|tr s l s' ev H (m & HM & HI) HN].
  - exists (qmon_new n). split; [reflexivity|]. constructor; cbn; rewrite ?sumw_repeat; cbn; try lia; auto.
    induction n; cbn [repeat]; constructor; [exact I|assumption].
  - destruct (qinv_next _ _ _ _ _ HI HN) as (m' & HM' & HI'). exists m'. split; [|exact HI']. now rewrite qmon_run_app, HM.
Qed.

(** * C26 *)
(** Linearizable: each call returns exactly what the atomic queue returns at the
    moment of the return; the asserts hold; the contents are those of the atomic
    queue. *)
Theorem C26_linearizable : forall n tr (s : queue V), q_exec n tr s ->
  q_assert s = false /\ exists m, qmon_run (qmon_new n) tr = Some m /\ q_data s = qm_q m /\ q_stopped s = qm_stopped m.
Proof. intros n tr s H. destruct (q_exec_inv _ _ _ H) as (m & HM & []). eauto 6. Qed.

(** No lost wakeups: whatever the others are doing, a consumer waiting in pop is
    blocked only if every value (and the stop signal) has been claimed by a call
    that can return at once; in particular if nobody else can move, the queue is
    empty and not stopped. *)
Definition q_waiting (s : queue V) (t : nat) : Prop := nth_error (q_threads s) t = Some QPopWait /\ q_step s t false = None.
Theorem C26_no_lost_wakeup : forall n tr (s : queue V) t, q_exec n tr s -> q_waiting s t ->
  (q_data s <> [] \/ q_stopped s = true) ->
  exists t' s' r, t' <> t /\ q_step s t' false = Some (s', [QRet t' r]) /\ (r = QRStopped \/ exists v, r = QRPopped v).
Proof.
  intros n tr s t H [Ht Hb] Hd. destruct (q_exec_inv _ _ _ H) as (m & _ & []). unfold q_step in Hb. rewrite Ht in Hb.
  destruct (q_sem s) eqn:Es; [|discriminate].
  assert (Hp : 0 < sumw wT (q_threads s)).
  { destruct Hd as [Hd|Hd]; [destruct (q_data s); [congruence|cbn [length] in *; lia]|rewrite Hd in *; lia]. }
  destruct (sumw_pos _ _ Hp) as (t' & p & Ht' & Hw). exists t'.
  assert (t' <> t) by (intros ->; rewrite Ht in Ht'; injection Ht' as <-; cbn in Hw; lia).
  unfold q_step. rewrite Ht'. destruct p as [| | | | |[]|]; cbn [wT] in Hw; try lia; destruct (q_data s) as [|v d]; do 2 eexists; (split; [assumption|]); (split; [reflexivity|]); eauto.
Qed.

(** A non-blocking pop goes round its loop only while a value is being handed to
    another call (or after a spurious semaphore failure). *)
Theorem C26_try_pop_retry : forall n tr (s : queue V) t s' ev, q_exec n tr s -> nth_error (q_threads s) t = Some (QTryLock false) -> q_step s t false = Some (s', ev) ->
  nth_error (q_threads s') t = Some QAtTryPop ->
  0 < q_sem s' \/ exists t' s'' r, t' <> t /\ q_step s' t' false = Some (s'', [QRet t' r]) /\ (r = QRStopped \/ exists v, r = QRPopped v).
Proof.
  intros n tr s t s' ev H Ht HS Ht'. pose proof (q_exec_next n tr s (QLStep t false) s' ev H HS) as H'. destruct (q_exec_inv _ _ _ H') as (m & _ & []).
  assert (Hd : q_data s' <> []).
  { unfold q_step in HS. rewrite Ht in HS. destruct (q_data s) as [|v d]; injection HS as <- <-; [|discriminate].
    cbn [q_set q_threads] in Ht'. rewrite upd_same in Ht' by (apply nth_error_Some; congruence). discriminate. }
  destruct (q_sem s') eqn:Es; [right|left; lia].
  assert (Hp : 0 < sumw wT (q_threads s')) by (destruct (q_data s'); [congruence|cbn [length] in *; lia]).
  destruct (sumw_pos _ _ Hp) as (t' & p & Hp' & Hw). exists t'.
  assert (t' <> t) by (intros ->; rewrite Ht' in Hp'; injection Hp' as <-; cbn in Hw; lia).
  unfold q_step. rewrite Hp'. destruct p as [| | | | |[]|]; cbn [wT] in Hw; try lia; destruct (q_data s') as [|v d]; do 2 eexists; (split; [assumption|]); (split; [reflexivity|]); eauto.
Qed.
End P.
Print Assumptions C26_linearizable.
Print Assumptions C26_no_lost_wakeup.
Print Assumptions C26_try_pop_retry.

(** Non-vacuity: push, two consumers racing, one of them claims the value, the
    other one (non-blocking) goes round its loop; a stop; both report it. *)
Fixpoint q_run_labels {V} (s : queue V) (ls : list (qlabel V)) : option (queue V * list (qevent V)) :=
  match ls with
  | [] => Some (s, [])
  | l :: ls' => match q_next s l with
                | Some (s', ev) => option_map (fun r => (fst r, ev ++ snd r)) (q_run_labels s' ls')
                | None => None
                end
  end.
Lemma q_run_labels_exec {V} n (ls : list (qlabel V)) : forall tr s s' ev, q_exec n tr s -> q_run_labels s ls = Some (s', ev) -> q_exec n (tr ++ ev) s'.
Proof.
  induction ls as [|l ls IH]; intros tr s s' ev H HR; cbn [q_run_labels] in HR.
  - injection HR as <- <-. now rewrite app_nil_r.
  - destruct (q_next s l) as [[s1 ev1]|] eqn:E; [|discriminate]. destruct (q_run_labels s1 ls) as [[s2 ev2]|] eqn:E2; [|discriminate]. injection HR as <- <-.
    cbn [fst snd]. rewrite app_assoc. eapply IH; [|exact E2]. eapply q_exec_next; [exact H|exact E].
Qed.
Definition ex_q : list (qlabel nat) :=
  [QLCall 0 (QPush 5); QLStep 0 false; QLCall 1 QPop; QLStep 1 false; QLCall 2 QTryPop; QLStep 2 false; QLStep 2 false; QLStep 2 false].
Example C26_ex : exists tr (s : queue nat) s', q_exec 3 tr s /\ nth_error (q_threads s) 2 = Some (QTryLock false) /\ q_step s 2 false = Some (s', []) /\
  nth_error (q_threads s') 2 = Some QAtTryPop /\ q_data s = [5].
Proof.
  destruct (q_run_labels (queue_new 3) ex_q) as [[s ev]|] eqn:E; [|vm_compute in E; discriminate].
  exists ev, s. pose proof (q_run_labels_exec 3 ex_q [] (queue_new 3) s ev (q_exec_new _) E) as H. vm_compute in E. injection E as <- <-.
  eexists. split; [exact H|]. repeat split.
Qed.
Definition ex_q2 : list (qlabel nat) :=
  [QLCall 0 (QPush 5); QLStep 0 false; QLCall 1 QPop; QLCall 2 QPop; QLStep 1 false; QLCall 0 QStop; QLStep 0 false; QLStep 2 false; QLCall 0 QPop].
Example C26_ex2 : exists tr (s : queue nat), q_exec 3 tr s /\ q_waiting s 0 /\ q_stopped s = true /\ q_data s = [5].
Proof.
  destruct (q_run_labels (queue_new 3) ex_q2) as [[s ev]|] eqn:E; [|vm_compute in E; discriminate].
  exists ev, s. pose proof (q_run_labels_exec 3 ex_q2 [] (queue_new 3) s ev (q_exec_new _) E) as H. vm_compute in E. injection E as <- <-.
  split; [exact H|]. repeat split.
Qed.
