(** C61: the life of a stream and its readers. *)
From Coq Require Import List Bool Arith Lia.
From Verif Require Import ConcBase LifeModel LifeSpec LifeProofs LifeLive.
Import ListNotations.

(** No execution, of any number of threads calling emplace_reader, start, flush, stop, post and
    (once, at the end) the destructor and running completion handlers in any order, uses the
    stream, a reader or the shared state after it has been freed, destroys a locked mutex,
    unlocks one that is not locked, or fails an assertion. *)
Theorem C61_no_fault explicit n s l : reach explicit n s -> next explicit s l <> Fault.
Proof. intros Hr E. pose proof (next_ok explicit s l (reach_inv explicit n s Hr)) as H. now rewrite E in H. Qed.
Print Assumptions C61_no_fault.

(** At most one thread at a time uses the heaps or runs a handler of a reader. *)
Theorem C61_exclusive explicit n s t t' p p' :
  reach explicit n s -> nth_error (pcs s) t = Some p -> nth_error (pcs s) t' = Some p' -> inside p -> inside p' -> t = t'.
Proof.
  intros Hr Hp Hp' Hi Hi'. destruct (Nat.eq_dec t t') as [|Hn]; [assumption|exfalso]. pose proof (i_q _ _ (reach_inv explicit n s Hr)) as Hq.
  pose proof (sumw_two wq _ _ _ _ _ Hp Hp' Hn) as H. assert (wq p = 1) by (destruct p; destruct Hi; reflexivity). assert (wq p' = 1) by (destruct p'; destruct Hi'; reflexivity).
  destruct (qm s); cbn in Hq; lia.
Qed.
Print Assumptions C61_exclusive.

(** Everything happens in the documented order: a reader is stopped at most once, and started
    at most once; no handler of a reader runs before it is started, nor after any reader has
    been stopped; once stop has returned, no handler runs, no heap is passed on, no reader is
    added or stopped; with the default configuration none is started; and once the stream has
    been destroyed nothing happens.  Partial: with explicit_start a reader may be started after
    it has been stopped (C61_start_refuted). *)
Theorem C61_order_partial explicit n s : reach explicit n s -> ordered explicit (trace s).
Proof. intro Hr. exact (i_ord _ _ (reach_inv explicit n s Hr)). Qed.
Print Assumptions C61_order_partial.

(** When stop has returned, every reader has been stopped. *)
Theorem C61_all_stopped explicit n s r : reach explicit n s -> In StopRet (trace s) -> In (Made r) (trace s) -> In (Stopped r) (trace s).
Proof.
  intros Hr Hs Hm. pose proof (reach_inv explicit n s Hr) as Hi. apply ret_in in Hs. apply (i_ret _ _ Hi) in Hs. destruct (i_j _ _ Hi (or_intror Hs)) as [Hsr Hw].
  apply made_in in Hm. rewrite (i_nm _ _ Hi) in Hm. apply stopped_in. pose proof (wh_split (pcs s)). pose proof (wf_split (pcs s)).
  rewrite (i_np _ _ Hi) by lia. rewrite Hsr. exact Hm.
Qed.
Print Assumptions C61_all_stopped.

(** With the default configuration, every reader that has been added is started before
    emplace_reader returns. *)
Theorem C61_all_started n s r : reach false n s -> In (Made r) (trace s) -> (forall t p, nth_error (pcs s) t = Some p -> p <> EStart r) -> In (Started r) (trace s).
Proof.
  intros Hr Hm Hn. pose proof (reach_inv false n s Hr) as Hi. apply made_in in Hm. rewrite (i_nm _ _ Hi) in Hm. apply started_in.
  destruct (Nat.ltb_spec r (nrd s)) as [Hlt|]; [clear Hm|cbn in Hm; lia].
  destruct (Nat.eq_dec (sumw wes (pcs s)) 0) as [H0|H0].
  - rewrite (i_ns _ _ Hi H0), (i_im _ _ Hi eq_refl). destruct (Nat.ltb_spec r (nrd s)); cbn; lia.
  - destruct (sumw_pos wes (pcs s)) as (t & p & Ep & Hw); [lia|]. pose proof (i_data _ _ Hi _ _ Ep) as Hd. destruct p; cbn [wes] in Hw; try lia.
    + destruct Hd as (Hr0 & _ & Hc). rewrite Hc. specialize (Hn t _ Ep). destruct (Nat.ltb_spec r r0); cbn; [lia|]. assert (r = r0) by lia. congruence.
    + pose proof (i_ss _ _ Hi) as Hss. pose proof (sumw_ge wss _ _ _ Ep) as Hge. cbn [wss] in Hge. specialize (Hss ltac:(lia)). rewrite (i_im _ _ Hi eq_refl) in Hss. discriminate.
Qed.
Print Assumptions C61_all_started.

(** The shared state is freed when, and only when, the stream has been destroyed and no
    completion handler is left. *)
Theorem C61_freed explicit n s : reach explicit n s -> Forall (eq Idle) (pcs s) -> (refs s = 0 <-> alive s = false /\ pend s = []).
Proof.
  intros Hr Hid. pose proof (i_refs _ _ (reach_inv explicit n s Hr)) as H.
  assert (Hc : sumw wctx (pcs s) = 0) by (apply sumw_out; intros p Hp; rewrite Forall_forall in Hid; now rewrite <- (Hid p Hp)).
  rewrite Hc in H. destruct (alive s); [split; [lia|intros [? _]; discriminate]|]. destruct (pend s); cbn [length] in H; split; intros; auto; try lia. destruct H0. discriminate.
Qed.
Print Assumptions C61_freed.

(** No deadlock: while some call or handler is in progress, some thread can go on. *)
Theorem C61_not_stuck explicit n s : reach explicit n s -> (exists t p, nth_error (pcs s) t = Some p /\ p <> Idle) -> exists t s', next explicit s (Run t) = Ok s'.
Proof. apply not_stuck. Qed.
Print Assumptions C61_not_stuck.
(** Nor can the calls and handlers in progress go on for ever: in any state there is a bound on
    the number of steps that they can make in any order, and they can all come to an end.
    (That the wrapped handlers return is assumed.) *)
Theorem C61_terminates explicit n s : reach explicit n s ->
  (exists b, forall ts s', run_labels explicit s (map Run ts) = Ok s' -> length ts <= b) /\
  exists ts s', run_labels explicit s (map Run ts) = Ok s' /\ Forall (eq Idle) (pcs s').
Proof. intro Hr. split; [exists (steps_left s); apply bounded|exact (completes explicit n s Hr)]. Qed.
Print Assumptions C61_terminates.

(** With explicit_start the documented order (start before stop, recv_stream.h:779-793) does
    not hold: start, called after stop has returned, starts readers that have been stopped. *)
Definition runs (t k : nat) : list label := repeat (Run t) k.
Definition late_start : list label := Call 0 Emplace :: runs 0 4 ++ [Call 0 Stop] ++ runs 0 12 ++ [Call 0 Start] ++ runs 0 3.
Lemma run_reach explicit n ls : forall s s', reach explicit n s -> run_labels explicit s ls = Ok s' -> reach explicit n s'.
Proof.
  induction ls as [|l ls IH]; intros s s' Hr E; cbn [run_labels] in E; [now injection E as <-|].
  destruct (next explicit s l) as [| |s1] eqn:E1; try discriminate. apply (IH s1); [|exact E]. now apply (reach_step explicit n s l).
Qed.
Definition get (r : res) : state := match r with Ok s => s | _ => init true 0 end.
Definition is_ok (r : res) : bool := match r with Ok _ => true | _ => false end.
Lemma get_ok r : is_ok r = true -> r = Ok (get r).
Proof. destruct r; [discriminate|discriminate|reflexivity]. Qed.
Theorem C61_start_refuted : exists n s r a b, reach true n s /\ trace s = a ++ Started r :: b /\ In (Stopped r) a /\ In StopRet a.
Proof.
  exists 1, (get (run_labels true (init true 1) late_start)), 0, [Made 0; Stopped 0; StopRet], []. split; [|split; [now vm_compute|cbn; tauto]].
  apply (run_reach true 1 late_start (init true 1)); [apply reach_init|]. apply get_ok. now vm_compute.
Qed.
Print Assumptions C61_start_refuted.

(** Three threads: two readers; a handler of the first receives packets and the end of the
    stream while the user adds a third reader and calls stop; a handler of the second reader
    comes too late; then the stream is destroyed, with a handler still waiting. *)
Definition ex_labels : list label :=
  Call 0 Emplace :: runs 0 5 ++ Call 0 Emplace :: runs 0 5 ++
  [Dispatch 1 0] ++ runs 1 2 ++ [Body 1 (AddPacket 2 false false); Body 1 (AddPacket 1 true false); Body 1 Rebind; Body 1 SayStop] ++
  [Call 0 Stop; Run 0; Call 2 Emplace; Run 2; Run 2] ++           (* stop waits for the handler; emplace_reader holds reader_mutex *)
  runs 1 4 ++                                                     (* the handler stops the stream, up to reader_mutex *)
  runs 2 3 ++ runs 1 8 ++                                         (* emplace_reader ends; the handler ends *)
  runs 0 5 ++ [Dispatch 1 0] ++ runs 1 3 ++ [Call 0 Emplace] ++ runs 0 3 ++ [Call 0 Destruct] ++ runs 0 3 ++ [Dispatch 1 0] ++ runs 1 3.
Example C61_ex : exists s, reach false 3 s /\
  trace s = [Made 0; Started 0; Made 1; Started 1; Ran 0; Ran 0; Heaps; Ran 0; Ran 0; Heaps; Made 2; Started 2; Stopped 0; Stopped 1; Stopped 2; StopRet; Ignored; StopRet; Gone] /\
  pend s = [Bound 2] /\ refs s = 1 /\ alive s = false /\ Forall (eq Idle) (pcs s).
Proof.
  exists (get (run_labels false (init false 3) ex_labels)). split.
  - apply (run_reach false 3 ex_labels (init false 3)); [apply reach_init|]. apply get_ok. now vm_compute.
  - vm_compute. repeat split; auto.
Qed.
