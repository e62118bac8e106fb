(** C57: the slots and completions of the ibverbs sender. *)
From Coq Require Import ZArith List Bool Arith Lia.
From Verif Require Import ConcBase IbvSlotModel IbvSlotProofs.
Import ListNotations.

(** The number of groups that end in these packets *)
Definition groups (l : list pkt) : nat := length (filter q_last l).
Lemma groups_sum l : sumw is_last l = groups l.
Proof. unfold groups. induction l as [|p l IH]; [reflexivity|]. cbn [sumw filter]. unfold is_last at 1. destruct (q_last p); cbn [length]; lia. Qed.

(** The numbers of slots that the constructor computes *)
Theorem C57_config buffer_size raw_size : (0 < raw_size <= 262144 -> let n := calc_n_slots buffer_size raw_size in 1 <= calc_batch raw_size n <= n)%Z.
Proof.
  intros H n. unfold calc_batch. assert (Hn : (1 <= n)%Z) by (unfold n, calc_n_slots; lia). assert (1 <= 262144 / raw_size)%Z by (apply Z.div_le_lower_bound; lia). assert (n / 4 <= n)%Z by (apply Z.div_le_upper_bound; lia). lia.
Qed.

Section Props.
Context (c : config) (CO : cfg_ok c).

(** No slot that is not in use is accessed. *)
Theorem C57_no_fault_partial s l : reach c s -> step c l s <> Fault.
Proof.
  intros R. pose proof (reach_inv c CO s R) as V. destruct l as [|a| |ok]; cbn [step].
  - destruct (at_ s) eqn:EA; try discriminate.
    + destruct (do_reap_inv c CO s _ _ _ V EA) as (s1 & E1 & _). congruence.
    + destruct (do_post_inv c CO s _ _ _ _ V EA) as (s1 & E1 & _). congruence.
    + destruct (event s); discriminate.
  - destruct (at_ s) eqn:EA; try discriminate. destruct (do_fill_inv c CO s _ _ _ a V EA) as (s1 & E1 & _). congruence.
  - destruct (at_ s); discriminate.
  - destruct (infl s) as [|w l] eqn:EI; [unfold do_card; rewrite EI; discriminate|]. destruct (do_card_inv c CO s ok V) as (s1 & E1 & _); congruence.
Qed.
(** What the card sends is what was taken from the stream, in order: no slot is written to
    before the card has read it. *)
Theorem C57_wire_partial s : reach c s -> exists rest, sent s = wired s ++ rest.
Proof. intro R. pose proof (v_wired c s (reach_inv c CO s R)) as E. exists (skipn (length (wired s)) (sent s)). rewrite E at 1. symmetry. apply firstn_skipn. Qed.
(** A packet is accounted for once, in order, after the card has sent it; the groups that
    are completed are those whose packets have all been accounted for. *)
Theorem C57_completed_partial s : reach c s -> (exists rest, wired s = map fst (log s) ++ rest) /\ (done s <= groups (map fst (log s))) /\ ((forall r g t, at_ s <> Reap r g t) -> done s = groups (map fst (log s))).
Proof.
  intro R. pose proof (reach_inv c CO s R) as V. rewrite <- groups_sum. split; [|split].
  - exists (skipn (length (log s)) (wired s)). rewrite (v_log c s V). pose proof (v_end c s V). rewrite (v_wired c s V) at 1.
    assert (E : firstn (length (log s)) (sent s) = firstn (length (log s)) (wired s)) by (rewrite (v_wired c s V), firstn_firstn; f_equal; lia). rewrite E, firstn_skipn. symmetry. apply (v_wired c s V).
  - pose proof (v_done c s V). lia.
  - intro N. pose proof (v_done c s V) as D. destruct (at_ s); cbn [pending] in D; try lia. exfalso. eapply N. reflexivity.
Qed.
(** The send queue and the completion queue, made for n_slots entries, do not overflow. *)
Theorem C57_capacity_partial s : reach c s -> length (infl s) + length (cq s) <= n_slots c.
Proof.
  intro R. pose proof (reach_inv c CO s R) as V. pose proof (v_end c s V). pose proof (v_posted c s V). pose proof (v_count c s V). pose proof (v_cq c s V) as F. assert (length (cq s) <= sumw c_id (cq s)) by (clear - F; induction F; cbn [length sumw]; lia). lia.
Qed.
(** When the writer waits for the next heap, everything has been sent and completed. *)
Theorem C57_idle_partial s : reach c s -> at_ s = Requested -> wired s = sent s /\ map fst (log s) = sent s /\ done s = groups (sent s) /\ infl s = [] /\ cq s = [].
Proof.
  intros R E. pose proof (reach_inv c CO s R) as V. pose proof (v_pc c s V) as P. unfold pc_ok in P. rewrite E in P. pose proof (v_count c s V) as C. pose proof (v_end c s V) as EN. pose proof (v_posted c s V) as PO. rewrite E in PO. cbn [unposted] in PO. pose proof (v_cq c s V) as F.
  assert (LW : length (wired s) = length (sent s)) by lia. assert (LG : length (log s) = length (sent s)) by lia.
  assert (W : wired s = sent s) by (rewrite (v_wired c s V), LW; apply firstn_all). assert (G : map fst (log s) = sent s) by (rewrite (v_log c s V), LG; apply firstn_all).
  split; [exact W|]. split; [exact G|]. split; [rewrite <- groups_sum, <- G; pose proof (v_done c s V) as D; rewrite E in D; cbn [pending] in D; lia|]. split; [destruct (infl s); [reflexivity|cbn [length] in PO; lia]|].
  destruct F as [|w q F1 F2] eqn:EF; [reflexivity|]. exfalso. cbn [sumw] in EN. lia.
Qed.

Lemma algn_signals n : forall l e a, e < a -> algn n e a l -> exists w, In w l /\ w_sig w = true.
Proof.
  induction l as [|w l IH]; intros e a L H; cbn [algn] in H; [lia|]. destruct H as (_ & H). destruct (w_sig w) eqn:E; [exists w; split; [now left|exact E]|]. destruct (IH e (S a) ltac:(lia) H) as (x & X1 & X2). exists x. split; [now right|exact X2].
Qed.
Lemma card_all : forall oks s, inv c s -> length oks = length (infl s) -> at_ s = Waiting -> (event s = true \/ (armed s = true /\ exists w, In w (infl s) /\ w_sig w = true)) ->
  exists s', run c (map Card oks) s = Some s' /\ event s' = true /\ at_ s' = Waiting.
Proof.
  induction oks as [|ok oks IH]; intros s V L E H; cbn [map run].
  - exists s. destruct H as [H|(_ & w & Hw & _)]; [auto|]. destruct (infl s); [destruct Hw|discriminate].
  - cbn [step]. destruct (do_card_inv c CO s ok V) as (s1 & E1 & V1); [intro K; rewrite K in L; discriminate|]. rewrite E1. unfold do_card in E1. destruct (infl s) as [|w l] eqn:EI; [discriminate|]. destruct (nth_error (slots s) (w_slot w)); [|discriminate].
    destruct CO as (_ & _ & NE). rewrite NE, andb_false_r, orb_false_r in E1. injection E1 as E1. assert (F1 : infl s1 = l /\ at_ s1 = at_ s /\ event s1 = event s || (w_sig w && armed s) /\ armed s1 = armed s && negb (w_sig w)) by (rewrite <- E1; auto). destruct F1 as (F1 & F2 & F3 & F4).
    apply IH; [exact V1|rewrite F1; cbn [length] in L; lia|congruence|]. destruct H as [H|(H1 & x & [->|Hx] & X)]; [left; rewrite F3, H; reflexivity|left; rewrite F3, X, H1; apply orb_true_r|].
    rewrite F3, F4, H1. destruct (w_sig w); [left; apply orb_true_r|]. right. split; [reflexivity|]. exists x. now rewrite F1.
Qed.
(** While the writer waits for an event and there is none, the card has work, and when it
    has done it there is an event -- if asking for notification looks at the completions
    that are already there. *)
Theorem C57_event_partial s oks : arming c = Level -> reach c s -> at_ s = Waiting -> event s = false -> infl s <> [] /\
  (length oks = length (infl s) -> exists s', run c (map Card oks) s = Some s' /\ event s' = true /\ at_ s' = Waiting).
Proof.
  intros LV R E NE. pose proof (reach_inv c CO s R) as V. pose proof (v_pc c s V) as P. unfold pc_ok in P. rewrite E in P. destruct P as (P1 & P2). destruct (P2 LV) as [K|(K1 & K2)]; [congruence|].
  pose proof (v_algn c s V) as A. rewrite K2 in A. cbn [sumw] in A. rewrite Nat.add_0_r in A. pose proof (v_count c s V) as C. pose proof (v_posted c s V) as PO. rewrite E in PO. cbn [unposted] in PO. pose proof (v_end c s V) as EN.
  assert (X : exists w, In w (infl s) /\ w_sig w = true).
  { destruct (Nat.eq_dec (length (log s)) (length (wired s))) as [Q|Q]; [|apply (algn_signals (n_slots c) (infl s) (length (log s)) (length (wired s))); [lia|exact A]].
    destruct (infl s) as [|w l] eqn:EI; [cbn [length] in PO; lia|]. cbn [algn] in A. destruct A as (_ & A). destruct (w_sig w) eqn:EW; [exists w; split; [now left|exact EW]|].
    destruct (algn_signals (n_slots c) l (length (log s)) (S (length (wired s))) ltac:(lia) A) as (x & X1 & X2). exists x. split; [now right|exact X2]. }
  split; [destruct X as (w & Hw & _); intro K; rewrite K in Hw; destruct Hw|]. intro L. apply card_all; auto.
Qed.
(** So the writer is never stuck: it or the card can go on unless it waits for a heap or
    for the rate limiter. *)
Theorem C57_not_stuck_partial s : arming c = Level -> reach c s -> at_ s <> Requested -> at_ s <> Sleeping ->
  exists l s', step c l s = Ok s' /\ l <> Wake.
Proof.
  intros LV R N1 N2. pose proof (reach_inv c CO s R) as V. destruct (at_ s) eqn:EA; try congruence.
  - exists Go. eexists. cbn [step]. rewrite EA. split; [reflexivity|discriminate].
  - exists Go. cbn [step]. rewrite EA. destruct (do_reap_inv c CO s _ _ _ V EA) as (s1 & E1 & _). exists s1. split; [exact E1|discriminate].
  - exists (Get Empty). cbn [step]. rewrite EA. eexists. split; [reflexivity|discriminate].
  - exists Go. cbn [step]. rewrite EA. destruct (do_post_inv c CO s _ _ _ _ V EA) as (s1 & E1 & _). exists s1. split; [exact E1|discriminate].
  - exists Go. eexists. cbn [step]. rewrite EA. split; [reflexivity|discriminate].
  - exists Go. eexists. cbn [step]. rewrite EA. split; [reflexivity|discriminate].
  - destruct (event s) eqn:EV; [exists Go; eexists; cbn [step]; rewrite EA, EV; split; [reflexivity|discriminate]|].
    destruct (C57_event_partial s [] LV R EA EV) as (NI & _). exists (Card true). cbn [step]. destruct (do_card_inv c CO s true V NI) as (s1 & E1 & _). exists s1. split; [exact E1|discriminate].
Qed.
End Props.

Lemma run_reach c : forall ls s s', reach c s -> run c ls s = Some s' -> reach c s'.
Proof. induction ls as [|l ls IH]; intros s s' R E; cbn [run] in E; [congruence|]. destruct (step c l s) as [| |s1] eqn:ES; try discriminate. eapply IH; [|exact E]. econstructor; eauto. Qed.

(** *** Examples *)
Definition ex_cfg (m : notify) (e : bool) : config := {| n_slots := 8; batch := 2; max_poll := 1; channel := true; arming := m; all_errors := e |}.
Definition pk (i : nat) (l : bool) : pkt := {| q_item := i; q_size := 100; q_last := l |}.
(** A heap of three packets, sent in two batches, then waiting for an event *)
Definition ex_labels : list label :=
  [Wake; Go; Get (Success (pk 0 false)); Get (Success (pk 0 false)); Go; Go; Go; Go; Get (Success (pk 0 true)); Get Empty; Go; Go; Go; Card true; Go; Get Empty; Go; Go; Go].
Definition ex_state : state := match run (ex_cfg Level false) ex_labels (init (ex_cfg Level false)) with Some s => s | None => init (ex_cfg Level false) end.
Example C57_ex : run (ex_cfg Level false) ex_labels (init (ex_cfg Level false)) = Some ex_state /\ at_ ex_state = Waiting /\ event ex_state = false /\ length (infl ex_state) = 2 /\ length (sent ex_state) = 3 /\ log ex_state = [].
Proof. vm_compute. auto 8. Qed.
Definition ex_labels2 : list label := ex_labels ++ [Card true; Card false; Go; Go; Go; Get Empty; Go; Go; Go; Go; Go; Get Empty; Go; Go].
Definition ex_state2 : state := match run (ex_cfg Level false) ex_labels2 (init (ex_cfg Level false)) with Some s => s | None => init (ex_cfg Level false) end.
Example C57_ex2 : run (ex_cfg Level false) ex_labels2 (init (ex_cfg Level false)) = Some ex_state2 /\ at_ ex_state2 = Requested /\ log ex_state2 = [(pk 0 false, true); (pk 0 false, true); (pk 0 true, false)] /\ done ex_state2 = 1.
Proof. vm_compute. auto 8. Qed.

(** With the promise of ibv_req_notify_cq only: a completion between the last poll and the
    request makes no event.  The card has nothing to do, the completion is there, and the
    writer waits for ever; the group is never completed and no further packet is sent. *)
Definition lost_labels : list label :=
  [Wake; Go; Get (Success (pk 0 true)); Get Empty; Go; Go; Go; Go; Get Empty; Go; Go; Card true; Go].
Definition lost_state : state := match run (ex_cfg Edge false) lost_labels (init (ex_cfg Edge false)) with Some s => s | None => init (ex_cfg Edge false) end.
Theorem C57_lost_event_refuted : cfg_ok (ex_cfg Edge false) /\ reach (ex_cfg Edge false) lost_state /\ at_ lost_state = Waiting /\ cq lost_state <> [] /\ infl lost_state = [] /\
  sent lost_state = wired lost_state /\ groups (wired lost_state) = 1 /\ done lost_state = 0 /\ forall l s', step (ex_cfg Edge false) l lost_state = Ok s' -> l = Wake.
Proof.
  split; [repeat split; cbn; lia|]. split; [apply (run_reach _ lost_labels (init (ex_cfg Edge false))); [constructor|vm_compute; reflexivity]|].
  split; [reflexivity|]. split; [discriminate|]. split; [reflexivity|]. split; [reflexivity|]. split; [reflexivity|]. split; [reflexivity|]. intros [|a| |ok] s' E; vm_compute in E; try discriminate. reflexivity.
Qed.

(** If requests that are not signalled also give a completion when they fail, that has the
    wr_id of an earlier batch: slots are freed that the card has not sent, and the group is
    completed before its packets have been sent. *)
Definition two (a b : pkt) : list label := [Get (Success a); Get (Success b); Go; Go; Go; Card true; Card true; Go; Go].
Definition stale_labels : list label :=
  [Wake; Go] ++ two (pk 0 false) (pk 0 false) ++ [Get (Success (pk 0 false)); Get Empty; Go; Go; Go; Card true; Go; Go]
  ++ two (pk 0 false) (pk 0 false) ++ two (pk 0 false) (pk 0 false) ++ two (pk 0 false) (pk 0 false)
  ++ [Get (Success (pk 0 false)); Get (Success (pk 0 true)); Go; Go; Go; Card false; Go; Go].
Definition stale_state : state := match run (ex_cfg Level true) stale_labels (init (ex_cfg Level true)) with Some s => s | None => init (ex_cfg Level true) end.
Theorem C57_stale_id_refuted : reach (ex_cfg Level true) stale_state /\ groups (wired stale_state) = 0 /\ done stale_state = 1 /\ length (infl stale_state) = 1 /\ avail stale_state = 8.
Proof.
  split; [apply (run_reach _ stale_labels (init (ex_cfg Level true))); [constructor|vm_compute; reflexivity]|]. repeat split; vm_compute; reflexivity.
Qed.

Print Assumptions C57_config.
Print Assumptions C57_no_fault_partial.
Print Assumptions C57_wire_partial.
Print Assumptions C57_completed_partial.
Print Assumptions C57_capacity_partial.
Print Assumptions C57_idle_partial.
Print Assumptions C57_event_partial.
Print Assumptions C57_not_stuck_partial.
Print Assumptions C57_lost_event_refuted.
Print Assumptions C57_stale_id_refuted.
