(** C65: every asynchronous send is answered exactly once with its own outcome, no
    answer is forgotten, and a flush waits for the heaps sent before it. *)
From Coq Require Import ZArith List Lia Bool Sorted.
From Verif Require Import ConcBase AsyncSendModel AsyncSendProofs.
Import ListNotations.

(** ** Specification *)
(** Requests by number: the first call of async_send_heap is 0. *)
Definition accepted (s : asw) (i : nat) : Prop := exists x, nth_error (w_sends s) i = Some x /\ x_acc x = true.
Definition future (s : asw) (i : nat) (f : sfut) : Prop := exists x, nth_error (w_sends s) i = Some x /\ x_fut x = f.
(** The last request accepted among the first [n]. *)
Definition last_accepted (s : asw) (n t : nat) : Prop := t < n /\ accepted s t /\ forall i, i < n -> accepted s i -> i <= t.
(** Nothing can go on: no completion is outstanding in the stream, no handler is
    about to wake the loop, and the loop has nothing to do; [WReady] counts only
    when the descriptor is readable. *)
Definition s_at_rest (s : asw) : Prop :=
  (forall l, own_lab l = true -> l <> WReady -> sstep s l = None) /\ (0 < w_sem s -> sstep s WReady = None).
(** The requests called back, and those completed, in order of time. *)
Definition called (log : list sev) : list nat := flat_map (fun e => match e with VCall i _ => [i] | _ => [] end) log.
Definition completed (log : list sev) : list nat := flat_map (fun e => match e with VComplete i _ => [i] | _ => [] end) log.
Lemma called_eq log : called log = map fst (calls log).
Proof. induction log as [|[i v|i v] l IH]; [reflexivity| |]; unfold called, completed, calls, comps in *; cbn [flat_map app map fst]; now rewrite IH. Qed.
Lemma completed_eq log : completed log = map fst (comps log).
Proof. induction log as [|[i v|i v] l IH]; [reflexivity| |]; unfold called, completed, calls, comps in *; cbn [flat_map app map fst]; now rewrite IH. Qed.

Lemma accepted_acc s i : accepted s i <-> acc s i = true.
Proof.
  unfold accepted, acc. split.
  - intros (x & -> & H). exact H.
  - destruct (nth_error (w_sends s) i) as [x|]; [|discriminate]. intro H. now exists x.
Qed.

(** ** Answers *)
(** The callback of a request is called at most once, after the request completed
    and with its outcome, and callbacks come in the order of completion.  A future
    has a result only if its callback was called with that result, and once it
    was, the future is done; it is cancelled only if the user cancelled it. *)
Theorem C65_answers : forall ls s log, srun asw_init ls = Some (s, log) ->
  NoDup (called log) /\
  (exists rest, completed log = called log ++ rest) /\
  (forall i v, In (VCall i v) log -> In (VComplete i v) log /\ exists f, future s i f /\ (f = SRes v \/ (f = SCancel /\ In (WCancel i) ls))) /\
  (forall i v, future s i (SRes v) -> In (VCall i v) log) /\
  (forall i, future s i SCancel -> In (WCancel i) ls).
Proof.
  intros ls s log H. pose proof (jinv_reach _ _ _ H) as J. pose proof (j_flow _ _ _ J) as Hf.
  assert (Hnd : NoDup (map fst (comps log))).
  { pose proof (j_nodup _ _ _ J) as G. revert G. generalize (w_inq s ++ w_rej s). generalize (map fst (comps log)). clear. induction l as [|x l IH]; intros r G; [constructor|].
    cbn [app] in G. inversion G as [|? ? G1 G2]; subst. constructor; [|eauto]. intro G3. apply G1. apply in_app_iff. now left. }
  assert (Hcs : forall i v, In (i, v) (calls log) -> In (i, v) (comps log)) by (intros i v Hi; rewrite Hf; apply in_app_iff; now left).
  assert (Huniq : forall i v w, In (i, v) (comps log) -> In (i, w) (comps log) -> v = w).
  { revert Hnd. clear. induction (comps log) as [|[j u] l IH]; intros Hn i v w; [intros []|]. cbn [map fst] in Hn. inversion Hn as [|? ? N1 N2]; subst.
    intros [[= -> ->]|Hv] [[= E]|Hw].
    - congruence.
    - exfalso. apply N1. now apply (in_map fst) in Hw.
    - subst. exfalso. apply N1. now apply (in_map fst) in Hv.
    - eauto. }
  split; [|split; [|split; [|split]]].
  - rewrite called_eq. rewrite Hf, map_app in Hnd. revert Hnd. generalize (map fst (runl s ++ w_cbs s)). generalize (map fst (calls log)). clear. induction l as [|x l IH]; intros r G; [constructor|].
    cbn [app] in G. inversion G as [|? ? G1 G2]; subst. constructor; [|eauto]. intro G3. apply G1. apply in_app_iff. now left.
  - exists (map fst (runl s ++ w_cbs s)). now rewrite completed_eq, called_eq, Hf, map_app.
  - intros i v Hi. apply in_calls in Hi. split; [apply in_comps; auto|].
    assert (Hd := j_done _ _ _ J i (in_map fst _ _ Hi)). unfold fut_done in Hd. destruct (nth_error (w_sends s) i) as [x|] eqn:Ex; [|discriminate].
    exists (x_fut x). split; [now exists x|]. destruct (x_fut x) as [|w|] eqn:Ef; [discriminate|left|right].
    + f_equal. apply (Huniq i); [|now apply Hcs]. apply Hcs. now apply (j_res _ _ _ J i x).
    + split; [reflexivity|]. now apply (j_can _ _ _ J i x).
  - intros i v (x & Ex & Ef). apply in_calls. now apply (j_res _ _ _ J i x).
  - intros i (x & Ex & Ef). now apply (j_can _ _ _ J i x).
Qed.
Print Assumptions C65_answers.

(** Callbacks of accepted requests are called in the order of the calls. *)
Theorem C65_order : forall ls s log, srun asw_init ls = Some (s, log) ->
  forall a b i j, called log = a ++ i :: b -> In j b -> accepted s i -> accepted s j -> i < j.
Proof.
  intros ls s log H a b i j Hc Hj Hi' Hj'. apply accepted_acc in Hi', Hj'. pose proof (jinv_reach _ _ _ H) as J.
  pose proof (j_sort _ _ _ J) as Hs. rewrite (j_flow _ _ _ J), map_app, <- called_eq, Hc, !filter_app in Hs. cbn [app filter] in Hs. rewrite Hi' in Hs. rewrite <- !app_assoc in Hs.
  assert (Hsuf : forall p q, StronglySorted lt (p ++ q) -> StronglySorted lt q) by (induction p as [|x p IH]; cbn [app]; [auto|]; intros q G; inversion G; auto).
  apply Hsuf in Hs. cbn [app] in Hs. inversion Hs as [|? ? _ F]; subst. rewrite Forall_forall in F. apply F. apply in_app_iff. left. apply filter_In. auto.
Qed.
Print Assumptions C65_order.

(** ** No answer is forgotten *)
(** The stream's threads and the loop come to rest after a bounded number of
    steps; at rest every request has been called back, every future is done, the
    loop no longer listens, and every flush can return or has. *)
Theorem C65_no_lost_wakeup : forall ls s log, srun asw_init ls = Some (s, log) ->
  (forall ls' s' log', forallb own_lab ls' = true -> srun s ls' = Some (s', log') -> length ls' <= 12 * w_active s + 5) /\
  (s_at_rest s ->
     w_loc s = LIdle /\ w_reader s = false /\
     (forall i, i < length (w_sends s) -> In i (called log) /\ fut_done s i = true) /\
     (forall j y, nth_error (w_flushes s) j = Some y -> y_ret y = true \/ sstep s (WFlushRet j) <> None)).
Proof.
  intros ls s log H. pose proof (jinv_reach _ _ _ H) as J. split.
  - intros ls' s' log' Ho Hr. pose proof (own_bound _ _ _ _ _ _ J Ho Hr) as Hb. etransitivity; [exact Hb|]. unfold swork. rewrite (j_active _ _ _ J), app_length.
    pose proof (j_sem _ _ _ J) as G. assert (w_loc_work (w_loc s) <= 4) by (destruct (w_loc s); cbn; lia). assert (b2n (nonempty (w_cbs s)) <= 1) by (destruct (w_cbs s); cbn; lia). lia.
  - intros [Hr Hready].
    assert (Hinq : w_inq s = []).
    { specialize (Hr (WComplete 0%Z) eq_refl ltac:(discriminate)). cbn [sstep] in Hr. destruct (w_inq s); [reflexivity|discriminate]. }
    assert (Hrej : w_rej s = []).
    { destruct (w_rej s) as [|i r] eqn:Er; [reflexivity|]. specialize (Hr (WReject i 0%Z) eq_refl ltac:(discriminate)). cbn [sstep] in Hr. rewrite Er in Hr. cbn [existsb] in Hr. rewrite Nat.eqb_refl in Hr. discriminate. }
    assert (Hputs : w_puts s = 0).
    { specialize (Hr WPut eq_refl ltac:(discriminate)). cbn [sstep] in Hr. destruct (w_puts s); [reflexivity|discriminate]. }
    pose proof (j_sem _ _ _ J) as Hsem. rewrite Hputs in Hsem. pose proof (j_active _ _ _ J) as Hact. rewrite Hinq, Hrej in Hact. cbn [length] in Hact.
    assert (Hloc : w_loc s = LIdle).
    { destruct (w_loc s) as [| | |l] eqn:El; [reflexivity| | |]; exfalso.
      - specialize (Hr WGet eq_refl ltac:(discriminate)). cbn [sstep] in Hr. rewrite El in Hr. destruct (w_sem s) as [|n]; [|discriminate].
        apply (j_loc _ _ _ J); [auto|]. rewrite Hact. unfold runl, in_swap in *. rewrite El in *. destruct (w_cbs s); [reflexivity|discriminate].
      - specialize (Hr WSwap eq_refl ltac:(discriminate)). cbn [sstep] in Hr. rewrite El in Hr. discriminate.
      - specialize (Hr WCall eq_refl ltac:(discriminate)). cbn [sstep] in Hr. rewrite El in Hr. destruct l as [|[i v] r]; discriminate. }
    unfold runl, in_swap in *. rewrite Hloc in *. cbn [app] in Hact.
    assert (Hcbs : w_cbs s = []).
    { destruct (w_cbs s) as [|c l] eqn:Ec; [reflexivity|exfalso]. cbn [nonempty b2n] in Hsem. specialize (Hready ltac:(lia)). cbn [sstep] in Hready. rewrite Hloc in Hready. cbn [is_idle andb] in Hready.
      rewrite (j_reader _ _ _ J), Hact in Hready. discriminate. }
    rewrite Hcbs in Hact. cbn [length] in Hact. split; [reflexivity|]. split; [rewrite (j_reader _ _ _ J), Hact; reflexivity|].
    assert (Hall : forall i, i < length (w_sends s) -> In i (called log) /\ fut_done s i = true).
    { intros i Hi. assert (Hin : In i (map fst (calls log))).
      { apply (j_all _ _ _ J) in Hi. rewrite Hinq, Hrej, app_nil_r, (j_flow _ _ _ J) in Hi. unfold runl in Hi. rewrite Hloc, Hcbs in Hi. now rewrite !app_nil_r in Hi. }
      split; [now rewrite called_eq|]. now apply (j_done _ _ _ J). }
    split; [exact Hall|]. intros j y Ey. destruct (y_ret y) eqn:Eret; [now left|right]. cbn [sstep]. rewrite Hloc, Ey. cbn [is_idle].
    pose proof (j_flush _ _ _ J) as G. rewrite Forall_forall in G. destruct (G y (nth_error_In _ _ Ey)) as [G1 G2]. 
    destruct (y_target y) as [t|] eqn:Et.
    + rewrite Eret. destruct G2 as (G2 & _). destruct (Hall t ltac:(lia)) as [_ ->]. discriminate.
    + exfalso. revert Ey Et Eret. clear -H. revert H.
      assert (Hinv : forall ls s0 s log, Forall (fun y => y_target y = None -> y_ret y = true) (w_flushes s0) -> srun s0 ls = Some (s, log) -> Forall (fun y => y_target y = None -> y_ret y = true) (w_flushes s)).
      { clear. induction ls as [|l ls IH]; intros s0 s log H0 Hr; cbn [srun] in Hr; [injection Hr as <- <-; exact H0|].
        destruct (sstep s0 l) as [[s1 e]|] eqn:Es; [|discriminate]. destruct (srun s1 ls) as [[s2 es]|] eqn:Er; [|discriminate]. injection Hr as <- <-. apply (IH s1 s2 es); [|exact Er].
        destruct l; cbn [sstep] in Es.
        - destruct (is_idle _); [|discriminate]. now injection Es as <- <-.
        - destruct (w_inq s0); [discriminate|]. now injection Es as <- <-.
        - destruct (existsb _ _); [|discriminate]. now injection Es as <- <-.
        - destruct (w_puts s0); [discriminate|]. now injection Es as <- <-.
        - destruct (_ && _); [|discriminate]. now injection Es as <- <-.
        - destruct (w_loc s0); try discriminate. destruct (w_sem s0); [discriminate|]. now injection Es as <- <-.
        - destruct (w_loc s0); try discriminate. now injection Es as <- <-.
        - destruct (w_loc s0) as [| | |[|[i v] r]]; try discriminate; now injection Es as <- <-.
        - destruct (is_idle _); [|discriminate]. destruct (nth_error _ _); [|discriminate]. now injection Es as <- <-.
        - destruct (is_idle _); [|discriminate]. injection Es as <- <-. cbn [with_flushes w_flushes]. apply Forall_app. split; [exact H0|]. constructor; [|constructor]. cbn. intros ->. reflexivity.
        - destruct (is_idle _); [|discriminate]. destruct (nth_error _ _) as [y|]; [|discriminate]. destruct (y_target y) eqn:Et; [|discriminate]. destruct (_ && _); [|discriminate]. injection Es as <- <-.
          cbn [with_flushes w_flushes]. apply Forall_upd; [exact H0|]. cbn. discriminate. }
      intros H Ey Et Eret. assert (G := Hinv ls asw_init s log ltac:(constructor) H). rewrite Forall_forall in G. specialize (G y (nth_error_In _ _ Ey) Et). congruence.
Qed.
Print Assumptions C65_no_lost_wakeup.

(** ** Flush *)
(** When a flush has returned, every request that was accepted before the flush
    was called has completed and been called back, provided that the future of the
    last of them was not cancelled.  Missing: that proviso, see
    C65_flush_cancel_refuted. *)
Theorem C65_flush_partial : forall ls s log, srun asw_init ls = Some (s, log) ->
  forall j y, nth_error (w_flushes s) j = Some y -> y_ret y = true ->
  (forall t, last_accepted s (y_before y) t -> ~ In (WCancel t) ls) ->
  forall i, i < y_before y -> accepted s i -> exists v, In (VComplete i v) log /\ In (VCall i v) log /\ fut_done s i = true.
Proof.
  intros ls s log H j y Ey Hret Hnc i Hi Ha. pose proof (jinv_reach _ _ _ H) as J.
  pose proof (j_flush _ _ _ J) as G. rewrite Forall_forall in G. destruct (G y (nth_error_In _ _ Ey)) as [G1 G2]. apply accepted_acc in Ha.
  assert (Hcalled : In i (map fst (calls log))).
  { destruct (y_target y) as [t|] eqn:Et; [|now apply G2]. destruct G2 as (T1 & T2 & T3 & T4).
    assert (Hl : last_accepted s (y_before y) t).
    { split; [exact T1|]. split; [now apply accepted_acc|]. intros k Hk Hk'. apply accepted_acc in Hk'. auto. }
    specialize (Hnc t Hl). specialize (T4 Hret). unfold fut_done in T4. destruct (nth_error (w_sends s) t) as [x|] eqn:Ex; [|discriminate].
    assert (Htc : In t (map fst (calls log))).
    { destruct (x_fut x) as [|v|] eqn:Ef; [discriminate| |].
      - apply (in_map fst _ (t, v)). now apply (j_res _ _ _ J t x).
      - exfalso. apply Hnc. now apply (j_can _ _ _ J t x). }
    assert (Hit : i <= t) by auto. destruct (Nat.eq_dec i t) as [->|Hne]; [exact Htc|].
    (* i is before t in the order of the accepted *)
    assert (Hin : In i (map fst (calls log) ++ filter (acc s) (map fst (runl s ++ w_cbs s)) ++ w_inq s)).
    { assert (Hi' : i < length (w_sends s)) by lia. apply (j_all _ _ _ J) in Hi'. rewrite (j_flow _ _ _ J), map_app, !in_app_iff in Hi'. rewrite !in_app_iff.
      destruct Hi' as [[Hi'|Hi']|[Hi'|Hi']]; auto.
      - right; left. apply filter_In. auto.
      - exfalso. apply (j_rej _ _ _ J) in Hi'. congruence. }
    apply in_app_iff in Hin as [Hin|Hin]; [exact Hin|exfalso].
    pose proof (j_sort _ _ _ J) as Hs. rewrite (j_flow _ _ _ J), map_app, filter_app, <- app_assoc in Hs.
    assert (Htf : In t (filter (acc s) (map fst (calls log)))) by (apply filter_In; auto).
    revert Hs Htf Hin. generalize (filter (acc s) (map fst (calls log))). generalize (filter (acc s) (map fst (runl s ++ w_cbs s)) ++ w_inq s). intros q p. clear -Hit Hne.
    induction p as [|a p IH]; cbn [app]; [intros _ []|]. intros Hs [->|Ht] Hq; inversion Hs as [|? ? S1 S2]; subst; [|auto].
    rewrite Forall_forall in S2. specialize (S2 i ltac:(apply in_app_iff; now right)). lia. }
  apply in_map_iff in Hcalled as ([i' v] & Hfst & Hin). cbn [fst] in Hfst. subst i'. exists v. split; [|split].
  - apply in_comps. rewrite (j_flow _ _ _ J). apply in_app_iff. now left.
  - now apply in_calls.
  - apply (j_done _ _ _ J). now apply (in_map fst) in Hin.
Qed.
Print Assumptions C65_flush_partial.

(** If the future of the last heap is cancelled, async_flush returns while an
    earlier heap has not been sent. *)
Theorem C65_flush_cancel_refuted : exists s log,
  srun asw_init [WSend true; WSend true; WFlush; WCancel 1; WFlushRet 0] = Some (s, log) /\
  exists y, nth_error (w_flushes s) 0 = Some y /\ y_ret y = true /\ y_before y = 2 /\ accepted s 0 /\ future s 0 SPend /\ (forall v, ~ In (VComplete 0 v) log).
Proof.
  do 2 eexists. split; [vm_compute; reflexivity|]. eexists. split; [reflexivity|]. split; [reflexivity|]. split; [reflexivity|].
  split; [eexists; split; reflexivity|]. split; [eexists; split; reflexivity|]. intros v [].
Qed.
Print Assumptions C65_flush_cancel_refuted.

(** ** Example *)
(** Two heaps accepted, one refused; the refusal arrives first, a completion comes
    between the loop's taking the token and its taking the list, another while the
    callbacks run; the flush waits for request 2. *)
Definition ex_sends : list slab :=
  [WSend true; WSend false; WSend true; WFlush; WReject 1 (-1)%Z; WPut; WReady; WGet; WComplete 100%Z; WSwap; WCall; WComplete 200%Z; WPut; WCall; WCall;
   WReady; WGet; WSwap; WCall; WCall; WFlushRet 0].
Example C65_example : exists s, srun asw_init ex_sends =
    Some (s, [VComplete 1 (-1); VComplete 0 100; VCall 1 (-1); VComplete 2 200; VCall 0 100; VCall 2 200]%Z) /\
  s_at_rest s /\ map x_fut (w_sends s) = [SRes 100; SRes (-1); SRes 200]%Z /\ map y_ret (w_flushes s) = [true] /\ w_reader s = false /\
  accepted s 0 /\ accepted s 2 /\ ~ accepted s 1 /\ (forall t, ~ In (WCancel t) ex_sends).
Proof.
  eexists. split; [vm_compute; reflexivity|]. split; [|split; [reflexivity|split; [reflexivity|split; [reflexivity|split; [eexists; split; reflexivity|split; [eexists; split; reflexivity|split]]]]]].
  - split; [|reflexivity]. intros [b|v|i v| | | | | |i| |j] Ho Hn; try discriminate; reflexivity.
  - intros (x & [= <-] & G). discriminate.
  - intros t. cbn. intuition discriminate.
Qed.
