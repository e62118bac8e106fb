(** C70: log messages of C++ threads reach Python's logger in order, and objects are stopped at exit. *)
From Coq Require Import String List Arith Bool Lia.
From Verif Require Import ConcBase LogModel LogSpec LogProofs.
Import ListNotations.
Open Scope list_scope.

(** Messages that were accepted are passed to the logger's method for their level exactly once and in the order in
    which they were accepted; at most the ring's capacity plus one are outstanding, none once the thread has ended. *)
Theorem C70_order cap n ls s : lrun cap (linit n) ls = Some s ->
  exists rest, accepted (l_trace s) = logged (l_trace s) ++ rest /\ length rest <= S cap /\ (In EEnd (l_trace s) -> rest = []).
Proof.
  intro H. apply linv_reach in H. destruct H as [i_acc0 i_cap0 i_stopped0 i_end0 i_endev0 i_gil0 i_gils0 i_joined0 i_clear0 i_batch0 i_owed0 i_warns0 i_lit0]. exists (map render (inhand (l_cons s) ++ l_q s)). split; [exact i_acc0|]. split.
  - rewrite map_length, app_length. destruct (l_cons s); cbn in *; lia.
  - intro E. specialize (i_endev0 E). rewrite i_endev0. destruct (i_end0 i_endev0) as [-> _]. reflexivity.
Qed.
Print Assumptions C70_order.

(** A message is dropped only when as many messages as the ring holds are waiting to be logged, and refused with an
    exception only when the ring was stopped. *)
Theorem C70_drop cap n ls p m o s : lrun cap (linit n) ls = Some s ->
  forall s', lstep cap s (HCall p m) = Some s' -> l_trace s' = l_trace s ++ [ECall p m o] ->
  match o with
  | Accepted => length (accepted (l_trace s)) < length (logged (l_trace s)) + S cap
  | Dropped => length (logged (l_trace s)) + cap <= length (accepted (l_trace s))
  | Raised => l_stop s = SJoin \/ l_stop s = SJoined \/ l_stop s = SDone
  end.
Proof.
  intros H s' H' Ht. apply linv_reach in H. destruct H as [i_acc0 i_cap0 i_stopped0 i_end0 i_endev0 i_gil0 i_gils0 i_joined0 i_clear0 i_batch0 i_owed0 i_warns0 i_lit0]. cbn [lstep] in H'. destruct (nth_error (l_prod s) p) as [[]|]; try discriminate.
  injection H' as <-. unfold call in Ht. apply (f_equal (@length _)) in i_acc0. rewrite app_length, map_length, app_length in i_acc0.
  destruct (l_stopped s) eqn:Es; [|destruct (Nat.ltb_spec (used s) cap) as [Hu|Hu]]; lc; apply app_inv_head in Ht; injection Ht as <-.
  - destruct (l_stop s); auto; discriminate.
  - unfold used in Hu. destruct (l_cons s); cbn in *; lia.
  - unfold used in Hu. destruct (l_cons s); cbn in *; lia.
Qed.
Print Assumptions C70_drop.

(** Logging never waits: whatever the consumer does and whoever holds the GIL, a call ends within two steps of the
    thread that makes it. *)
Theorem C70_never_blocks cap n ls s p m : lrun cap (linit n) ls = Some s -> nth_error (l_prod s) p = Some PIdle ->
  exists s', lstep cap s (HCall p m) = Some s' /\
    (nth_error (l_prod s') p = Some PIdle \/ exists s'', lstep cap s' (HFlag p) = Some s'' /\ nth_error (l_prod s'') p = Some PIdle).
Proof.
  intros H Hp. cbn [lstep]. rewrite Hp. eexists. split; [reflexivity|]. unfold call.
  assert (Hl : p < length (l_prod s)) by (apply nth_error_Some; congruence).
  destruct (l_stopped s); [left; exact Hp|]. destruct (used s <? cap); [left; exact Hp|]. right. lc.
  rewrite upd_same by exact Hl. eexists. split; [reflexivity|]. lc. apply upd_same. now rewrite upd_length.
Qed.
Print Assumptions C70_never_blocks.

(** Once a thread has recorded that its message was dropped, the next whole batch of the consumer warns of it (if it
    has not done so before); there are never more warnings than dropped messages. *)
Theorem C70_warn cap n ls s : lrun cap (linit n) ls = Some s ->
  (forall t1 p t2 t3 t4, l_trace s = t1 ++ EFlag p :: t2 ++ EAcq :: t3 ++ ERel :: t4 -> 0 < count is_warn (t2 ++ EAcq :: t3)) /\
  count is_warn (l_trace s) <= count is_drop (l_trace s) /\
  (forall a b, In (EWarn a b) (l_trace s) -> a = "warning"%string /\ b = "Log ringbuffer was full - some log messages were dropped"%string).
Proof.
  intro H. apply linv_reach in H. destruct H as [i_acc0 i_cap0 i_stopped0 i_end0 i_endev0 i_gil0 i_gils0 i_joined0 i_clear0 i_batch0 i_owed0 i_warns0 i_lit0]. split; [|split; [lia|exact i_lit0]].
  intros t1 p t2 t3 t4 Ht. destruct (count is_warn (t2 ++ EAcq :: t3)) eqn:E; [|lia]. exfalso.
  apply (ofold_flag t1 p t2 t3 t4) in E. rewrite <- Ht in E. unfold owed_ok in i_owed0. rewrite E in i_owed0. exact i_owed0.
Qed.
Print Assumptions C70_warn.

(** Messages and warnings are logged only in batches that hold the GIL, of at most 1024 messages and a warning. *)
Theorem C70_batch cap n ls s t1 e t2 : lrun cap (linit n) ls = Some s -> l_trace s = t1 ++ e :: t2 -> is_msg e || is_warn e = true ->
  exists a b, t1 = a ++ EAcq :: b /\ forallb (fun e => negb (is_edge e)) b = true /\ count is_msg (b ++ [e]) <= 1024 /\ count is_warn (b ++ [e]) <= 1.
Proof.
  intros H Ht He.
  assert (P1 : exists ls1 s1, lrun cap (linit n) ls1 = Some s1 /\ l_trace s1 = t1 ++ [e]).
  { eapply lrun_prefix; [exact H|rewrite Ht, <- app_assoc; reflexivity|cbn; lia]. }
  destruct P1 as (ls1 & s1 & H1 & T1). apply linv_reach in H1. destruct H1 as [i_acc0 i_cap0 i_stopped0 i_end0 i_endev0 i_gil0 i_gils0 i_joined0 i_clear0 i_batch0 i_owed0 i_warns0 i_lit0]. clear - i_batch0 He T1.
  assert (B : exists a w, bfold (l_trace s1) = Some (Some (a, w)) /\ a <= max_passes /\ w <= 1).
  { unfold batch_ok in i_batch0. rewrite T1, bfold_snoc in *.
    destruct (l_cons s1) as [|m [|k]|m|m k|k| | | |]; repeat match goal with H : ex _ |- _ => destruct H | H : _ /\ _ |- _ => destruct H end;
      try (eexists _, _; split; [eassumption|lia]);
      destruct (bfold t1) as [[[]|]|]; destruct e; discriminate. }
  destruct B as (a & w & B & Ba & Bw). destruct (bfold_open _ _ _ B) as (u1 & u2 & U & E1 & E2 & E3). rewrite T1 in U.
  destruct u2 as [|x u2] using rev_ind.
  - apply app_inj_tail in U as [_ ->]. discriminate.
  - clear IHu2. change (u1 ++ EAcq :: u2 ++ [x]) with (u1 ++ (EAcq :: u2) ++ [x]) in U. rewrite app_assoc in U. apply app_inj_tail in U as [-> ->].
    exists u1, u2. rewrite E2, E3. rewrite forallb_app in E1. apply andb_prop in E1 as [E1 _]. unfold max_passes in Ba. auto.
Qed.
Print Assumptions C70_batch.
(** ... and while a method of the logger is called, no other thread holds the GIL and the methods are still there. *)
Theorem C70_gil cap n ls s s' e : lrun cap (linit n) ls = Some s -> lstep cap s HCons = Some s' -> l_trace s' = l_trace s ++ [e] ->
  is_msg e || is_warn e = true -> l_gil s = OCons /\ ~ In EClear (l_trace s).
Proof.
  intros H H' Ht He. apply linv_reach in H. destruct H as [i_acc0 i_cap0 i_stopped0 i_end0 i_endev0 i_gil0 i_gils0 i_joined0 i_clear0 i_batch0 i_owed0 i_warns0 i_lit0]. cbn [lstep] in H'. unfold cons_step in H'.
  assert (inbatch (l_cons s) = true /\ l_cons s <> CEnd) as [A B].
  { destruct (l_cons s) as [|m k|m|m k|k| | | |] eqn:Ec; try (split; [reflexivity|discriminate]); exfalso.
    - destruct (l_q s); [destruct (l_stopped s); [|discriminate]|]; injection H' as <-; lc; rewrite ?app_nil_r in Ht.
      + apply app_inv_head in Ht. injection Ht as <-. discriminate.
      + rewrite <- (app_nil_r (l_trace s)) in Ht at 1. apply app_inv_head in Ht. discriminate.
    - destruct k; injection H' as <-; lc; apply app_inv_head in Ht; discriminate.
    - destruct (l_gil s); try discriminate. injection H' as <-; lc. apply app_inv_head in Ht. injection Ht as <-. discriminate.
    - discriminate. }
  split; [now apply i_gil0|]. intro C. specialize (i_clear0 C). rewrite i_clear0 in i_joined0. congruence.
Qed.
Print Assumptions C70_gil.

(** stop() ends: while it has not, some thread can go on (the consumer, the thread that stops, or a thread that holds
    the GIL can release it), the consumer makes at most 8 * (capacity + 2) more steps, and by its end every accepted
    message has been logged. *)
Theorem C70_stop cap n ls s : lrun cap (linit n) ls = Some s -> l_stop s <> SNone ->
  (l_stop s <> SDone -> exists l s', lstep cap s l = Some s' /\ (l = HCons \/ l = HStop \/ l = HTakeS \/ exists p, l = HDrop p)) /\
  (l_stop s <> SReleased -> forall ls' s', lrun cap s ls' = Some s' -> length (filter (fun l => match l with HCons => true | _ => false end) ls') <= 8 * (cap + 2)) /\
  (l_stop s = SDone -> accepted (l_trace s) = logged (l_trace s)).
Proof.
  intros H Hn. apply linv_reach in H. destruct H as [i_acc0 i_cap0 i_stopped0 i_end0 i_endev0 i_gil0 i_gils0 i_joined0 i_clear0 i_batch0 i_owed0 i_warns0 i_lit0]. split; [|split].
  - intro Hd. destruct (l_stop s) eqn:Es; try congruence.
    + exists HStop. cbn [lstep]. unfold stop_step. rewrite Es. eauto.
    + assert (X : (exists s', cons_step s = Some s') \/ l_cons s = CEnd \/ (exists m, l_cons s = CGil m)).
      { unfold cons_step. destruct (l_cons s) as [|m k|m|m k|k| | | |]; eauto.
        - rewrite i_stopped0. destruct (l_q s); eauto.
        - destruct (k <? max_passes); eauto. destruct (l_q s); eauto. destruct (l_stopped s); eauto. }
      destruct X as [(s' & X)|[X|(m & X)]].
      * exists HCons. cbn [lstep]. eauto.
      * exists HStop. cbn [lstep]. unfold stop_step. rewrite Es, X. eauto.
      * destruct (l_gil s) eqn:Eg.
        -- exists HCons. cbn [lstep]. unfold cons_step. rewrite X, Eg. eauto.
        -- destruct i_gil0 as [G _]. specialize (G eq_refl). rewrite X in G. discriminate.
        -- exists (HDrop p). cbn [lstep]. rewrite Eg. cbn [owner_eqb]. rewrite Nat.eqb_refl. eauto 8.
        -- destruct (i_gils0 eq_refl) as [G|[G|G]]; congruence.
    + destruct (l_gil s) eqn:Eg.
      * exists HTakeS. cbn [lstep]. rewrite Es, Eg. cbn [owner_eqb]. eauto 8.
      * destruct i_gil0 as [G _]. specialize (G eq_refl). rewrite i_joined0 in G. discriminate.
      * exists (HDrop p). cbn [lstep]. rewrite Eg. cbn [owner_eqb]. rewrite Nat.eqb_refl. eauto 8.
      * exists HStop. cbn [lstep]. unfold stop_step. rewrite Es, Eg. eauto 8.
  - intros Hr ls' s' H'. assert (Hs : l_stopped s = true) by (rewrite i_stopped0; destruct (l_stop s); congruence).
    pose proof (work_run _ _ _ _ Hs H') as W. change (filter _ ls') with (filter is_cons ls').
    assert (work s <= 8 * (cap + 2)); [|lia]. unfold work. destruct (l_cons s); cbn in i_cap0; lia.
  - intro Hd. rewrite Hd in i_joined0. rewrite i_acc0, i_joined0. destruct (i_end0 i_joined0) as [-> _]. cbn. now rewrite app_nil_r.
Qed.
Print Assumptions C70_stop.

(** ** What does not hold (F40) *)
Definition hello : msg := {| m_level := Info; m_text := "hello" |}.
Definition again : msg := {| m_level := Debug; m_text := "again" |}.
Definition late : msg := {| m_level := Warning; m_text := "late" |}.
(** A dropped message need not be reported while the consumer waits: the thread that lost its message sets the flag only
    after the consumer has emptied the ring and tested it.  All threads are out of their calls, the ring is empty, the
    consumer sleeps, and no warning was given; the next message, if there is one, brings it. *)
Theorem C70_report_refuted : exists ls s, lrun 1 (linit 2) ls = Some s /\ l_prod s = [PIdle; PIdle] /\ l_stop s = SNone /\ l_q s = [] /\
  lstep 1 s HCons = None /\ count is_drop (l_trace s) = 1 /\ count is_warn (l_trace s) = 0.
Proof.
  eexists ([HCall 0 hello; HCall 1 again] ++ repeat HCons 7 ++ [HFlag 1]), _. vm_compute. repeat split.
Qed.
Print Assumptions C70_report_refuted.
(** ... nor at the end: if the ring is stopped before the batch that would have warned ends, the warning is lost
    (the code says so), although every accepted message was logged. *)
Theorem C70_report_end_refuted : exists ls s, lrun 1 (linit 2) ls = Some s /\ l_prod s = [PIdle; PIdle] /\ l_stop s = SDone /\
  logged (l_trace s) = [("info"%string, "hello"%string)] /\ count is_drop (l_trace s) = 1 /\ count is_warn (l_trace s) = 0.
Proof.
  eexists ([HCall 0 hello; HCall 1 again; HFlag 1; HTakeS; HStop; HStop] ++ repeat HCons 5 ++ [HStop; HTakeS; HStop]), _. vm_compute. repeat split.
Qed.
Print Assumptions C70_report_end_refuted.
(** A log call that comes after stop() raises ringbuffer_stopped in the thread that logs: only ringbuffer_full is caught. *)
Theorem C70_no_exception_refuted : exists ls s, lrun 1 (linit 1) ls = Some s /\ In (ECall 0 late Raised) (l_trace s).
Proof.
  eexists [HTakeS; HStop; HStop; HCall 0 late], _. split; [reflexivity|]. cbn. auto.
Qed.
Print Assumptions C70_no_exception_refuted.

(** ** At exit *)
Lemma reset_in x y l : In y (reset x l) -> In y l.
Proof. induction l as [|z l IH]; cbn; auto. destruct (Nat.eqb_spec x z); cbn; tauto. Qed.
Lemma reset_length x l : length (reset x l) <= length l.
Proof. induction l as [|z l IH]; cbn; auto. destruct (Nat.eqb x z); cbn; lia. Qed.
Lemma reset_keep x y l : In y l -> y <> x -> In y (reset x l).
Proof. intros H Hn. induction l as [|z l IH]; cbn in *; [tauto|]. destruct (Nat.eqb_spec x z) as [->|]; destruct H as [->|H]; cbn; auto; congruence. Qed.
Lemma sub_refl l : sublist l l.
Proof. induction l; [apply sub_nil|now apply sub_take]. Qed.
Lemma sub_trans a b c : sublist a b -> sublist b c -> sublist a c.
Proof.
  intros H1 H2. revert a H1. induction H2; intros b' H1.
  - inversion H1. constructor.
  - apply sub_skip. auto.
  - inversion H1; subst; [apply sub_nil|apply sub_skip|apply sub_take]; auto.
Qed.
Lemma sub_reset x l : sublist (reset x l) l.
Proof. induction l as [|z l IH]; cbn; [constructor|]. destruct (Nat.eqb x z); [apply sub_skip, sub_refl|now apply sub_take]. Qed.
Lemma sub_resets xs l : sublist (resets xs l) l.
Proof. revert l. induction xs as [|x xs IH]; intro l; cbn; [apply sub_refl|]. eapply sub_trans; [apply IH|apply sub_reset]. Qed.
Lemma sub_length a l : sublist a l -> length a <= length l.
Proof. induction 1; cbn; lia. Qed.
Lemma sub_in a l x : sublist a l -> In x a -> In x l.
Proof. induction 1; cbn; tauto. Qed.
Lemma sub_nodup a l : sublist a l -> NoDup l -> NoDup a.
Proof.
  induction 1; intro N; [constructor| |]; inversion N; subst; auto. constructor; auto. intro I. eapply sub_in in I; eauto.
Qed.
Lemma resets_keep xs y l : In y l -> ~ In y xs -> In y (resets xs l).
Proof. revert l. induction xs as [|x xs IH]; intros l H Hn; cbn in *; auto. apply IH; [apply reset_keep; auto|tauto]. Qed.
(** The objects in [l], newest first, of which none is registered twice: if no stop function throws, the loop ends with
    the list empty and the logger put back; it stops objects newest first, each at most once, and each object that it
    does not stop was deregistered by one that it stopped. *)
Theorem C70_exit f l : NoDup l -> (forall x, sf_throws (f x) = false) ->
  exists done, run_exit f (length l) l = Some (done, [], true) /\ sublist done l /\ NoDup done /\
    forall x, In x l -> In x done \/ exists y, In y done /\ In x (sf_others (f y)).
Proof.
  intros N Hf. remember (length l) as k eqn:Ek. assert (Hk : length l <= k) by lia. clear Ek. revert l N Hk.
  induction k as [|k IH]; intros l N Hk.
  - destruct l; [|cbn in Hk; lia]. exists []. repeat split; try constructor; cbn; tauto.
  - destruct l as [|x l]; cbn [run_exit].
    { exists []. repeat split; try constructor; cbn; tauto. }
    rewrite Hf. cbn [reset]. rewrite Nat.eqb_refl. inversion N; subst.
    pose proof (sub_resets (sf_others (f x)) l) as Sb. pose proof (sub_length _ _ Sb). cbn in Hk.
    destruct (IH (resets (sf_others (f x)) l)) as (done & E & A & B & C); [eapply sub_nodup; eauto|lia|]. rewrite E.
    exists (x :: done). split; [reflexivity|]. assert (Sd : sublist done l) by (eapply sub_trans; eauto). split; [now apply sub_take|]. split.
    + constructor; auto. intro I. eapply sub_in in I; eauto.
    + intros y [->|Hy]; [left; now left|]. destruct (in_dec Nat.eq_dec y (sf_others (f x))) as [I|I]; [right; exists x; split; [now left|exact I]|].
      destruct (C y) as [D|(z & D1 & D2)]; [now apply resets_keep|left; now right|right; exists z; split; [now right|exact D2]].
Qed.
Print Assumptions C70_exit.
(** A stop function that throws ends the loop: older objects are not stopped and the logger stays in place. *)
Theorem C70_exit_throw_refuted : exists f l, NoDup l /\ exists done rest, run_exit f (length l) l = Some (done, rest, false) /\ exists x, In x rest /\ ~ In x done.
Proof.
  exists (fun x => {| sf_others := []; sf_throws := Nat.eqb x 1 |}), [1; 0]. split; [repeat constructor; cbn; intuition discriminate|].
  exists [1], [0]. split; [reflexivity|]. exists 0. cbn. intuition discriminate.
Qed.
Print Assumptions C70_exit_throw_refuted.

(** ** Examples: a capacity of 2, two threads, three accepted messages, one dropped and reported, then stop *)
Definition ex_ls : list llabel :=
  [HCall 0 hello; HCall 1 again; HTake 0; HCall 0 late; HFlag 0; HDrop 0] ++ repeat HCons 3 ++ [HCall 1 late] ++ repeat HCons 11 ++
  [HTakeS; HStop; HStop] ++ [HCall 1 again] ++ repeat HCons 1 ++ [HStop; HTakeS; HStop].
Example ex_run : exists s, lrun 2 (linit 2) ex_ls = Some s /\ l_stop s = SDone /\
  logged (l_trace s) = [("info", "hello"); ("debug", "again"); ("warning", "late")]%string /\
  count is_drop (l_trace s) = 1 /\ count is_warn (l_trace s) = 1 /\ In EEnd (l_trace s) /\ In (ECall 1 again Raised) (l_trace s).
Proof. eexists. split; [vm_compute; reflexivity|]. vm_compute. repeat split; tauto. Qed.
Example ex_flagged : exists s t1 p t2 t3 t4, lrun 2 (linit 2) ex_ls = Some s /\ l_trace s = t1 ++ EFlag p :: t2 ++ EAcq :: t3 ++ ERel :: t4.
Proof. eexists _, [_; _; _], 0, [], [_; _; _; _; _], [_; _; _; _]. split; vm_compute; reflexivity. Qed.
Example ex_join : exists s, lrun 2 (linit 2) [HCall 0 hello; HTakeS; HStop; HStop; HTake 1] = Some s /\ l_stop s = SJoin /\ nth_error (l_prod s) 0 = Some PIdle.
Proof. eexists. split; [reflexivity|]. split; reflexivity. Qed.
Example ex_exit : run_exit (fun x => {| sf_others := if Nat.eqb x 3 then [1] else []; sf_throws := false |}) 4 [3; 2; 1; 0] = Some ([3; 2; 0], [], true).
Proof. reflexivity. Qed.
