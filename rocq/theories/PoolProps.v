(** C77: the thread pool. *)
From Coq Require Import List Lia Bool Arith.
From Verif Require Import ConcBase PoolModel PoolSpec PoolProofs.
Import ListNotations.

(** Whatever happens: the handlers are started in the order in which they were posted,
    each at most once. *)
Theorem C77_fifo : forall n ls p es, prun (pool_new n) ls [] = Ok p es ->
  NoDup (starts es) /\ posts es = starts es ++ p_q p.
Proof.
  intros n ls p es E. pose proof (prun_inv n _ _ _ _ _ (pinv_new n) E) as I. split; [|exact (i_fifo _ _ _ I)].
  pose proof (seq_NoDup (p_next p) 0) as N. rewrite <- (i_next _ _ _ I), (i_fifo _ _ _ I) in N. clear -N. induction (starts es) as [|a l IH]; [constructor|]. inversion N; subst. constructor; [rewrite in_app_iff in *; tauto|auto].
Qed.
Print Assumptions C77_fifo.

(** When [stop] (or the destructor's) returns, every handler that was started has ended,
    and none is started any more. *)
Theorem C77_stopped : forall n ls p es1 es2, prun (pool_new n) ls [] = Ok p (es1 ++ VStopped :: es2) ->
  length (starts es1) = nends es1 /\ starts es2 = [] /\ nends es2 = 0.
Proof. intros n ls p es1 es2 E. pose proof (prun_inv n _ _ _ _ _ (pinv_new n) E) as I. destruct (i_quiet _ _ _ I _ _ eq_refl) as (A & B & C). auto. Qed.
Print Assumptions C77_stopped.

(** As long as handlers throw only [std::exception]s, nothing is undefined, the program
    is not terminated and [stop] does not throw. *)
Theorem C77_std : forall n ls, std_only ls ->
  prun (pool_new n) ls [] <> Ub /\ prun (pool_new n) ls [] <> Term /\ (forall p es, prun (pool_new n) ls [] = Ok p es -> ~ In VThrew es).
Proof.
  intros n ls H. destruct (tame_run n ls _ [] (pinv_new n) (tame_new n) H) as (A & B & C). split; [exact A|]. split; [exact B|]. intros p es E. apply (proj2 (C _ _ E)). intros [].
Qed.
Print Assumptions C77_std.

(** A pool is served: each handler in the queue gets its turn if the others return, as
    long as fewer handlers threw than there are threads. *)
Lemma serve_one n p es h r : pinv n p es -> p_ph p = PLive -> p_stopped p = false -> throws es < n -> p_q p = h :: r ->
  exists ls p' e, Forall (fun l => worker_step l = true) ls /\ prun p ls es = Ok p' (es ++ e) /\ p_q p' = r /\ p_ph p' = PLive /\ p_stopped p' = false /\ throws e = 0 /\ In h (starts e).
Proof.
  intros I P St T Q. destruct (i_live _ _ _ I St P) as [_ L]. assert (A : 0 < sumw alive1 (p_ws p)) by lia. apply sumw_pos in A as (w & x & W & X). assert (Lw : w < length (p_ws p)) by (apply nth_error_Some; congruence).
  destruct x as [|h'| |]; cbn in X; try lia.
  - exists [LStart w]. do 2 eexists. split; [repeat constructor|]. cbn [prun pstep]. rewrite W, Q, St. split; [reflexivity|]. cbn. repeat split; auto.
  - exists [LFinish w HReturn; LStart w]. do 2 eexists. split; [repeat constructor|]. cbn [prun pstep]. rewrite W. unfold in_stop. rewrite P. unfold set_wk. cbn [p_ws p_q p_stopped p_ph p_next]. rewrite upd_same, Q, St by exact Lw.
    split; [rewrite <- app_assoc; reflexivity|]. cbn. repeat split; auto.
Qed.
Theorem C77_served : forall n ls p es h, prun (pool_new n) ls [] = Ok p es -> p_ph p = PLive -> p_stopped p = false -> throws es < n -> In h (p_q p) ->
  exists ls' p' es', Forall (fun l => worker_step l = true) ls' /\ prun p ls' es = Ok p' es' /\ In h (starts es').
Proof.
  intros n ls p es h E P St T H. assert (I : pinv n p es) by (eapply prun_inv; [apply pinv_new|exact E]). clear E ls. remember (p_q p) as q eqn:Q. revert p es P St T I Q. induction q as [|a q IH]; intros p es P St T I Q; [destruct H|].
  destruct (serve_one n p es a q I P St T (eq_sym Q)) as (ls1 & p1 & e1 & F1 & R1 & Q1 & P1 & S1 & T1 & V1). destruct H as [-> |H].
  - exists ls1, p1, (es ++ e1). split; [exact F1|]. split; [exact R1|]. rewrite starts_app, in_app_iff. auto.
  - destruct (IH H p1 (es ++ e1) P1 S1) as (ls2 & p2 & es2 & F2 & R2 & V2); [rewrite throws_app; lia|eapply prun_inv; eauto|auto|].
    exists (ls1 ++ ls2), p2, es2. split; [apply Forall_app; auto|]. split; [rewrite prun_app, R1; exact R2|exact V2].
Qed.
Print Assumptions C77_served.

(** [stop] from outside of the handlers returns once the running handlers have returned. *)
Theorem C77_stop_returns : forall n ls p es i d, prun (pool_new n) ls [] = Ok p es -> std_only ls -> p_ph p = PJoin i None d ->
  exists ls' p' es', Forall (fun l => join_step l = true) ls' /\ prun p ls' es = Ok p' (es' ++ [VStopped]) /\ p_ph p' = (if d then PGone else PLive).
Proof.
  intros n ls p es i d E H P. assert (I : pinv n p es) by (eapply prun_inv; [apply pinv_new|exact E]). assert (T : tame p) by (destruct (tame_run n ls _ [] (pinv_new n) (tame_new n) H) as (_ & _ & X); exact (proj1 (X _ _ E))).
  clear E H ls. remember (length (p_ws p) - i) as m eqn:M. revert p es i P I T M. induction m as [|m IH]; intros p es i P I T M.
  - assert (W : nth_error (p_ws p) i = None) by (apply nth_error_None; lia). exists [LJoin]. do 2 eexists. split; [repeat constructor|]. cbn [prun pstep]. rewrite P, W. split; [reflexivity|]. reflexivity.
  - assert (Li : i < length (p_ws p)) by lia.
    assert (G : exists ls1 p1 es1, Forall (fun l => join_step l = true) ls1 /\ prun p ls1 es = Ok p1 es1 /\ p_ph p1 = PJoin (S i) None d /\ length (p_ws p1) = length (p_ws p)).
    { assert (St : p_stopped p = true) by (pose proof (i_ph _ _ _ I) as X; unfold phase_ok in X; rewrite P in X; tauto).
      destruct (nth_error (p_ws p) i) as [[|h|o|]|] eqn:W.
      - exists [LLeave i; LJoin]. do 2 eexists. split; [repeat constructor|]. cbn [prun pstep]. rewrite W, St. unfold set_wk. cbn [p_ws p_ph p_q p_stopped p_next]. rewrite P, upd_same by exact Li. split; [reflexivity|]. cbn. split; [reflexivity|]. now rewrite !upd_length.
      - exists [LFinish i HReturn; LLeave i; LJoin]. do 2 eexists. split; [repeat constructor|]. cbn [prun pstep]. rewrite W. unfold in_stop. rewrite P. unfold set_wk. cbn [p_ws p_ph p_q p_stopped p_next]. rewrite upd_same by exact Li. rewrite St. cbn [p_ws p_ph p_q p_stopped p_next]. rewrite P, upd_upd, upd_same by exact Li. split; [reflexivity|]. cbn. split; [reflexivity|]. now rewrite !upd_length.
      - exists [LJoin]. do 2 eexists. split; [repeat constructor|]. cbn [prun pstep]. rewrite P, W. assert (o <> HOther) by (intros ->; now apply (proj1 T i)). destruct o; try congruence; (split; [reflexivity|]; cbn; split; [reflexivity|]; now rewrite upd_length).
      - apply (proj2 T) in W. rewrite P in W. lia.
      - apply nth_error_None in W. lia. }
    destruct G as (ls1 & p1 & es1 & F1 & R1 & P1 & L1).
    assert (H1 : std_only ls1) by (intros w X; rewrite Forall_forall in F1; apply F1 in X; discriminate).
    destruct (IH p1 es1 (S i) P1 (prun_inv n _ _ _ _ _ I R1)) as (ls2 & p2 & es2 & F2 & R2 & P2); [destruct (tame_run n ls1 p es I T H1) as (_ & _ & X); exact (proj1 (X _ _ R1))|lia|].
    exists (ls1 ++ ls2), p2, es2. split; [apply Forall_app; auto|]. split; [rewrite prun_app, R1; exact R2|exact P2].
Qed.
Print Assumptions C77_stop_returns.

(** The constructor creates the threads it was asked for. *)
Theorem C77_built : forall n, 1 <= n -> exists p, prun (pool_new n) (repeat (LSpawn true) n) [] = Ok p [] /\ p_ph p = PLive /\ p_ws p = repeat WIdle n /\ p_stopped p = false.
Proof.
  intros n Hn. unfold pool_new. destruct (Nat.ltb_spec n 1); [lia|].
  assert (G : forall k ws, 0 < k -> exists p, prun {| p_q := []; p_ws := ws; p_stopped := false; p_ph := PBuild k; p_next := 0 |} (repeat (LSpawn true) k) [] = Ok p [] /\ p_ph p = PLive /\ p_ws p = ws ++ repeat WIdle k /\ p_stopped p = false).
  { induction k as [|k IH]; intros ws Hk; [lia|]. cbn [repeat prun pstep p_ph p_ws p_q p_stopped p_next app]. destruct k as [|k].
    - eexists. split; [reflexivity|]. auto.
    - destruct (IH (ws ++ [WIdle]) ltac:(lia)) as (p & R & A & B & C). exists p. split; [exact R|]. split; [exact A|]. split; [|exact C]. rewrite B, <- app_assoc. reflexivity. }
  destruct (G n [] ltac:(lia)) as (p & R). exists p. exact R.
Qed.
Print Assumptions C77_built.

(** F49: if a thread cannot be created, and it is not the first one, the constructor does
    not throw: nothing can happen any more. *)
Theorem C77_construct_refuted : forall n ls p es i, prun (pool_new n) ls [] = Ok p es -> p_ph p = PUnwind i -> p_ws p <> [] ->
  forall l, pstep p l = Blocked.
Proof.
  intros n ls p es i E P N l. pose proof (i_ph _ _ _ (prun_inv n _ _ _ _ _ (pinv_new n) E)) as X. unfold phase_ok in X. rewrite P in X. destruct X as (-> & Q & St & _ & F).
  assert (Id : forall w x, nth_error (p_ws p) w = Some x -> x = WIdle) by (intros w x W; rewrite Forall_forall in F; apply F; eapply nth_error_In; eauto).
  unfold pstep, shared. rewrite P, Q, St. destruct l as [ok| | |w|w o|w|by_| |]; try reflexivity.
  - destruct (nth_error (p_ws p) 0) as [x|] eqn:W; [now rewrite (Id _ _ W)|]. destruct (p_ws p); [congruence|discriminate].
  - destruct (nth_error (p_ws p) w) as [x|]; [now destruct x|reflexivity].
  - destruct (nth_error (p_ws p) w) as [x|] eqn:W; [now rewrite (Id _ _ W)|reflexivity].
  - destruct (nth_error (p_ws p) w) as [x|]; [now destruct x|reflexivity].
Qed.
Print Assumptions C77_construct_refuted.

(** F50: an exception that is no [std::exception], thrown by a handler, ends the program
    when the pool is destroyed, whatever the number of threads; if [stop] was called before,
    it throws, and the destructor then uses a future without state. *)
Theorem C77_exception_refuted : forall n, 1 <= n -> exists ls p es,
  prun (pool_new n) ls [] = Ok p es /\ throws es = 1 /\ p_ph p = PLive /\ prun p [LDestroy; LJoin] es = Term /\
  prun p [LStop None; LJoin; LDestroy; LJoin] es = Ub.
Proof.
  intros n Hn. destruct (C77_built n Hn) as (p & R & P & W & St). pose proof (prun_inv n _ _ _ _ _ (pinv_new n) R) as I. assert (Q : p_q p = []) by (pose proof (i_fifo _ _ _ I) as X; now destruct (p_q p)).
  destruct n as [|n]; [lia|]. destruct p as [q ws st ph nx]. cbn [p_ph p_ws p_stopped p_q] in P, W, St, Q. subst. cbn [repeat] in *.
  exists ((LSpawn true :: repeat (LSpawn true) n) ++ [LPost; LStart 0; LFinish 0 HOther]). do 2 eexists. rewrite prun_app, R. cbn. repeat split.
Qed.
Print Assumptions C77_exception_refuted.

(** A pool dies when as many handlers threw as there are threads: nothing is run any
    more, in all continuations (the code logs "expect deadlocks!"). *)
Lemma dead_run ls : forall p es p' es', sumw alive1 (p_ws p) = 0 -> (forall k, p_ph p <> PBuild k) -> prun p ls es = Ok p' es' -> starts es' = starts es.
Proof.
  induction ls as [|l ls IH]; intros p es p' es' A B E; cbn [prun] in E; [now injection E as _ <-|]. destruct (pstep p l) as [| | |p1 e] eqn:S; try discriminate.
  assert (D : forall w x, nth_error (p_ws p) w = Some x -> alive1 x = 0) by (intros w x W; pose proof (sumw_ge alive1 _ _ _ W); lia).
  assert (U : forall w x y, nth_error (p_ws p) w = Some x -> alive1 y = 0 -> sumw alive1 (upd (p_ws p) w y) = 0) by (intros w x y W Y; pose proof (sumw_upd alive1 _ _ _ y W); specialize (D _ _ W); lia).
  assert (G : sumw alive1 (p_ws p1) = 0 /\ (forall k, p_ph p1 <> PBuild k) /\ starts e = []).
  { unfold pstep in S. destruct l as [ok| | |w|w o|w|by_| |].
    - destruct (p_ph p) as [[|k]| | | | |] eqn:P; try discriminate. now elim (B (Datatypes.S k)).
    - destruct (p_ph p) as [|i| | | |] eqn:P; try discriminate. destruct (nth_error (p_ws p) i) as [[| | |]|]; try discriminate; injection S as <- <-; unfold set_ph; cbn [p_ws p_ph]; (split; [exact A|]; split; [discriminate|reflexivity]).
    - destruct (shared p); [|discriminate]. injection S as <- <-. cbn [p_ws p_ph]. auto.
    - destruct (nth_error (p_ws p) w) as [[| | |]|] eqn:W; try discriminate. apply D in W. discriminate.
    - destruct (nth_error (p_ws p) w) as [[| | |]|] eqn:W; try discriminate. apply D in W. discriminate.
    - destruct (nth_error (p_ws p) w) as [[| | |]|] eqn:W; try discriminate. apply D in W. discriminate.
    - destruct (p_ph p); try discriminate. destruct (match by_ with Some w => _ | None => _ end); [|discriminate]. injection S as <- <-. unfold begin_stop. cbn [p_ws p_ph]. split; [exact A|]. split; [discriminate|reflexivity].
    - destruct (p_ph p); try discriminate. injection S as <- <-. unfold begin_stop. cbn [p_ws p_ph]. split; [exact A|]. split; [discriminate|reflexivity].
    - destruct (p_ph p) as [| | | |i by_ d|] eqn:P; try discriminate. destruct (nth_error (p_ws p) i) as [[| |[| |]|]|] eqn:W; try discriminate; try (destruct d; try discriminate); injection S as <- <-;
        unfold set_ph, set_wk; cbn [p_ws p_ph]; (split; [first [reflexivity | exact (U _ _ WGot W eq_refl)]|]; split; [discriminate|reflexivity]). }
  destruct G as (G1 & G2 & G3). rewrite (IH _ _ _ _ G1 G2 E), starts_app, G3, app_nil_r. reflexivity.
Qed.
Theorem C77_dead_refuted : forall n ls p es, prun (pool_new n) ls [] = Ok p es -> p_ph p = PLive -> p_stopped p = false -> throws es = n ->
  forall ls' p' es', prun p ls' es = Ok p' es' -> starts es' = starts es.
Proof.
  intros n ls p es E P St T ls' p' es' E'. destruct (i_live _ _ _ (prun_inv n _ _ _ _ _ (pinv_new n) E) St P) as [_ A]. eapply dead_run; [|rewrite P; discriminate|exact E']. lia.
Qed.
Print Assumptions C77_dead_refuted.

(** [stop] called by a handler never returns. *)
Theorem C77_self_refuted : forall n ls p es i w d, prun (pool_new n) ls [] = Ok p es -> std_only ls -> p_ph p = PJoin i (Some w) d ->
  forall ls' p' es', std_only ls' -> prun p ls' es = Ok p' es' -> (exists i', p_ph p' = PJoin i' (Some w) d) /\ forall es2, es' = es ++ es2 -> ~ In VStopped es2.
Proof.
  intros n ls p es i w d E H P ls'. assert (I : pinv n p es) by (eapply prun_inv; [apply pinv_new|exact E]). assert (T : tame p) by (destruct (tame_run n ls _ [] (pinv_new n) (tame_new n) H) as (_ & _ & X); exact (proj1 (X _ _ E))).
  clear E H ls. revert p es i P I T. induction ls' as [|l ls IH]; intros p es i P I T p' es' H E.
  - injection E as <- <-. split; [eauto|]. intros es2 X. rewrite <- (app_nil_r es) in X at 1. apply app_inv_head in X as <-. intros [].
  - cbn [prun] in E. destruct (pstep p l) as [| | |p1 e] eqn:S; try discriminate.
    assert (Hl : forall w, l <> LFinish w HOther) by (intros w' ->; apply (H w'); now left). assert (Hr : std_only ls) by (intros w' X; apply (H w'); now right).
    destruct (tame_step n p es l I T Hl) as (_ & _ & C). destruct (C _ _ S) as [T1 _]. pose proof (pinv_step _ _ _ _ _ _ I S) as I1.
    assert (G : (exists i', p_ph p1 = PJoin i' (Some w) d) /\ ~ In VStopped e).
    { pose proof (i_ph _ _ _ I) as X. unfold phase_ok in X. rewrite P in X. destruct X as (St & Lo & (h & Bw)). unfold pstep in S. rewrite P in S. destruct l as [ok| | |w'|w' o|w'|by_| |]; try discriminate.
      - unfold shared in S. rewrite P in S. injection S as <- <-. cbn [p_ph]. split; [eauto|]. intros [|[]]; discriminate.
      - rewrite St in S. destruct (nth_error (p_ws p) w') as [[| | |]|]; try discriminate. destruct (p_q p); discriminate.
      - destruct (nth_error (p_ws p) w') as [[| | |]|]; try discriminate. destruct (in_stop p w'); [discriminate|]. injection S as <- <-. unfold set_wk. cbn [p_ph]. split; [eauto|]. intros [|[]]; discriminate.
      - destruct (nth_error (p_ws p) w') as [[| | |]|]; try discriminate. rewrite St in S. injection S as <- <-. unfold set_wk. cbn [p_ph]. split; [eauto|]. intros [].
      - destruct (nth_error (p_ws p) i) as [[| |[| |]|]|] eqn:W; try discriminate.
        + injection S as <- <-. cbn. split; [eauto|]. intros [].
        + injection S as <- <-. cbn. split; [eauto|]. intros [].
        + now apply (proj1 T) in W.
        + apply nth_error_None in W. assert (w < length (p_ws p)) by (apply nth_error_Some; congruence). rewrite Lo in Bw by lia. discriminate. }
    destruct G as [(i1 & P1) V]. destruct (IH p1 (es ++ e) i1 P1 I1 T1 p' es' Hr E) as [A B]. split; [exact A|]. intros es2 X.
    destruct (prun_events _ _ _ _ _ E) as (new & N). specialize (B new N). rewrite N, <- app_assoc in X. apply app_inv_head in X as <-. rewrite in_app_iff. tauto.
Qed.
Print Assumptions C77_self_refuted.

(** Two threads; three handlers, of which the second throws; [stop] while the third
    runs. *)
Definition ex_labels : list plab := [LSpawn true; LSpawn true; LPost; LPost; LPost; LStart 1; LStart 0; LFinish 0 HStd; LFinish 1 HReturn].
Definition ex_get (r : pres) : pool * list pev := match r with Ok p es => (p, es) | _ => (pool_new 0, []) end.
Definition ex_mid : pool * list pev := Eval vm_compute in ex_get (prun (pool_new 2) ex_labels []).
Definition ex_stop : list plab := Eval vm_compute in ex_labels ++ [LStart 1; LPost; LStop None; LJoin].
Definition ex_join : pool * list pev := Eval vm_compute in ex_get (prun (pool_new 2) ex_stop []).
Definition ex_end : pool * list pev := Eval vm_compute in ex_get (prun (fst ex_join) [LFinish 1 HReturn; LLeave 1; LJoin; LJoin; LPost; LDestroy; LJoin] (snd ex_join)).
Example C77_ex : std_only ex_stop /\
  prun (pool_new 2) ex_labels [] = Ok (fst ex_mid) (snd ex_mid) /\ p_ph (fst ex_mid) = PLive /\ p_stopped (fst ex_mid) = false /\ throws (snd ex_mid) = 1 /\ p_q (fst ex_mid) = [2] /\
  prun (pool_new 2) ex_stop [] = Ok (fst ex_join) (snd ex_join) /\ p_ph (fst ex_join) = PJoin 1 None false /\
  prun (fst ex_join) [LFinish 1 HReturn; LLeave 1; LJoin; LJoin; LPost; LDestroy; LJoin] (snd ex_join) = Ok (fst ex_end) (snd ex_end) /\
  snd ex_end = snd ex_join ++ VEnd 1 2 HReturn :: VStopped :: [VPost 4; VStopped] /\ p_ph (fst ex_end) = PGone /\ p_q (fst ex_end) = [3; 4].
Proof.
  split; [intros w X; cbn in X; repeat (destruct X as [X|X]; [discriminate|]); destruct X|]. repeat split; vm_compute; reflexivity.
Qed.
Example C77_construct_ex : exists p es, prun (pool_new 3) [LSpawn true; LSpawn true; LSpawn false] [] = Ok p es /\ p_ph p = PUnwind 0 /\ p_ws p <> [] /\
  exists p', prun (pool_new 3) [LSpawn false; LUnwind] [] = Ok p' [] /\ p_ph p' = PThrown.
Proof. do 2 eexists. split; [vm_compute; reflexivity|]. split; [reflexivity|]. split; [discriminate|]. eexists. split; [vm_compute; reflexivity|reflexivity]. Qed.
Example C77_dead_ex : exists p es, prun (pool_new 1) [LSpawn true; LPost; LPost; LStart 0; LFinish 0 HStd] [] = Ok p es /\ p_ph p = PLive /\ p_stopped p = false /\ throws es = 1 /\ p_q p = [1].
Proof. do 2 eexists. split; [vm_compute; reflexivity|]. repeat split. Qed.
Example C77_self_ex : exists p es, prun (pool_new 2) [LSpawn true; LSpawn true; LPost; LStart 1; LStop (Some 1); LLeave 0; LJoin] [] = Ok p es /\ p_ph p = PJoin 1 (Some 1) false /\ pstep p LJoin = Blocked.
Proof. do 2 eexists. split; [vm_compute; reflexivity|]. split; reflexivity. Qed.
