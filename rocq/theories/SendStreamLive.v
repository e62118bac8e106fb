(** C36, continued: from every reachable state the writer and the transport can
    finish everything that has been accepted, without the help of any user. *)
From Coq Require Import ZArith List Bool Lia Permutation Arith.
From Verif Require Import Base ConcBase SendStreamModel SendStreamSpec SendStreamBase SendStreamProofs SendStreamProofs2 SendStreamProofs3 SendStreamProofs4 SendStreamProps.
Import ListNotations.
Open Scope Z_scope.

Definition load (gs : list mgroup) : nat := 2 * length (left_of gs) + outs gs.
Definition waiting (p : upc) : nat := match p with UFlush false => 1%nat | _ => O end.
Definition phase (p : wpc) : nat := match p with WIdle => 0 | WRun => 3 | WDone _ _ _ => 7 end.
Definition measure (s : sst) (m : smon) : nat :=
  20 * load (sm_groups m) + 20 * length (sm_groups m) + 20 * sumw waiting (s_threads s)
  + 10 * w_fin (s_w s) + 5 * pc_n (w_pc (s_w s)) + phase (w_pc (s_w s)) + 9 * s_posted s + 10 * sumw wakew (s_threads s).

(** Labels of the writer, of the transport and of a user thread that is about to post a wakeup. *)
Definition quiet (e : list sev) : Prop := accepted_ids e = [] /\ rejections e = [] /\ Forall (fun x => match x with EFlushCall _ | ESetSeq _ _ => False | _ => True end) e.

Lemma good_step s m l s' e : sinv s m -> s_step_fn s l = Ok s' e -> (forall id err k, In (EReject id err k) e -> k = O) ->
  exists m', smon_run (s_nsub s) m e = Some m' /\ sinv s' m' /\ s_nsub s' = s_nsub s /\ s_size s' = s_size s.
Proof. intros I E C. pose proof (step_good s m l I) as G. rewrite E in G. cbn [good] in G. now apply G. Qed.

Definition goes_on (s : sst) (m : smon) : Prop :=
  exists l s' e m', s_step_fn s l = Ok s' e /\ smon_run (s_nsub s) m e = Some m' /\ sinv s' m' /\ s_nsub s' = s_nsub s /\ (measure s' m' < measure s m)%nat /\ quiet e.

Lemma quiet_nil : quiet []. Proof. repeat split; constructor. Qed.
Lemma step_silent s m l s' : sinv s m -> s_step_fn s l = Ok s' [] -> (measure s' m < measure s m)%nat -> goes_on s m.
Proof.
  intros I E M. destruct (good_step s m l s' [] I E) as (m' & M1 & M2 & M3 & _); [intros ? ? ? []|]. injection M1 as <-. exists l, s', [], m. repeat split; auto.
Qed.

Lemma get_packet_ok s s' e : get_packet s = Ok s' e ->
  (w_active (s_w s) = (if w_active (s_w s) =? w_tail (s_w s) then s_tail s else w_tail (s_w s)) /\ e = [])
  \/ (exists p sub last, e = [EPacket p sub last]) /\ w_fin (s_w s') = w_fin (s_w s) /\ w_pc (s_w s') = w_pc (s_w s) /\ s_posted s' = s_posted s /\ s_threads s' = s_threads s.
Proof.
  unfold get_packet. cbv zeta. destruct (Z.eqb_spec (w_active (s_w s)) (if w_active (s_w s) =? w_tail (s_w s) then s_tail s else w_tail (s_w s))) as [E|E]; [intros [= <- <-]; left; auto|].
  destruct (get_queue _ _ (w_active (s_w s))) as [q|]; [|discriminate]. destruct (q_pkts q) as [|p l]; [discriminate|]. destruct (get_queue _ _ (w_start (s_w s))); [|discriminate].
  destruct (match q_mode q with RoundRobin => _ | Serial => _ end) as [[next|]|]; [| |discriminate]; intros [= <- <-]; right; cbn [s_w s_posted s_threads set_writer set_slots w_fin w_pc]; eauto 10.
Qed.

Lemma progress s m : sinv s m -> sm_groups m <> [] \/ (0 < sumw waiting (s_threads s))%nat -> goes_on s m.
Proof.
  intros SI W. pose proof SI as (p & h & gF & gI & gM & gN & pend & [Q L T Mi [K1 K2]]). destruct Mi as [M1 M2 _ _ _].
  destruct (sumw wakew (s_threads s)) as [|kw] eqn:KW.
  2:{ assert (P : (0 < sumw wakew (s_threads s))%nat) by lia. apply sumw_pos in P as (t & q & P1 & P2). assert (q = UWake) by (destruct q; cbn [wakew] in P2; try lia; reflexivity). subst q.
      eapply (step_silent s m (LUser t)); [exact SI|cbn [s_step_fn]; unfold user_step; rewrite P1; reflexivity|].
      unfold measure. cbn [s_w s_threads s_posted set_thread set_posted]. pose proof (sumw_upd wakew (s_threads s) t _ UIdle P1) as U1. pose proof (sumw_upd waiting (s_threads s) t _ UIdle P1) as U2. cbn [wakew waiting] in *. lia. }
  destruct (s_posted s) as [|np] eqn:PO.
  2:{ destruct (w_pc (s_w s)) as [| |n hs ws] eqn:PC; cbn [busy] in K1; try lia.
      eapply (step_silent s m LStart); [exact SI|cbn [s_step_fn]; rewrite PO, PC; reflexivity|].
      unfold measure. cbn [s_w s_threads s_posted set_writer set_posted w_fin w_pc pc_n phase]. rewrite PC, PO. cbn [pc_n phase]. lia. }
  destruct (s_need s) eqn:ND.
  { exfalso. specialize (K2 eq_refl). destruct (w_pc (s_w s)) as [| |n hs ws] eqn:PC; cbn [busy] in K1; try lia. rewrite K2 in *. cbn [pc_hs map app] in M1. rewrite M1 in W. destruct W as [W|W]; [congruence|].
    apply sumw_pos in W as (t & q & P1 & P2). pose proof (ti_occ _ _ _ _ _ T t) as TO.  cbn [waits flat_map pc_ws] in TO. unfold occ in TO. cbn [sumw] in TO. unfold flushing in TO. rewrite P1 in TO.
    destruct q; cbn [waiting] in P2; try lia. }
  destruct (w_pc (s_w s)) as [| |n hs ws] eqn:PC; cbn [busy] in K1; [lia| |].
  - (* running *)
    destruct (w_flight (s_w s)) as [|[i lst] fl] eqn:FL.
    + destruct (w_fin (s_w s)) as [|nf] eqn:FI.
      * pose proof Q as [Qp Qm Qs Qc Qcap Qh Qt Qok QF QI QM QN Qst Qa Qw Qf Qfi Qe]. rewrite FI, PC in Qfi. cbn [pc_n] in Qfi. destruct gF; [|discriminate]. cbn [app] in *.
        assert (gI = []).
        { destruct gI as [|g gI]; [reflexivity|exfalso]. inversion QI as [|? ? [_ O] _]; subst. rewrite FL in Qf. cbn [app flights] in Qf. unfold gflight in Qf. destruct (ag_out g) as [|k]; [lia|].
          symmetry in Qf. apply app_eq_nil in Qf as [Qf _]. apply app_eq_nil in Qf as [_ Qf]. discriminate. }
        subst gI. cbn [app] in *. assert (NE : gM ++ gN <> []).
        { intro E. cbn [pc_hs map app] in M1. rewrite E in M1. cbn [map] in M1. rewrite M1 in W. destruct W as [W|W]; [congruence|].
          apply sumw_pos in W as (t & q & P1 & P2). pose proof (ti_occ _ _ _ _ _ T t) as TO. rewrite E in TO. cbn [waits flat_map pc_ws] in TO. unfold occ in TO. cbn [sumw] in TO. unfold flushing in TO. rewrite P1 in TO.
          destruct q; cbn [waiting] in P2; try lia. }
        pose proof (step_good s m LGet SI) as G. cbn [s_step_fn] in G. rewrite PC in G. destruct (get_packet s) as [| |s' e] eqn:GP; [|destruct G|].
        { exfalso. clear - GP. unfold get_packet in GP. cbv zeta in GP. destruct (w_active (s_w s) =? _); [discriminate|]. destruct (get_queue _ _ (w_active (s_w s))) as [q|]; [|discriminate]. destruct (q_pkts q); [discriminate|].
          destruct (get_queue _ _ (w_start (s_w s))); [|discriminate]. destruct (match q_mode q with RoundRobin => _ | Serial => _ end) as [[]|]; discriminate. }
        destruct (get_packet_ok s s' e GP) as [[E _]|((pk & sub & last & ->) & F1 & F2 & F3 & F4)].
        { exfalso. destruct gM as [|g0 gU].
          - cbn [app act_of] in *. rewrite Z.add_0_r in Qa. rewrite Qa, Qw, glen_nil, Z.eqb_refl, Qt, Z.add_0_r in E. pose proof (pow_63 p Qp). pose proof (glen_nonneg gN). apply w64_inj in E; [|lia].
            apply NE. apply (gs_nil h); [exact Qok|lia].
          - assert (NA : w_active (s_w s) <> w_tail (s_w s)).
            { destruct QM as [[R0 _] _]. apply nth_ready_lt in R0. cbn [act_of] in Qa. rewrite Qa, Qw. intro X. pose proof (pow_63 p Qp).
              rewrite !glen_app, !glen_cons in *. rewrite glen_nil in *. pose proof (glen_nonneg gN). pose proof (glen_nonneg gU). apply w64_inj in X; lia. }
            destruct (Z.eqb_spec (w_active (s_w s)) (w_tail (s_w s))) as [X|X]; [contradiction|]. contradiction. }
        cbn [good] in G. destruct G as (m' & G1 & G2 & G3 & _); [intros ? ? ? [X|[]]; discriminate|]. exists LGet, s', [EPacket pk sub last], m'. cbn [s_step_fn]. rewrite PC.
        split; [exact GP|]. split; [exact G1|]. split; [exact G2|]. split; [exact G3|]. split; [|repeat split; repeat constructor].
        cbn [smon_run smon_step] in G1. destruct (on_packet (sm_groups m) (pk, sub) last) as [gs|] eqn:OP; [|discriminate]. injection G1 as <-. pose proof (on_packet_ids _ _ _ _ OP) as OI. apply (f_equal (@length _)) in OI.
        rewrite !map_length in OI. destruct (on_packet_left _ _ _ _ OP) as [OL OO]. unfold measure, load. cbn [sm_groups]. rewrite F1, F2, F3, F4, OL, OO, OI. cbn [length]. lia.
      * pose proof (step_good s m (LComplete (S nf)) SI) as G. cbn [s_step_fn] in G. rewrite PC, FI in G. cbn [Nat.ltb Nat.leb andb] in G. rewrite Nat.leb_refl in G. unfold batch_step in G.
        match type of G with good _ _ (match ?v with _ => _ end) => destruct v as [[[[sl' head'] hs'] ws']|] eqn:V; [|destruct G] end.
        eapply (step_silent s m (LComplete (S nf))); [exact SI|cbn [s_step_fn]; rewrite PC, FI; cbn [Nat.ltb Nat.leb andb]; rewrite Nat.leb_refl; unfold batch_step; rewrite V; reflexivity|].
        unfold measure. cbn [s_w s_threads s_posted set_writer set_head set_slots set_wpc w_fin w_pc pc_n phase]. rewrite PC, FI. cbn [pc_n phase]. pose proof (Nat.le_min_r max_batch (S nf)).
        assert (1 <= Nat.min max_batch (S nf))%nat by (apply Nat.min_glb; unfold max_batch; lia). lia.
    + pose proof (step_good s m (LWritten 0 0) SI) as G. cbn [s_step_fn] in G. rewrite PC, FL in G. destruct (get_queue (s_mask s) (s_slots s) i) as [q|] eqn:GQ; [|destruct G].
      cbn [good] in G. destruct G as (m' & G1 & G2 & G3 & _); [intros ? ? ? [X|[]]; discriminate|].
      exists (LWritten 0 0). eexists. exists [EWritten 0 0 lst], m'. cbn [s_step_fn]. rewrite PC, FL, GQ. split; [reflexivity|]. split; [exact G1|]. split; [exact G2|]. split; [exact G3|]. split; [|repeat split; repeat constructor].
      cbn [smon_run smon_step] in G1. destruct (on_written (sm_groups m) 0 0 lst) as [gs|] eqn:OP; [|discriminate]. injection G1 as <-. pose proof (on_written_ids _ _ _ _ _ OP) as OI. apply (f_equal (@length _)) in OI.
      rewrite !map_length in OI. destruct (on_written_left _ _ _ _ _ OP) as [OL OO]. unfold measure, load. cbn [sm_groups s_w s_threads s_posted set_writer set_slots w_fin w_pc pc_n phase]. rewrite PC, OL, OO, OI. cbn [pc_n phase].
      destruct lst; lia.
  - (* completing *)
    pose proof (step_good s m LNext SI) as G. cbn [s_step_fn] in G. unfold complete_step in G. rewrite PC in G. destruct hs as [|[[id r] b] hs].
    + destruct ws as [|t ws].
      * destruct n as [|n].
        -- eapply (step_silent s m LNext); [exact SI|cbn [s_step_fn]; unfold complete_step; rewrite PC; reflexivity|].
           unfold measure. cbn [s_w s_threads s_posted set_writer set_wpc w_fin w_pc pc_n phase]. rewrite PC. cbn [pc_n phase]. lia.
        -- unfold batch_step in G. match type of G with good _ _ (match ?v with _ => _ end) => destruct v as [[[[sl' head'] hs'] ws']|] eqn:V; [|destruct G] end.
           eapply (step_silent s m LNext); [exact SI|cbn [s_step_fn]; unfold complete_step; rewrite PC; unfold batch_step; rewrite V; reflexivity|].
           unfold measure. cbn [s_w s_threads s_posted set_writer set_head set_slots set_wpc w_fin w_pc pc_n phase]. rewrite PC. cbn [pc_n phase]. pose proof (Nat.le_min_r max_batch (S n)).
           assert (1 <= Nat.min max_batch (S n))%nat by (apply Nat.min_glb; unfold max_batch; lia). lia.
      * pose proof (ti_occ _ _ _ _ _ T t) as TO. cbn [pc_ws] in TO. unfold occ in TO at 2. cbn [sumw] in TO. rewrite Nat.eqb_refl in TO.
        unfold flushing in TO. destruct (nth_error (s_threads s) t) as [q|] eqn:Ht; [|lia]. assert (Q0 : q = UFlush false) by (destruct q; try lia; destruct signalled; [lia|reflexivity]). subst q.
        eapply (step_silent s m LNext); [exact SI|cbn [s_step_fn]; unfold complete_step; rewrite PC, Ht; destruct n; reflexivity|].
        unfold measure. cbn [s_w s_threads s_posted set_thread set_writer set_wpc w_fin w_pc pc_n phase signal]. rewrite PC. cbn [pc_n phase].
        pose proof (sumw_upd wakew (s_threads s) t _ (UFlush true) Ht) as U1. pose proof (sumw_upd waiting (s_threads s) t _ (UFlush true) Ht) as U2. cbn [wakew waiting] in *. lia.
    + assert (G' : good s m (Ok (set_writer s (set_wpc (s_w s) (WDone n hs ws))) [EDone id r b])) by (destruct n; exact G). clear G. cbn [good] in G'.
      destruct G' as (m' & G1 & G2 & G3 & _); [intros ? ? ? [X|[]]; discriminate|]. exists LNext. eexists. exists [EDone id r b], m'. cbn [s_step_fn]. unfold complete_step. rewrite PC.
      split; [destruct n; reflexivity|]. split; [exact G1|]. split; [exact G2|]. split; [exact G3|]. split; [|repeat split; repeat constructor].
      cbn [smon_run smon_step] in G1. destruct (sm_groups m) as [|g gs] eqn:GM; [discriminate|]. destruct (sent g && _ && _ && _); [|discriminate]. injection G1 as <-.
      unfold measure, load, left_of, outs. rewrite GM. cbn [sm_groups s_w s_threads s_posted set_writer set_wpc w_fin w_pc pc_n phase flat_map sumw length]. rewrite PC, app_length. cbn [pc_n phase]. lia.
Qed.

(** Everything accepted can be finished from any reachable state. *)
Lemma finish : forall k s m, (measure s m <= k)%nat -> sinv s m -> exists s' e m', s_reach s s' e /\ smon_run (s_nsub s) m e = Some m' /\ sinv s' m' /\ s_nsub s' = s_nsub s
  /\ sm_groups m' = [] /\ sumw waiting (s_threads s') = O /\ quiet e.
Proof.
  assert (DONE : forall s m, sinv s m -> {sm_groups m = [] /\ sumw waiting (s_threads s) = O} + {sm_groups m <> [] \/ (0 < sumw waiting (s_threads s))%nat}).
  { intros s m _. destruct (sm_groups m); [|right; left; discriminate]. destruct (sumw waiting (s_threads s)); [left; auto|right; right; lia]. }
  assert (REACH : forall s l s1 e1 s2 e2, s_step_fn s l = Ok s1 e1 -> s_reach s1 s2 e2 -> s_reach s s2 (e1 ++ e2)).
  { intros s l s1 e1 s2 e2 E R. induction R as [|s2 tr l2 s3 e3 R IH E3]; [rewrite app_nil_r; change e1 with ([] ++ e1); eapply sr_step; [constructor|exact E]|rewrite app_assoc; eapply sr_step; eauto]. }
  induction k as [|k IH]; intros s m Hk I; (destruct (DONE s m I) as [[D1 D2]|D]; [exists s, [], m; repeat split; auto; constructor|]);
    destruct (progress s m I D) as (l & s1 & e1 & m1 & P1 & P2 & P3 & P4 & P5 & P6); [lia|].
  destruct (IH s1 m1 ltac:(lia) P3) as (s' & e & m' & R1 & R2 & R3 & R4 & R5 & R6 & R7). exists s', (e1 ++ e), m'. split; [eapply REACH; eauto|]. split; [rewrite smon_run_app, P2, <- P4; exact R2|].
  split; [exact R3|]. split; [congruence|]. split; [exact R5|]. split; [exact R6|]. destruct P6 as (A1 & A2 & A3), R7 as (B1 & B2 & B3). split; [|split].
  - rewrite accepted_ids_app, A1, B1. reflexivity.
  - clear - A2 B2. induction e1 as [|x l IH]; [exact B2|]. destruct x; cbn [rejections app] in *; try discriminate; auto.
  - apply Forall_app. auto.
Qed.

Lemma s_reach_trans s0 s1 tr1 s2 tr2 : s_reach s0 s1 tr1 -> s_reach s1 s2 tr2 -> s_reach s0 s2 (tr1 ++ tr2).
Proof. intros R1 R2. induction R2 as [|s2 tr l s3 e R2 IH E]; [now rewrite app_nil_r|rewrite app_assoc; eapply sr_step; eauto]. Qed.

(** No deadlock: whatever the state, the handlers of all accepted requests can
    still be called, and all callers of flush() released, by steps of the writer
    and of the transport only (no new requests or calls take part). *)
Theorem C36_can_finish_partial size nsub n s tr : 1 <= size <= 2 ^ 63 -> s_reach (stream_new size nsub n) s tr -> clean tr ->
  exists s' tr', s_reach s s' tr' /\ quiet tr' /\ done_ids (tr ++ tr') = accepted_ids tr /\ forall t, nth_error (s_threads s') t <> Some (UFlush false).
Proof.
  intros H R C. destruct (sinv_reach size nsub n s tr H R C) as (m & M & I & N & _). destruct (finish (measure s m) s m (Nat.le_refl _) I) as (s' & e & m' & R1 & R2 & R3 & R4 & R5 & R6 & R7).
  exists s', e. split; [exact R1|]. split; [exact R7|]. split.
  - assert (RM : smon_run nsub smon0 (tr ++ e) = Some m') by (rewrite smon_run_app, M, <- N; exact R2). pose proof (mon_order nsub _ _ _ RM) as O. rewrite R5 in O. cbn [smon0 sm_groups map app] in O.
    rewrite app_nil_r, accepted_ids_app, (proj1 R7), app_nil_r in O. congruence.
  - intros t Ht. pose proof (sumw_ge waiting _ t _ Ht) as G. cbn [waiting] in G. lia.
Qed.

(** *** Requests of single heaps *)
(** Executions in which every request is for one heap, as made by
    async_send_heap, are clean: none of the restrictions above concern them. *)
Inductive s_reach1 (s0 : sst) : sst -> list sev -> Prop :=
| sr1_init : s_reach1 s0 s0 []
| sr1_step s tr l s' e : s_reach1 s0 s tr -> match l with LSend _ rq => (length (rq_heaps rq) <= 1)%nat | _ => True end -> s_step_fn s l = Ok s' e -> s_reach1 s0 s' (tr ++ e).
Lemma s_reach1_reach s0 s tr : s_reach1 s0 s tr -> s_reach s0 s tr.
Proof. intro R. induction R; [constructor|eapply sr_step; eauto]. Qed.

Definition adds (p : upc) : Prop := match p with UAdd rq todo _ _ _ _ added => (length todo + length added <= 1)%nat | _ => True end.
Lemma Forall_nth {A} (P : A -> Prop) l t x : Forall P l -> nth_error l t = Some x -> P x.
Proof. intros F H. apply nth_error_In in H. rewrite Forall_forall in F. auto. Qed.
Lemma adds_step s l s' e : Forall adds (s_threads s) -> match l with LSend _ rq => (length (rq_heaps rq) <= 1)%nat | _ => True end -> s_step_fn s l = Ok s' e ->
  Forall adds (s_threads s') /\ clean e.
Proof.
  intros F S E. assert (C0 : clean []) by (intros ? ? ? []). destruct l; cbn [s_step_fn] in E.
  - destruct (nth_error (s_threads s) t) as [[]|] eqn:Ht; try discriminate. destruct (negb (request_ok rq)); [discriminate|]. destruct (rq_heaps rq) as [|hp hps] eqn:RH.
    + injection E as <- <-. split; [exact F|]. intros ? ? ? [X|[]]. congruence.
    + destruct (s_lock s); [discriminate|]. injection E as <- <-. split; [|exact C0]. cbn [s_threads set_thread set_lock]. apply Forall_upd; [exact F|]. cbn [adds length] in *. lia.
  - unfold user_step in E. destruct (nth_error (s_threads s) t) as [q|] eqn:Ht; [|discriminate]. pose proof (Forall_nth _ _ _ _ F Ht) as A. destruct q; try discriminate.
    + destruct todo as [|hp todo].
      * unfold user_commit in E. destruct (get_queue _ _ _) as [q|]; [|discriminate]. destruct (if tail =? _ then _ else _) as [sl2|]; [|discriminate]. injection E as <- <-.
        split; [|intros ? ? ? [X|[]]; discriminate]. cbn [s_threads set_thread set_lock set_need set_tail set_seq set_slots]. apply Forall_upd; [exact F|]. destruct (s_need s); exact Logic.I.
      * cbn [adds length] in A. assert (AD : added = []) by (destruct added; [reflexivity|cbn [length] in A; lia]). subst added. unfold user_add in E.
        assert (RJ : forall err ab, match (if ab && negb (rq_single rq) then abort (length (rq_heaps rq)) (s_mask s) (s_slots s) orig tail else Some (s_slots s)) with
                       | None => Fault
                       | Some sl' => Ok (set_thread (set_lock (set_slots s sl') None) t (if rq_single rq then UReject (rq_id rq) err tail tail else UReject (rq_id rq) err orig tail))
                                        [EReject (rq_id rq) err (length (@nil (heap_ref * Z)))] end = Ok s' e -> Forall adds (s_threads s') /\ clean e).
        { intros err ab X. destruct (if ab && _ then _ else _); [|discriminate]. injection X as <- <-. split; [|intros ? ? ? [Y|[]]; injection Y as _ _ <-; reflexivity].
          cbn [s_threads set_thread set_lock set_slots]. apply Forall_upd; [exact F|]. destruct (rq_single rq); exact Logic.I. }
        cbv zeta in E. destruct (s_nsub s <=? h_sub hp); [eapply RJ; exact E|]. destruct (w64 (tail - head) =? s_size s); [eapply RJ; exact E|].
        destruct (negb (h_cnt hp <? 0) && _); [exact (RJ err_invalid false E)|]. destruct (construct _ _ _ _); [|discriminate]. injection E as <- <-. split; [|exact C0].
        cbn [s_threads set_thread set_slots]. apply Forall_upd; [exact F|]. cbn [adds length app] in *. lia.
    + injection E as <- <-. split; [|exact C0]. cbn [s_threads set_thread set_io]. apply Forall_upd; [exact F|exact Logic.I].
    + destruct (abort _ _ _ _ _); [|discriminate]. injection E as <- <-. split; [|exact C0]. cbn [s_threads set_thread set_slots]. apply Forall_upd; [exact F|exact Logic.I].
    + injection E as <- <-. split; [|exact C0]. cbn [s_threads set_thread set_posted]. apply Forall_upd; [exact F|exact Logic.I].
    + destruct signalled; [|discriminate]. injection E as <- <-. split; [|intros ? ? ? [X|[]]; discriminate]. cbn [s_threads set_thread]. apply Forall_upd; [exact F|exact Logic.I].
  - destruct (nth_error (s_threads s) t) as [[]|] eqn:Ht; try discriminate. destruct (s_lock s); [discriminate|]. destruct (s_head s =? s_tail s).
    + injection E as <- <-. split; [exact F|]. intros ? ? ? [X|[X|[]]]; discriminate.
    + destruct (get_queue _ _ _); [|discriminate]. injection E as <- <-. split; [|intros ? ? ? [X|[]]; discriminate]. cbn [s_threads set_thread set_slots]. apply Forall_upd; [exact F|exact Logic.I].
  - destruct (s_lock s); [discriminate|]. destruct ((step =? 0) || _); [discriminate|]. injection E as <- <-. split; [exact F|]. intros ? ? ? [X|[]]; discriminate.
  - destruct (nth_error (s_io s) j) as [[id err]|]; [|discriminate]. injection E as <- <-. split; [exact F|]. intros ? ? ? [X|[]]; discriminate.
  - destruct (s_posted s); [discriminate|]. destruct (w_pc (s_w s)); try discriminate. injection E as <- <-. split; [exact F|exact C0].
  - destruct (w_pc (s_w s)); try discriminate. destruct (get_packet_ok s s' e E) as [[_ X]|((pk & sub & last & ->) & _ & _ & _ & F4)].
    + subst e. split; [|exact C0]. unfold get_packet in E. cbv zeta in E. destruct (w_active (s_w s) =? _); [injection E as <-; exact F|]. destruct (get_queue _ _ (w_active (s_w s))) as [q|]; [|discriminate].
      destruct (q_pkts q); [discriminate|]. destruct (get_queue _ _ (w_start (s_w s))); [|discriminate]. destruct (match q_mode q with RoundRobin => _ | Serial => _ end) as [[]|]; discriminate.
    + rewrite F4. split; [exact F|]. intros ? ? ? [X|[]]; discriminate.
  - destruct (w_pc (s_w s)); try discriminate. destruct (w_flight (s_w s)) as [|[i lst] fl]; [discriminate|]. destruct (get_queue _ _ _); [|discriminate]. injection E as <- <-. split; [exact F|]. intros ? ? ? [X|[]]; discriminate.
  - destruct (w_pc (s_w s)); try discriminate. destruct (Nat.ltb 0 n && _); [|discriminate]. unfold batch_step in E. destruct (vacate _ _ _ _ _ _) as [[[[sl' head'] hs'] ws']|]; [|discriminate]. injection E as <- <-. split; [exact F|exact C0].
  - unfold complete_step in E. destruct (w_pc (s_w s)) as [| |n hs ws]; try discriminate. assert (BS : forall k, batch_step s k = Ok s' e -> Forall adds (s_threads s') /\ clean e).
    { intros k X. unfold batch_step in X. destruct (vacate _ _ _ _ _ _) as [[[[sl' head'] hs'] ws']|]; [|discriminate]. injection X as <- <-. split; [exact F|exact C0]. }
    destruct hs as [|[[id r] b] hs]; [destruct ws as [|t ws]|].
    + destruct n; [|now apply BS in E]. injection E as <- <-. split; [exact F|exact C0].
    + assert (E' : match nth_error (s_threads s) t with None => Fault | Some p => Ok (set_thread (set_writer s (set_wpc (s_w s) (WDone n [] ws))) t (signal p)) [] end = Ok s' e) by (destruct n; exact E).
      destruct (nth_error (s_threads s) t) as [q|] eqn:Ht; [|discriminate]. injection E' as <- <-. split; [|exact C0]. cbn [s_threads set_thread set_writer]. apply Forall_upd; [exact F|].
      pose proof (Forall_nth _ _ _ _ F Ht) as A. destruct q; exact A.
    + assert (E' : Ok (set_writer s (set_wpc (s_w s) (WDone n hs ws))) [EDone id r b] = Ok s' e) by (destruct n; exact E). injection E' as <- <-. split; [exact F|]. intros ? ? ? [X|[]]; discriminate.
  - destruct (w_pc (s_w s)); try discriminate. destruct (s_lock s); [discriminate|]. destruct (w_flight (s_w s)); [|discriminate]. destruct (w_fin (s_w s)); [|discriminate]. destruct (w_empty (s_w s)); [|discriminate].
    destruct (s_tail s =? _); injection E as <- <-; (split; [exact F|exact C0]).
  - destruct (w_pc (s_w s)); try discriminate. injection E as <- <-. split; [exact F|exact C0].
Qed.
Theorem C34_single_clean size nsub n s tr : s_reach1 (stream_new size nsub n) s tr -> clean tr.
Proof.
  intro R. assert (X : Forall adds (s_threads s) /\ clean tr); [|apply X]. induction R as [|s tr l s' e R [IH1 IH2] S E].
  - split; [|intros ? ? ? []]. cbn [s_threads stream_new]. apply Forall_forall. intros p Hp. apply repeat_spec in Hp. subst p. exact Logic.I.
  - destruct (adds_step s l s' e IH1 S E) as [A1 A2]. split; [exact A1|]. intros id err k K. apply in_app_or in K as [K|K]; [eapply IH2; eauto|eapply A2; eauto].
Qed.
