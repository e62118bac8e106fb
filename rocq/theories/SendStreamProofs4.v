(** Invariant of the send stream: completion of groups, and executions. *)
From Coq Require Import ZArith List Bool Lia.
From Verif Require Import Base ConcBase SendStreamModel SendStreamSpec SendStreamBase SendStreamProofs SendStreamProofs2 SendStreamProofs3.
Import ListNotations.
Open Scope Z_scope.

Lemma vacate_rest_spec p rest : 0 <= p <= 63 -> forall l sl h ws fuel, circ p sl h (l ++ rest) -> (length l <= fuel)%nat ->
  exists sl' ws', vacate_rest fuel (2 ^ p - 1) sl (w64 h) (w64 (h + Z.of_nat (length l))) ws = Some (sl', w64 (h + Z.of_nat (length l)), ws')
    /\ circ p sl' (h + Z.of_nat (length l)) rest /\ forall t, (occ t ws' = occ t ws + occ t (flat_map q_waiters l))%nat.
Proof.
  intro Hp. pose proof (pow_63 p Hp) as HP. induction l as [|q l IH]; intros sl h ws fuel C Hf; cbn [length] in *.
  - change (Z.of_nat 0) with 0. rewrite Z.add_0_r. exists sl, ws. split; [|split; [exact C|]].
    + destruct fuel; cbn [vacate_rest]; rewrite Z.eqb_refl; reflexivity.
    + intro t. cbn [flat_map]. unfold occ at 3. cbn [sumw]. lia.
  - destruct fuel as [|fuel]; [lia|]. pose proof (circ_len _ _ _ _ C) as CL. rewrite app_length in CL. cbn [length] in CL. cbn [vacate_rest].
    destruct (Z.eqb_spec (w64 h) (w64 (h + Z.of_nat (S (length l))))) as [E|E]; [apply w64_inj in E; lia|].
    assert (G : get_queue (2 ^ p - 1) sl (w64 h) = Some q).
    { pose proof (circ_get p Hp sl h _ O q C eq_refl) as G. now rewrite Z.add_0_r in G. }
    cbn [app] in C. destruct (circ_pop p Hp sl h q (l ++ rest) C) as (sl1 & D & C1 & _). rewrite G, D, w64_add.
    destruct (IH sl1 (h + 1) (q_waiters q ++ ws) fuel C1 ltac:(lia)) as (sl' & ws' & V1 & V2 & V3).
    replace (h + 1 + Z.of_nat (length l)) with (h + Z.of_nat (S (length l))) in V1, V2 by lia. exists sl', ws'. split; [exact V1|]. split; [exact V2|].
    intro t. rewrite V3. cbn [flat_map]. rewrite !occ_app. lia.
Qed.

Definition hrec (g : ag) : Z * Z * Z := (ag_id g, gerr (ag_items g), gbytes (ag_items g)).
Lemma vacate_spec p rest : 0 <= p <= 63 -> forall A sl h hs ws, circ p sl h (its A ++ rest) -> groups_ok h A ->
  exists sl' ws', vacate (length A) (2 ^ p - 1) sl (w64 h) hs ws = Some (sl', w64 (h + glen A), hs ++ map hrec A, ws')
    /\ circ p sl' (h + glen A) rest /\ forall t, (occ t ws' = occ t ws + occ t (waits A))%nat.
Proof.
  intro Hp. pose proof (pow_63 p Hp) as HP. induction A as [|g A IH]; intros sl h hs ws C OK.
  - exists sl, ws. cbn [length vacate map]. rewrite glen_nil, Z.add_0_r, app_nil_r. split; [reflexivity|]. split; [exact C|]. intro t. cbn [waits flat_map]. unfold occ at 3. cbn [sumw]. lia.
  - cbn [groups_ok] in OK. destruct OK as [OK OKA]. destruct (ok_handler _ _ OK) as (q & r & IT & HQ).
    assert (IT2 : its (g :: A) ++ rest = q :: (r ++ its A ++ rest)) by (cbn [its flat_map]; fold (its A); rewrite IT, <- !app_assoc; reflexivity).
    rewrite IT2 in C. cbn [length vacate].
    assert (G : get_queue (2 ^ p - 1) sl (w64 h) = Some q).
    { pose proof (circ_get p Hp sl h _ O q C eq_refl) as G. now rewrite Z.add_0_r in G. }
    destruct (circ_pop p Hp sl h q _ C) as (sl1 & D & C1 & _). pose proof (ok_fields _ _ OK) as OF. rewrite IT in OF. inversion OF as [|? ? [Om Oe] _]; subst.
    pose proof (circ_slots _ _ _ _ C) as LS. pose proof (circ_len _ _ _ _ C) as CL. cbn [length] in CL, Oe. rewrite app_length in CL.
    destruct (vacate_rest_spec p (its A ++ rest) Hp r sl1 (h + 1) (q_waiters q ++ ws) (length sl) C1 ltac:(lia)) as (sl2 & ws2 & V1 & V2 & V3).
    rewrite G, HQ, D, w64_add, Oe. replace (h + Z.of_nat (S (length r))) with (h + 1 + Z.of_nat (length r)) by lia. rewrite V1.
    destruct (IH sl2 (h + 1 + Z.of_nat (length r)) (hs ++ [(ag_id g, q_result q, q_bytes q)]) ws2 V2) as (sl' & ws' & W1 & W2 & W3).
    { rewrite IT in OKA. cbn [length] in OKA. replace (h + 1 + Z.of_nat (length r)) with (h + Z.of_nat (S (length r))) by lia. exact OKA. }
    assert (GL : h + 1 + Z.of_nat (length r) + glen A = h + glen (g :: A)) by (rewrite glen_cons, IT; cbn [length]; lia).
    rewrite GL in W1, W2. exists sl', ws'. split; [|split; [exact W2|]].
    + rewrite W1. do 3 f_equal. cbn [map]. unfold hrec at 2. rewrite IT. cbn [gerr gbytes]. now rewrite <- app_assoc.
    + intro t. rewrite W3, V3. cbn [waits flat_map]. fold (waits A). unfold gwait at 1. rewrite IT. cbn [flat_map]. rewrite !occ_app. lia.
Qed.

Lemma batch_good s m n fin0 : sinv (set_writer s {| w_tail := w_tail (s_w s); w_active := w_active (s_w s); w_start := w_start (s_w s); w_pc := WDone n [] []; w_empty := w_empty (s_w s);
                                                     w_flight := w_flight (s_w s); w_fin := fin0 |}) m ->
  w_fin (s_w s) = fin0 -> good s m (batch_step s n).
Proof.
  intros (p & h & gF & gI & gM & gN & pend & [Q L T Mi K]) F0. sred. unfold batch_step. set (k := Nat.min max_batch n).
  pose proof Q as [Qp Qm Qs Qc Qcap Qh Qt Qok QF QI QM QN Qst Qa Qw Qf Qfi Qe]. sred. pose proof (pow_63 p Qp) as HP.
  assert (Hk : (k <= n)%nat) by apply Nat.le_min_r.
  set (A := firstn k gF). set (B := skipn k gF). assert (AB : gF = A ++ B) by (symmetry; apply firstn_skipn). assert (LA : length A = k) by (apply firstn_length_le; lia).
  clearbody A B. subst gF. rewrite <- app_assoc in *.
  assert (Qc' : circ p (s_slots s) h (its A ++ (its (B ++ gI ++ gM ++ gN) ++ pend))) by (rewrite its_app, <- app_assoc in Qc; exact Qc).
  apply groups_ok_app in Qok as [OKA OKB].
  destruct (vacate_spec p _ Qp A _ h [] [] Qc' OKA) as (sl' & ws' & V1 & V2 & V3). rewrite LA in V1. rewrite Qm, Qh, V1. cbn [app good]. intros _.
  apply Forall_app in QF as [QA QB]. exists m. split; [reflexivity|]. split; [|split; reflexivity].
  assert (GL : h + glen A + glen (B ++ gI ++ gM ++ gN) = h + glen (A ++ B ++ gI ++ gM ++ gN)) by (rewrite (glen_app A); lia).
  assert (OUTA : Forall (fun g => ag_out g = O) A) by (eapply Forall_impl; [|exact QA]; cbn beta; tauto).
  exists p, (h + glen A), B, gI, gM, gN, pend. pose proof (glen_nonneg A) as GA. constructor; sred; cbn [map] in *.
  - constructor; sred; auto.
    + rewrite (glen_app A) in Qcap. lia.
    + now rewrite GL.
    + rewrite Qst. f_equal. rewrite <- ?app_assoc, (glen_app A). lia.
    + rewrite Qa. f_equal. rewrite <- ?app_assoc, (glen_app A). lia.
    + rewrite Qw. f_equal. rewrite <- ?app_assoc, (glen_app A). lia.
    + rewrite Qf. rewrite <- ?app_assoc, (flights_app A), (flights_zero h A OUTA). reflexivity.
    + rewrite app_length, LA in Qfi. lia.
  - rewrite GL. destruct L as [L1 L2 L3]. constructor; auto. destruct (s_lock s) as [t|]; [|exact L2].
    destruct L2 as (rq & todo & orig & tail & hd & ncnt & added & U & AD). exists rq, todo, orig, tail, hd, ncnt, added. split; [exact U|].
    destruct AD as [A1 A2 A3 A4 A5 A6 A7 A8 A9]. constructor; auto. destruct A3 as (h0 & X & Y & W). exists h0. split; [exact X|]. split; [lia|exact W].
  - destruct T as [T1 T2 T3 T4]. rewrite map_length, LA. constructor; auto.
    + intro t. specialize (T1 t). rewrite waits_app, occ_app in T1. specialize (V3 t). unfold occ in V3 at 2. cbn [sumw] in V3. unfold occ in T1 at 3. cbn [sumw] in T1. lia.
    + intros j g t Hj Hin. assert (Hj' : nth_error (A ++ B ++ gI ++ gM ++ gN) (k + j) = Some g) by (rewrite nth_error_app2 by lia; now replace (k + j - length A)%nat with j by lia).
      specialize (T2 _ g t Hj' Hin). cbn [length] in T2. lia.
    + intros t Hin. apply occ_in in Hin. rewrite V3 in Hin. unfold occ in Hin at 1. cbn [sumw] in Hin. assert (Hin' : In t (waits A)) by (apply occ_in; lia).
      apply in_flat_map in Hin' as (g & G1 & G2). apply In_nth_error in G1 as [j G1]. assert (j < length A)%nat by (apply nth_error_Some; congruence).
      assert (G1' : nth_error (A ++ B ++ gI ++ gM ++ gN) j = Some g) by (rewrite nth_error_app1 by lia; exact G1). specialize (T2 j g t G1' G2). cbn [length] in T2. lia.
  - destruct Mi as [M1 M2 M3 M4 M5]. constructor; auto.
    + rewrite M1. cbn [map app]. rewrite map_app. f_equal. rewrite map_map. clear - QA. induction QA as [|g A [X1 X2] _ IH]; cbn [map]; [reflexivity|]. rewrite IH. f_equal.
      unfold mg_of, hdone, hrec. now rewrite (exhausted_left g X1), X2.
    + rewrite M2, map_length, (app_length A). cbn [length]. lia.
  - destruct K as [K1 K2]. constructor; sred; auto. intro HN. specialize (K2 HN). apply app_eq_nil in K2. apply K2.
Qed.

Lemma complete_good s m n : sinv s m -> good s m (s_step_fn s (LComplete n)).
Proof.
  intros SI. cbn [s_step_fn]. destruct (w_pc (s_w s)) as [| |k hs ws] eqn:PC; try exact Logic.I.
  destruct (Nat.ltb_spec 0 n) as [N|]; [|exact Logic.I]. destruct (Nat.leb_spec n (w_fin (s_w s))) as [N2|]; [|exact Logic.I]. cbn [andb].
  set (s1 := set_writer s _).
  assert (G : good s1 m (batch_step s1 n)).
  { apply batch_good with (fin0 := (w_fin (s_w s) - n)%nat); [|reflexivity].
    destruct SI as (p & h & gF & gI & gM & gN & pend & [Q L T Mi K]). exists p, h, gF, gI, gM, gN, pend. rewrite PC in *. constructor; unfold s1; sred; auto.
    - destruct Q as [Qp Qm Qs Qc Qcap Qh Qt Qok QF QI QM QN Qst Qa Qw Qf Qfi Qe]. constructor; sred; auto. rewrite PC in Qfi. cbn [pc_n] in Qfi. lia.
    - destruct K as [K1 K2]. constructor; sred; auto. }
  exact G.
Qed.

Lemma next_good s m : sinv s m -> good s m (s_step_fn s LNext).
Proof.
  intros SI. cbn [s_step_fn]. unfold complete_step. destruct (w_pc (s_w s)) as [| |n hs ws] eqn:PC; try exact Logic.I.
  destruct hs as [|[[id r] b] hs]; [destruct ws as [|t ws]; [destruct n as [|n]|]|].
  - cbn [good]. intros _. exists m. split; [reflexivity|]. split; [|split; reflexivity].
    destruct SI as (p & h & gF & gI & gM & gN & pend & [Q L T Mi K]). exists p, h, gF, gI, gM, gN, pend. rewrite PC in *. constructor; sred; auto.
    + destruct Q as [Qp Qm Qs Qc Qcap Qh Qt Qok QF QI QM QN Qst Qa Qw Qf Qfi Qe]. rewrite PC in Qfi. constructor; sred; auto.
    + destruct K as [K1 K2]. constructor; sred; auto.
  - apply batch_good with (fin0 := w_fin (s_w s)); [|reflexivity]. replace (set_writer s _) with s; [exact SI|]. destruct s as [? ? ? ? ? ? ? ? ? ? ? ? w ?]. unfold set_writer. sred. f_equal.
    destruct w. sred. now subst.
  - destruct SI as (p & h & gF & gI & gM & gN & pend & [Q L T Mi K]). rewrite PC in *. sred. destruct T as [T1 T2 T3 T4].
    assert (FT : flushing (s_threads s) t = 1%nat).
    { specialize (T1 t). unfold occ in T1 at 2. cbn [sumw] in T1. rewrite Nat.eqb_refl in T1. unfold flushing in *. destruct (nth_error (s_threads s) t) as [[]|]; try lia. destruct signalled; lia. }
    unfold flushing in FT. destruct (nth_error (s_threads s) t) as [[]|] eqn:Ht; try discriminate. destruct signalled; [discriminate|]. 
    replace (match n with O => _ | S _ => _ end) with (Ok (set_thread (set_writer s (set_wpc (s_w s) (WDone n [] ws))) t (UFlush true)) []) by (now destruct n).
    cbn [good]. intros _.
    assert (Lt : (t < length (s_threads s))%nat) by (apply nth_error_Some; congruence).
    exists m. split; [reflexivity|]. split; [|split; reflexivity]. exists p, h, gF, gI, gM, gN, pend. constructor; sred.
    + destruct Q as [Qp Qm Qs Qc Qcap Qh Qt Qok QF QI QM QN Qst Qa Qw Qf Qfi Qe]. rewrite PC in Qfi. constructor; sred; auto.
    + eapply linv_thread; eauto.
    + constructor; auto.
      * intro t'. specialize (T1 t'). unfold occ in T1 at 2. cbn [sumw] in T1. fold (occ t' ws) in T1. rewrite flushing_upd by auto. destruct (Nat.eqb_spec t t') as [E|E].
        -- subst t'. rewrite Nat.eqb_refl. unfold flushing in T1. rewrite Ht in T1. lia.
        -- destruct (Nat.eqb_spec t' t); [congruence|]. lia.
      * intros t' Hin. apply T3. right. exact Hin.
      * intros t' Hs. rewrite nth_upd in Hs. destruct (Nat.eqb_spec t' t) as [E|E]; [|now apply T4]. subst t'. specialize (T3 t (or_introl eq_refl)). cbn [length] in T3. lia.
    + eapply minv_thread; eauto.
    + destruct K as [K1 K2]. constructor; sred; auto. pose proof (sumw_upd wakew (s_threads s) t _ (UFlush true) Ht) as U. cbn [wakew] in U. lia.
  - destruct SI as (p & h & gF & gI & gM & gN & pend & [Q L T Mi K]). rewrite PC in *. sred.
    replace (match n with O => _ | S _ => _ end) with (Ok (set_writer s (set_wpc (s_w s) (WDone n hs ws))) [EDone id r b]) by (now destruct n).
    cbn [good]. intros _.
    destruct Mi as [M1 M2 M3 M4 M5]. eexists. cbn [smon_run smon_step]. rewrite M1. cbn [map hdone app sent mg_left mg_out mg_id mg_err mg_bytes]. rewrite !Z.eqb_refl. cbn [andb].
    split; [reflexivity|]. split; [|split; reflexivity]. exists p, h, gF, gI, gM, gN, pend. constructor; sred; auto.
    + destruct Q as [Qp Qm Qs Qc Qcap Qh Qt Qok QF QI QM QN Qst Qa Qw Qf Qfi Qe]. rewrite PC in Qfi. constructor; sred; auto.
    + destruct T as [T1 T2 T3 T4]. cbn [length] in *. constructor; cbn [sm_target sm_done]; auto.
      * intros j g t Hj Hin. specialize (T2 j g t Hj Hin). lia.
      * intros t Hin. specialize (T3 t Hin). lia.
    + constructor; cbn [sm_groups sm_accepted sm_done sm_rejected sm_next sm_step]; auto. cbn [length] in M2. lia.
    + destruct K as [K1 K2]. constructor; sred; auto.
Qed.

Theorem step_good s m l : sinv s m -> good s m (s_step_fn s l).
Proof.
  intro SI. destruct l; [now apply send_good|now apply user_good|now apply flush_good|now apply setseq_good|now apply io_good|now apply start_good|now apply get_good|
    now apply written_good|now apply complete_good|now apply next_good|now apply wait_good|now apply post_good].
Qed.

(** *** Executions *)
Lemma pow2_above_spec size : forall fuel k, (0 <= k)%Z -> 2 ^ k < 2 * size \/ k = 0 -> size <= 2 ^ (k + Z.of_nat fuel) ->
  exists e, k <= e /\ pow2_above fuel size (2 ^ k) = 2 ^ e /\ size <= 2 ^ e /\ (2 ^ e < 2 * size \/ e = 0).
Proof.
  induction fuel as [|f IH]; intros k Hk Hl Hs; cbn [pow2_above].
  - exists k. rewrite Z.add_0_r in Hs. repeat split; auto; lia.
  - destruct (Z.ltb_spec (2 ^ k) size) as [E|E].
    + assert (P : 2 * 2 ^ k = 2 ^ (k + 1)) by (rewrite Z.pow_add_r by lia; lia). rewrite P. destruct (IH (k + 1)) as (e & E1 & E2 & E3 & E4); [lia|left; lia| |].
      * replace (k + 1 + Z.of_nat f) with (k + Z.of_nat (S f)) by lia. exact Hs.
      * exists e. repeat split; auto; lia.
    + exists k. repeat split; auto; lia.
Qed.
Lemma mask_spec size : 1 <= size <= 2 ^ 63 -> exists p, 0 <= p <= 63 /\ compute_queue_mask size = 2 ^ p - 1 /\ size <= 2 ^ p.
Proof.
  intro H. destruct (pow2_above_spec size 64 0) as (e & E1 & E2 & E3 & E4); [lia|right; lia|change (0 + Z.of_nat 64) with 64; assert (2 ^ 64 = 2 * 2 ^ 63) by reflexivity; lia|].
  exists e. unfold compute_queue_mask. rewrite Z.pow_0_r in E2. rewrite E2. split; [|split; [reflexivity|exact E3]]. split; [lia|].
  destruct (Z.le_gt_cases e 63) as [|G]; [assumption|exfalso]. assert (2 ^ 64 <= 2 ^ e) by (apply Z.pow_le_mono_r; lia). assert (2 ^ 64 = 2 * 2 ^ 63) by reflexivity. lia.
Qed.
Lemma nth_repeat_some {A} (x : A) n k : (k < n)%nat -> nth_error (repeat x n) k = Some x.
Proof. revert k. induction n as [|n IH]; intros [|k] H; cbn [repeat nth_error]; try lia; auto. apply IH. lia. Qed.
Lemma nth_repeat_in {A} (x y : A) n k : nth_error (repeat x n) k = Some y -> y = x.
Proof. intro H. apply nth_error_In in H. now apply repeat_spec in H. Qed.

Theorem init_sinv size nsub n : 1 <= size <= 2 ^ 63 -> sinv (stream_new size nsub n) smon0.
Proof.
  intro H. destruct (mask_spec size H) as (p & Hp & Em & Hs). exists p, 0, [], [], [], [], [].
  unfold stream_new. cbv zeta. rewrite Em. constructor; unfold writer_new, smon0; sred; cbn [app].
  - constructor; sred; auto; try reflexivity; try exact Logic.I.
    + lia.
    + split; [|split; [lia|split; [cbn [its flat_map app length]; pose proof (pow_63 p Hp); lia|split]]].
      * rewrite repeat_length. f_equal. lia.
      * intros k q Hk. destruct k; discriminate.
      * intros k _ Hk. apply nth_repeat_some. pose proof (pow_63 p Hp). pose proof (Z.mod_pos_bound (0 + Z.of_nat k) (2 ^ p) ltac:(lia)). lia.
    + cbn [app]. rewrite glen_nil. lia.
  - constructor.
    + intros t q Hq A. apply nth_repeat_in in Hq. subst q. discriminate A.
    + reflexivity.
    + intros t q Hq. apply nth_repeat_in in Hq. subst q. exact Logic.I.
  - constructor; cbn [sm_target sm_done].
    + intro t. cbn [waits flat_map occ]. unfold occ. cbn [sumw]. unfold flushing. destruct (nth_error (repeat UIdle n) t) as [q|] eqn:E; [|reflexivity]. apply nth_repeat_in in E. now subst q.
    + intros j g t Hj. destruct j; discriminate.
    + intros t [].
    + intros t Hq. apply nth_repeat_in in Hq. discriminate.
  - constructor; auto. intro x. cbn [sm_rejected sumw]. rewrite sumw_repeat. cbn [rejw]. lia.
  - constructor; auto. rewrite sumw_repeat. cbn [wakew busy]. lia.
Qed.

(** In an execution in which no group is rejected after some of its heaps have
    been added. *)
Definition clean (tr : list sev) : Prop := forall id err k, In (EReject id err k) tr -> k = O.
Theorem sinv_reach size nsub n s tr : 1 <= size <= 2 ^ 63 -> s_reach (stream_new size nsub n) s tr -> clean tr ->
  exists m, smon_run nsub smon0 tr = Some m /\ sinv s m /\ s_nsub s = nsub /\ s_size s = size.
Proof.
  intros H R. induction R as [|s tr l s' e R IH E]; intro CL.
  - exists smon0. split; [reflexivity|]. split; [now apply init_sinv|]. split; reflexivity.
  - destruct IH as (m & M1 & M2 & M3 & M4); [intros id err k K; apply (CL id err k); apply in_or_app; auto|].
    pose proof (step_good s m l M2) as G. rewrite E in G. cbn [good] in G. destruct G as (m' & G1 & G2 & G3 & G4); [intros id err k K; apply (CL id err k); apply in_or_app; auto|].
    exists m'. rewrite smon_run_app, M1. rewrite M3 in G1. split; [exact G1|]. split; [exact G2|]. split; congruence.
Qed.
