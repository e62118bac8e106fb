(** Invariant of the send stream: the writer's steps, and executions. *)
From Coq Require Import ZArith List Bool Lia.
From Verif Require Import Base ConcBase SendStreamModel SendStreamSpec SendStreamBase SendStreamProofs SendStreamProofs2.
Import ListNotations.
Open Scope Z_scope.

Lemma start_good s m : sinv s m -> good s m (s_step_fn s LStart).
Proof.
  intros (p & h & gF & gI & gM & gN & pend & [Q L T Mi K]). cbn [s_step_fn]. destruct (s_posted s) as [|n] eqn:PO; [exact Logic.I|].
  destruct K as [K1 K2]. destruct (w_pc (s_w s)) as [| |k hs ws] eqn:PC; [|cbn [busy] in K1; lia|cbn [busy] in K1; lia].
  cbn [good]. intros _. exists m. split; [reflexivity|]. split; [|split; reflexivity].
  exists p, h, gF, gI, gM, gN, pend. constructor; sred; auto.
  - destruct Q as [Qp Qm Qs Qc Qcap Qh Qt Qok QF QI QM QN Qst Qa Qw Qf Qfi Qe]. rewrite PC in Qfi. constructor; auto. sred. discriminate.
  - constructor; sred; auto. lia.
Qed.
Lemma post_good s m : sinv s m -> good s m (s_step_fn s LPost).
Proof.
  intros (p & h & gF & gI & gM & gN & pend & [Q L T Mi K]). cbn [s_step_fn]. destruct (w_pc (s_w s)) as [| |k hs ws] eqn:PC; try exact Logic.I.
  cbn [good]. intros _. exists m. split; [reflexivity|]. split; [|split; reflexivity].
  exists p, h, gF, gI, gM, gN, pend. constructor; sred; auto.
  - destruct Q as [Qp Qm Qs Qc Qcap Qh Qt Qok QF QI QM QN Qst Qa Qw Qf Qfi Qe]. rewrite PC in Qfi. constructor; auto.
  - destruct K as [K1 K2]. constructor; sred; auto. lia.
Qed.
Lemma wait_good s m : sinv s m -> good s m (s_step_fn s LWait).
Proof.
  intros (p & h & gF & gI & gM & gN & pend & [Q L T Mi K]). cbn [s_step_fn]. destruct (w_pc (s_w s)) as [| |k hs ws] eqn:PC; try exact Logic.I.
  destruct (s_lock s) eqn:LK; [exact Logic.I|]. destruct (w_flight (s_w s)) as [|] eqn:FL; [|exact Logic.I]. destruct (w_fin (s_w s)) as [|] eqn:FI; [|exact Logic.I].
  destruct (w_empty (s_w s)) eqn:EM; [|exact Logic.I]. pose proof Q as [Qp Qm Qs Qc Qcap Qh Qt Qok QF QI QM QN Qst Qa Qw Qf Qfi Qe].
  pose proof (pow_63 p Qp) as HP. specialize (Qe EM). subst gM. rewrite PC, FI in Qfi. cbn [pc_n] in Qfi. assert (gF = []) by (destruct gF; [reflexivity|discriminate]). subst gF. cbn [app] in *.
  assert (gI = []).
  { destruct gI as [|g gI]; [reflexivity|]. rewrite FL in Qf. cbn [app flights] in Qf. inversion QI as [|? ? [_ Ho] _]; subst. unfold gflight in Qf.
    destruct (ag_out g) as [|k]; [lia|]. destruct k; discriminate. }
  subst gI. cbn [app] in *. destruct K as [K1 K2]. rewrite glen_nil in *.
  destruct (Z.eqb_spec (s_tail s) (w_tail (s_w s))) as [E|E]; cbn [good]; intros _; exists m; (split; [reflexivity|]); (split; [|split; reflexivity]).
  - assert (GN : gN = []).
    { rewrite Qt, Qw in E. apply w64_inj in E; [|pose proof (glen_nonneg gN); lia]. apply (gs_nil h); [exact Qok|lia]. }
    subst gN. exists p, h, [], [], [], [], pend. constructor; sred; rewrite ?LK; auto.
    + constructor; auto. sred. congruence.
    + constructor; auto. sred. lia.
  - exists p, h, [], [], gN, [], pend. constructor; cbn [app]; rewrite ?app_nil_r; sred; rewrite ?LK; auto.
    + constructor; cbn [app]; sred; rewrite ?app_nil_r; auto.
      * destruct QN as [|g r Hg Hr]; [exact Logic.I|]. split; [apply Hg|exact Hr].
      * rewrite act_fresh by auto. exact Qa.
      * rewrite flights_zero; [reflexivity|now apply fresh_out].
      * discriminate.
    + constructor; auto. sred. lia.
Qed.

(** *** get_packet *)
Lemma on_packet_skip a b x last : Forall (fun g => mg_left g = []) a ->
  on_packet (a ++ b) x last = match on_packet b x last with None => None | Some r => Some (a ++ r) end.
Proof.
  induction 1 as [|g a E _ IH]; cbn [app on_packet]; [destruct (on_packet b x last); reflexivity|]. rewrite E, IH. destruct (on_packet b x last); reflexivity.
Qed.
Lemma pkt_eqb_refl x : pkt_eqb x x = true.
Proof. unfold pkt_eqb. now rewrite !Z.eqb_refl. Qed.
Lemma hdone_left hs : Forall (fun g => mg_left g = []) (map hdone hs).
Proof. induction hs as [|[[id r] b] hs IH]; cbn [map]; constructor; auto. Qed.
Lemma exhausted_mg_left gs : Forall (fun g => exhausted (ag_items g)) gs -> Forall (fun g => mg_left g = []) (map mg_of gs).
Proof. induction 1; cbn [map]; constructor; auto. cbn [mg_of mg_left]. now apply exhausted_left. Qed.
Lemma tinv_waits gs gs' nhs ws threads m : Forall2 (fun g g' => gwait g = gwait g') gs gs' -> tinv gs nhs ws threads m -> tinv gs' nhs ws threads m.
Proof.
  intros S [T1 T2 T3 T4]. constructor; auto.
  - intro t. rewrite <- T1. f_equal. unfold waits. clear - S. induction S as [|g g' a b E _ IH]; cbn [flat_map]; [reflexivity|]. rewrite !occ_app, E. lia.
  - intros j g' t Hj Hin. assert (S' : Forall2 (fun g' g => gwait g = gwait g') gs' gs) by (clear - S; induction S; constructor; auto).
    destruct (Forall2_nth_l _ _ _ _ _ S' Hj) as (g & Hg & E). apply (T2 j g t Hg). now rewrite E.
Qed.
Lemma Forall2_refl {A} (R : A -> A -> Prop) l : (forall x, R x x) -> Forall2 R l l.
Proof. intro H. induction l; constructor; auto. Qed.
Lemma waits_upd l i q q' : nth_error l i = Some q -> q_waiters q' = q_waiters q -> flat_map q_waiters (upd l i q') = flat_map q_waiters l.
Proof. revert i. induction l as [|x l IH]; intros [|i] H E; cbn [nth_error upd flat_map] in *; try discriminate; [injection H as ->; now rewrite E|]. now rewrite (IH i H E). Qed.
Lemma bytes_upd l i q q' : nth_error l i = Some q -> q_bytes q' = q_bytes q -> q_result q' = q_result q -> gbytes (upd l i q') = gbytes l /\ gerr (upd l i q') = gerr l.
Proof. destruct l as [|x l]; destruct i as [|i]; cbn [nth_error upd gbytes gerr]; intros H E1 E2; try discriminate; auto. injection H as ->. auto. Qed.
Lemma ag_ok_upd st g i q q' : ag_ok st g -> nth_error (ag_items g) i = Some q -> q_mode q' = q_mode q -> q_end q' = q_end q -> q_handler q' = q_handler q ->
  forall act out, (ag_mode g = RoundRobin -> links st (upd (ag_items g) i q')) ->
  ag_ok st {| ag_id := ag_id g; ag_mode := ag_mode g; ag_items := upd (ag_items g) i q'; ag_act := act; ag_out := out |}.
Proof.
  intros [O1 O2 O3 O4] H E1 E2 E3 act out OL. constructor; cbn [ag_id ag_mode ag_items].
  - intro K. apply O1. pose proof (upd_length (ag_items g) i q') as U. rewrite K in U. destruct (ag_items g); [reflexivity|discriminate].
  - rewrite upd_length. apply Forall_upd; [exact O2|]. rewrite Forall_forall in O2. specialize (O2 q (nth_error_In _ _ H)). rewrite E1, E2. exact O2.
  - destruct O3 as (x & r & O3 & O5). rewrite O3 in H |- *. destruct i as [|i]; cbn [upd nth_error] in *; [injection H as ->|]; eexists; eexists; split; try reflexivity; congruence.
  - exact OL.
Qed.

Lemma take_good s m p h gF gI g0 gU gN pend : binv p h gF gI (g0 :: gU) gN pend s m -> w_pc (s_w s) = WRun ->
  exists q x l qs, get_queue (s_mask s) (s_slots s) (w_active (s_w s)) = Some q /\ q_pkts q = x :: l /\ get_queue (s_mask s) (s_slots s) (w_start (s_w s)) = Some qs /\
  let sl1 := put_queue (s_mask s) (s_slots s) (w_active (s_w s)) (set_pkts q l) in
  let found := match q_mode q with
               | RoundRobin => rr_search (length sl1) (s_mask s) sl1 (w_active (s_w s)) (q_next q)
               | Serial => serial_search (length sl1) (s_mask s) sl1 (q_end q) (w_active (s_w s))
               end in
  good s m (match found with
            | None => Fault
            | Some None =>
                Ok (set_writer (set_slots s sl1)
                      {| w_tail := w_tail (s_w s); w_active := q_end q; w_start := q_end q; w_pc := w_pc (s_w s); w_empty := false;
                         w_flight := w_flight (s_w s) ++ [(w_start (s_w s), true)]; w_fin := w_fin (s_w s) |})
                   [EPacket x (q_sub q) true]
            | Some (Some next) =>
                let sl2 := match q_mode q with
                           | RoundRobin => put_queue (s_mask s) sl1 (w_active (s_w s)) (set_links (set_pkts q l) (q_end q) next)
                           | Serial => sl1
                           end in
                Ok (set_writer (set_slots s sl2)
                      {| w_tail := w_tail (s_w s); w_active := next; w_start := w_start (s_w s); w_pc := w_pc (s_w s); w_empty := false;
                         w_flight := w_flight (s_w s) ++ [(w_start (s_w s), false)]; w_fin := w_fin (s_w s) |})
                   [EPacket x (q_sub q) false]
            end).
Proof.
  intros [Q L T Mi K] PC. pose proof Q as [Qp Qm Qs Qc Qcap Qh Qt Qok QF QI QM QN Qst Qa Qw Qf Qfi Qe]. pose proof (pow_63 p Qp) as HP.
  destruct QM as [R0 QU]. pose proof R0 as [(q & x & l & Nq & Eq) RS].
  set (A := gF ++ gI) in *. set (st := h + glen A) in *.
  assert (GS : gF ++ gI ++ (g0 :: gU) ++ gN = A ++ g0 :: (gU ++ gN)) by (unfold A; rewrite <- app_assoc; reflexivity).
  assert (IT : its (gF ++ gI ++ (g0 :: gU) ++ gN) ++ pend = its A ++ ag_items g0 ++ (its (gU ++ gN) ++ pend)).
  { rewrite GS, its_app. cbn [its flat_map]. fold (its (gU ++ gN)). now rewrite <- !app_assoc. }
  rewrite IT in Qc. cbn [act_of] in Qa.
  assert (G0 : ag_ok st g0 /\ groups_ok (st + Z.of_nat (length (ag_items g0))) (gU ++ gN) /\ groups_ok h A).
  { rewrite GS in Qok. apply groups_ok_app in Qok as [X Y]. cbn [groups_ok] in Y. unfold st. tauto. }
  destruct G0 as (OK0 & OKR & OKA).
  assert (Ha : (ag_act g0 < length (ag_items g0))%nat) by (apply nth_error_Some; congruence).
  assert (ACT : w_active (s_w s) = w64 (h + Z.of_nat (length (its A)) + Z.of_nat (ag_act g0))) by exact Qa.
  assert (STA : w_start (s_w s) = w64 (h + Z.of_nat (length (its A)))) by exact Qst.
  pose proof (circ_at p _ h (its A) (ag_items g0) _ (ag_act g0) q Qp Qc Nq) as GA. rewrite <- Qm, <- ACT in GA.
  destruct (ok_handler _ _ OK0) as (qs & rs & IS & HS).
  assert (GST : get_queue (s_mask s) (s_slots s) (w_start (s_w s)) = Some qs).
  { rewrite STA, Qm. rewrite <- (Z.add_0_r (h + _)). apply (circ_at p _ h (its A) (ag_items g0) _ O qs Qp Qc). now rewrite IS. }
  exists q, x, l, qs. split; [exact GA|]. split; [exact Eq|]. split; [exact GST|]. cbv zeta.
  set (l1 := upd (ag_items g0) (ag_act g0) (set_pkts q l)).
  pose proof (circ_put p _ h (its A) (ag_items g0) _ (ag_act g0) (set_pkts q l) Qp Qc Ha) as C1. fold l1 in C1. rewrite <- ACT, <- Qm in C1.
  set (sl1 := put_queue (s_mask s) (s_slots s) (w_active (s_w s)) (set_pkts q l)) in *.
  assert (LN : Z.of_nat (length (ag_items g0)) <= 2 ^ p) by (apply circ_len in Qc; rewrite !app_length in Qc; lia).
  assert (L1 : length l1 = length (ag_items g0)) by apply upd_length.
  pose proof (circ_slots _ _ _ _ C1) as LS.
  assert (FL0 : flights h (gF ++ gI ++ g0 :: gU) = flights h A ++ repeat (w64 st, false) (ag_out g0)).
  { replace (gF ++ gI ++ g0 :: gU) with (A ++ g0 :: gU) by (unfold A; now rewrite <- app_assoc). rewrite flights_app. cbn [flights].
    rewrite (flights_zero _ gU) by now apply fresh_out. now rewrite app_nil_r, gflight_running. }
  pose proof (ok_fields _ _ OK0) as OF. rewrite Forall_forall in OF. destruct (OF q (nth_error_In _ _ Nq)) as [Om Oe].
  pose proof (take_group (s_mask s) sl1 st g0 q x l OK0 R0 Nq Eq) as TG. cbv zeta in TG. fold l1 in TG.
  destruct TG as [(S1 & S2 & S3)|(b & S1 & S2 & S3 & S4 & S5)].
  - lia.
  - intros i y Hy. rewrite Qm. unfold st, glen. apply (circ_at p _ h (its A) l1 _ i y Qp C1 Hy).
  - intros i j Hi Hj E. apply w64_inj in E; [lia|]. lia.
  - (* the group is exhausted *)
    assert (FO : match q_mode q with
                 | RoundRobin => rr_search (length sl1) (s_mask s) sl1 (w_active (s_w s)) (q_next q)
                 | Serial => serial_search (length sl1) (s_mask s) sl1 (q_end q) (w_active (s_w s)) end = Some None).
    { rewrite Om, ACT. exact S1. }
    rewrite FO. cbn [good]. intros _.
    set (g1 := {| ag_id := ag_id g0; ag_mode := ag_mode g0; ag_items := l1; ag_act := O; ag_out := S (ag_out g0) |}).
    assert (GS1 : gF ++ (gI ++ [g1]) ++ gU ++ gN = A ++ g1 :: (gU ++ gN)) by (unfold A; rewrite <- !app_assoc; reflexivity).
    assert (OK1 : ag_ok st g1).
    { apply (ag_ok_upd st g0 (ag_act g0) q (set_pkts q l)); auto. intros MR i y Hy.
      assert (EX : forall i, nth_empty (ag_items g0) i -> nth_empty l1 i).
      { intros i' (z & Z1 & Z2). destruct (nth_empty_upd (ag_items g0) (ag_act g0) q l i' Nq) as [V|V]; [exists z; auto|exact V|]. rewrite V in Z1. congruence. }
      fold l1. rewrite L1. destruct (Nat.eq_dec i (ag_act g0)) as [->|N].
      - rewrite upd_same in Hy by auto. injection Hy as <-. destruct (ok_links _ _ OK0 MR (ag_act g0) q Nq) as (d & D1 & D2 & D3). exists d. split; [exact D1|]. split; [exact D2|]. intros e He. apply EX, D3, He.
      - rewrite upd_other in Hy by auto. destruct (ok_links _ _ OK0 MR i y Hy) as (d & D1 & D2 & D3). exists d. split; [exact D1|]. split; [exact D2|]. intros e He. apply EX, D3, He. }
    eexists. cbn [smon_run smon_step]. destruct Mi as [M1 M2 M3 M4 M5]. rewrite M1, GS, map_app. cbn [map]. rewrite app_assoc.
    rewrite on_packet_skip; [|apply Forall_app; split; [apply hdone_left|apply exhausted_mg_left; unfold A; apply Forall_app; split; eapply Forall_impl; [|exact QF| |exact QI]; cbn beta; tauto]].
    cbn [on_packet mg_of mg_left]. rewrite S3. cbn [pkt_eqb]. rewrite pkt_eqb_refl. cbn [andb Bool.eqb]. split; [reflexivity|]. split; [|split; reflexivity].
    exists p, h, gF, (gI ++ [g1]), gU, gN, pend. rewrite GS in *.
    constructor; sred; rewrite ?GS1.
    + assert (LL : glen (gF ++ gI ++ [g1]) = glen A + Z.of_nat (length (ag_items g0))) by (rewrite app_assoc, glen_app, glen_cons, glen_nil; fold A; cbn [g1 ag_items]; lia).
      constructor; rewrite ?GS1; auto.
      * rewrite its_app. cbn [its flat_map]. fold (its (gU ++ gN)). cbn [g1 ag_items]. rewrite <- !app_assoc. exact C1.
      * rewrite glen_app, glen_cons in Qcap |- *. cbn [g1 ag_items]. lia.
      * rewrite Qt. f_equal. rewrite !glen_app, !glen_cons. cbn [g1 ag_items]. lia.
      * apply groups_ok_app. split; [exact OKA|]. cbn [groups_ok]. fold st. split; [exact OK1|]. cbn [g1 ag_items]. now rewrite L1.
      * apply Forall_app. split; [exact QI|]. constructor; [|constructor]. cbn [g1 ag_items ag_out]. split; [exact S2|lia].
      * destruct QU as [|g r F1 F2]; [exact Logic.I|]. split; [apply F1|exact F2].
      * sred. rewrite Oe, LL. f_equal. unfold st. lia.
      * sred. rewrite act_fresh by auto. rewrite Oe, LL. f_equal. unfold st. lia.
      * sred. rewrite Qw. f_equal. rewrite !glen_app, !glen_cons, glen_nil. cbn [g1 ag_items]. lia.
      * sred. rewrite Qf, FL0. replace (gF ++ (gI ++ [g1]) ++ gU) with (A ++ g1 :: gU) by (unfold A; rewrite <- !app_assoc; reflexivity).
        rewrite flights_app. cbn [flights]. rewrite (flights_zero _ gU) by now apply fresh_out. rewrite app_nil_r, <- app_assoc. f_equal.
        unfold gflight. cbn [g1 ag_out ag_items]. fold st. change (w_start (s_w s)) with (w_start (s_w s)). rewrite STA. f_equal. apply done_b_iff in S2. rewrite S2. reflexivity.
      * discriminate.
    + replace (h + glen (A ++ g1 :: gU ++ gN)) with (h + glen (A ++ g0 :: gU ++ gN)) by (rewrite !glen_app, !glen_cons; cbn [g1 ag_items]; lia). exact L.
    + assert (T' : tinv (A ++ g1 :: gU ++ gN) (length (pc_hs (w_pc (s_w s)))) (pc_ws (w_pc (s_w s))) (s_threads s) m).
      { eapply tinv_waits; [|exact T]. apply Forall2_app; [now apply Forall2_refl|]. constructor; [|now apply Forall2_refl]. unfold gwait. cbn [g1 ag_items]. symmetry. now apply waits_upd with (q := q). }
      destruct T' as [T1 T2 T3 T4]. constructor; auto.
    + constructor; cbn [sm_groups sm_accepted sm_done sm_rejected sm_next sm_step]; auto.
      * rewrite <- app_assoc. f_equal. rewrite !map_app. cbn [map]. rewrite map_app. f_equal. f_equal. unfold mg_of at 5. cbn [mg_of mg_id mg_out mg_bytes mg_err g1 ag_id ag_out ag_items].
        destruct (bytes_upd (ag_items g0) (ag_act g0) q (set_pkts q l) Nq eq_refl eq_refl) as [B1 B2]. fold l1 in B1, B2. rewrite B1, B2. f_equal. symmetry. now apply (exhausted_left g1).
      * rewrite M2. rewrite !app_length. cbn [length]. reflexivity.
    + destruct K as [K1 K2]. constructor; auto. intro E. specialize (K2 E). destruct A; discriminate.
  - (* another packet follows *)
    assert (FO : match q_mode q with
                 | RoundRobin => rr_search (length sl1) (s_mask s) sl1 (w_active (s_w s)) (q_next q)
                 | Serial => serial_search (length sl1) (s_mask s) sl1 (q_end q) (w_active (s_w s)) end = Some (Some (w64 (st + Z.of_nat b)))).
    { rewrite Om, ACT. exact S1. }
    rewrite FO. cbn [good]. intros _.
    set (q2 := match ag_mode g0 with RoundRobin => set_links (set_pkts q l) (q_end q) (w64 (st + Z.of_nat b)) | Serial => set_pkts q l end).
    set (l2 := upd (ag_items g0) (ag_act g0) q2).
    set (g1 := {| ag_id := ag_id g0; ag_mode := ag_mode g0; ag_items := l2; ag_act := b; ag_out := S (ag_out g0) |}).
    assert (GS1 : gF ++ gI ++ (g1 :: gU) ++ gN = A ++ g1 :: (gU ++ gN)) by (unfold A; rewrite <- !app_assoc; reflexivity).
    assert (PK2 : q_pkts q2 = l /\ q_sub q2 = q_sub q) by (unfold q2; destruct (ag_mode g0); split; reflexivity). destruct PK2 as [PK2 PS2].
    assert (LI2 : lists l2 = lists l1) by (unfold l1, l2; rewrite !lists_upd; f_equal; unfold ipk; rewrite PK2, PS2; reflexivity).
    assert (E12 : forall i, nth_empty l1 i -> nth_empty l2 i).
    { intros i (y & Y1 & Y2). unfold l1 in Y1. destruct (Nat.eq_dec i (ag_act g0)) as [->|N].
      - rewrite upd_same in Y1 by auto. injection Y1 as <-. exists q2. split; [now apply upd_same|]. rewrite PK2. exact Y2.
      - rewrite upd_other in Y1 by auto. exists y. split; [unfold l2; now rewrite upd_other by auto|exact Y2]. }
    assert (R12 : nth_ready l2 b).
    { destruct S2 as (y & p1 & r1 & Y1 & Y2). unfold l1 in Y1. destruct (Nat.eq_dec b (ag_act g0)) as [->|N].
      - rewrite upd_same in Y1 by auto. injection Y1 as <-. exists q2, p1, r1. split; [now apply upd_same|]. rewrite PK2. exact Y2.
      - rewrite upd_other in Y1 by auto. exists y, p1, r1. split; [unfold l2; now rewrite upd_other by auto|exact Y2]. }
    assert (C2 : circ p (match q_mode q with RoundRobin => put_queue (s_mask s) sl1 (w_active (s_w s)) (set_links (set_pkts q l) (q_end q) (w64 (st + Z.of_nat b))) | Serial => sl1 end)
                   h (its A ++ l2 ++ (its (gU ++ gN) ++ pend))).
    { rewrite Om. unfold l2, q2. destruct (ag_mode g0).
      - pose proof (circ_put p _ h (its A) l1 _ (ag_act g0) (set_links (set_pkts q l) (q_end q) (w64 (st + Z.of_nat b))) Qp C1 ltac:(lia)) as C. rewrite <- ACT, <- Qm in C.
        unfold l1 in C. rewrite upd_upd in C. exact C.
      - exact C1. }
    assert (OK1 : ag_ok st g1).
    { apply (ag_ok_upd st g0 (ag_act g0) q q2); auto; try (unfold q2; destruct (ag_mode g0); reflexivity). intro MR. specialize (S5 MR). unfold l1 in S5. rewrite upd_upd in S5.
      unfold q2. rewrite MR. exact S5. }
    assert (RUN1 : running g1).
    { split; [exact R12|]. cbn [g1 ag_mode ag_act ag_items]. intros MS i Hi. apply E12, S3; auto. }
    assert (LEFT1 : ag_left g0 = (x, q_sub q) :: ag_left g1).
    { rewrite S4. f_equal. unfold ag_left, left_of. cbn [g1 ag_mode ag_act ag_items]. now rewrite LI2. }
    assert (NE1 : exists y ys, ag_left g1 = y :: ys).
    { destruct (running_left g1 RUN1) as (? & ? & ? & _ & _ & E). rewrite E. eauto. }
    destruct NE1 as (y & ys & NE1).
    eexists. cbn [smon_run smon_step]. destruct Mi as [M1 M2 M3 M4 M5]. rewrite M1, GS, map_app. cbn [map]. rewrite app_assoc.
    rewrite on_packet_skip; [|apply Forall_app; split; [apply hdone_left|apply exhausted_mg_left; unfold A; apply Forall_app; split; eapply Forall_impl; [|exact QF| |exact QI]; cbn beta; tauto]].
    cbn [on_packet mg_of mg_left]. rewrite LEFT1, NE1. rewrite pkt_eqb_refl. cbn [andb Bool.eqb]. split; [reflexivity|]. split; [|split; reflexivity].
    exists p, h, gF, gI, (g1 :: gU), gN, pend. rewrite GS in *. assert (L2 : length l2 = length (ag_items g0)) by apply upd_length.
    constructor; sred; rewrite ?GS1.
    + constructor; rewrite ?GS1; auto.
      * rewrite its_app. cbn [its flat_map]. fold (its (gU ++ gN)). cbn [g1 ag_items]. rewrite <- !app_assoc. exact C2.
      * rewrite glen_app, glen_cons in Qcap |- *. cbn [g1 ag_items]. lia.
      * rewrite Qt. f_equal. rewrite !glen_app, !glen_cons. cbn [g1 ag_items]. lia.
      * apply groups_ok_app. split; [exact OKA|]. cbn [groups_ok]. fold st. split; [exact OK1|]. cbn [g1 ag_items]. now rewrite L2.
      * sred. rewrite Qw. f_equal. rewrite !glen_app, !glen_cons. cbn [g1 ag_items]. lia.
      * sred. rewrite Qf, FL0. replace (gF ++ gI ++ g1 :: gU) with (A ++ g1 :: gU) by (unfold A; rewrite <- !app_assoc; reflexivity).
        rewrite flights_app. cbn [flights]. rewrite (flights_zero _ gU) by now apply fresh_out. rewrite app_nil_r, <- app_assoc. f_equal.
        rewrite gflight_running by assumption. fold st. cbn [g1 ag_out repeat]. rewrite STA. change (h + Z.of_nat (length (its A))) with st. apply repeat_snoc.
      * discriminate.
    + replace (h + glen (A ++ g1 :: gU ++ gN)) with (h + glen (A ++ g0 :: gU ++ gN)) by (rewrite !glen_app, !glen_cons; cbn [g1 ag_items]; lia). exact L.
    + assert (T' : tinv (A ++ g1 :: gU ++ gN) (length (pc_hs (w_pc (s_w s)))) (pc_ws (w_pc (s_w s))) (s_threads s) m).
      { eapply tinv_waits; [|exact T]. apply Forall2_app; [now apply Forall2_refl|]. constructor; [|now apply Forall2_refl]. unfold gwait. cbn [g1 ag_items]. symmetry. apply waits_upd with (q := q); auto.
        unfold q2. destruct (ag_mode g0); reflexivity. }
      destruct T' as [T1 T2 T3 T4]. constructor; auto.
    + constructor; cbn [sm_groups sm_accepted sm_done sm_rejected sm_next sm_step]; auto.
      * rewrite <- app_assoc. f_equal. rewrite !map_app. cbn [map]. rewrite map_app. f_equal. f_equal. unfold mg_of at 5. rewrite NE1. cbn [mg_of mg_id mg_out mg_bytes mg_err g1 ag_id ag_out ag_items].
        destruct (bytes_upd (ag_items g0) (ag_act g0) q q2 Nq) as [B1 B2]; try (unfold q2; destruct (ag_mode g0); reflexivity). fold l2 in B1, B2. rewrite B1, B2. reflexivity.
      * rewrite M2. rewrite !app_length. cbn [length]. reflexivity.
    + destruct K as [K1 K2]. constructor; auto. intro E. specialize (K2 E). destruct A; discriminate.
Qed.

Lemma get_good s m : sinv s m -> good s m (s_step_fn s LGet).
Proof.
  intros (p & h & gF & gI & gM & gN & pend & B). cbn [s_step_fn]. destruct (w_pc (s_w s)) as [| |k hs ws] eqn:PC; try exact Logic.I.
  pose proof B as [Q L T Mi K]. pose proof Q as [Qp Qm Qs Qc Qcap Qh Qt Qok QF QI QM QN Qst Qa Qw Qf Qfi Qe]. pose proof (pow_63 p Qp) as HP.
  unfold get_packet. cbv zeta. set (wt := if w_active (s_w s) =? w_tail (s_w s) then s_tail s else w_tail (s_w s)).
  set (w1 := {| w_tail := wt; w_active := w_active (s_w s); w_start := w_start (s_w s); w_pc := w_pc (s_w s); w_empty := false; w_flight := w_flight (s_w s); w_fin := w_fin (s_w s) |}).
  (* after the cached tail has been refreshed *)
  assert (RE : exists gM' gN', gF ++ gI ++ gM' ++ gN' = gF ++ gI ++ gM ++ gN /\ binv p h gF gI gM' gN' pend (set_writer s w1) m /\ (gM' = [] -> gN' = [])
               /\ (w_active (s_w s) = wt <-> gM' = [])).
  { destruct gM as [|g0 gU].
    - cbn [act_of app] in *. rewrite Z.add_0_r in Qa. assert (AW : w_active (s_w s) = w_tail (s_w s)) by (rewrite Qa, Qw, app_nil_r; reflexivity).
      assert (WT : wt = s_tail s) by (unfold wt; rewrite AW, Z.eqb_refl; reflexivity).
      exists gN, []. rewrite app_nil_r. split; [reflexivity|]. split; [|split; [auto|]].
      + constructor; rewrite ?app_nil_r; sred; auto. constructor; rewrite ?app_nil_r; sred; auto.
        * destruct QN as [|g r F1 F2]; [exact Logic.I|]. split; [apply F1|exact F2].
        * rewrite act_fresh, Z.add_0_r by auto. exact Qa.
        * change (w_tail w1) with wt. rewrite WT. exact Qt.
        * change (w_flight w1) with (w_flight (s_w s)). rewrite Qf, !app_assoc, !flights_app. cbn [flights]. rewrite (flights_zero _ gN) by now apply fresh_out. reflexivity.
        * discriminate.
      + rewrite WT, Qa, Qt. split.
        * intro E. apply w64_inj in E; [|rewrite !glen_app in *; pose proof (glen_nonneg gF); pose proof (glen_nonneg gI); pose proof (glen_nonneg gN); lia].
          apply (gs_nil (h + glen (gF ++ gI))); [rewrite app_assoc in Qok; apply groups_ok_app in Qok; apply Qok|rewrite !glen_app in *; lia].
        * intros ->. now rewrite app_nil_r.
    - exists (g0 :: gU), gN.
      assert (NE : w_active (s_w s) <> w_tail (s_w s)).
      { destruct QM as [[R0 _] _]. apply nth_ready_lt in R0. cbn [act_of] in Qa. rewrite Qa, Qw. intro E.
        rewrite !glen_app, !glen_cons in *. pose proof (glen_nonneg gF). pose proof (glen_nonneg gI). pose proof (glen_nonneg gN). pose proof (glen_nonneg gU).
        apply w64_inj in E; lia. }
      assert (WT : wt = w_tail (s_w s)) by (unfold wt; destruct (Z.eqb_spec (w_active (s_w s)) (w_tail (s_w s))); [congruence|reflexivity]).
      split; [reflexivity|]. split; [|split; [discriminate|rewrite WT; split; [congruence|discriminate]]].
      constructor; sred; auto. constructor; sred; auto; [change (w_tail w1) with wt; rewrite WT; exact Qw|discriminate]. }
  destruct RE as (gM' & gN' & GS & B1 & RE1 & RE2). destruct (Z.eqb_spec (w_active (s_w s)) wt) as [E|E].
  - apply RE2 in E. subst gM'. specialize (RE1 eq_refl). subst gN'. cbn [good]. intros _. exists m. split; [reflexivity|]. split; [|split; reflexivity].
    exists p, h, gF, gI, [], [], pend. destruct B1 as [Q1 L1 T1 M1 K1]. constructor; auto.
    sred. destruct Q1 as [Rp Rm Rs Rc Rcap Rh Rt Rok RF RI RM RN Rst Ra Rw Rf Rfi Re]. constructor; auto.
  - destruct gM' as [|g0 gU]; [exfalso; apply E, RE2; reflexivity|].
    destruct (take_good (set_writer s w1) m p h gF gI g0 gU gN' pend B1 PC) as (q & x & l & qs & G1 & G2 & G3 & G4). clear RE1 RE2 B1. unfold w1 in *. clear w1. sred. rewrite G1, G2, G3.
    cbv zeta in G4. destruct (match q_mode q with RoundRobin => _ | Serial => _ end) as [[next|]|]; [exact G4|exact G4|exact G4].
Qed.

(** *** The transport has written a packet *)
Lemma on_written_skip a b sz err last : Forall (fun g => mg_left g = [] /\ mg_out g = O) a ->
  on_written (a ++ b) sz err last = match on_written b sz err last with None => None | Some r => Some (a ++ r) end.
Proof.
  induction 1 as [|g a [E1 E2] _ IH]; cbn [app on_written]; [destruct (on_written b sz err last); reflexivity|]. rewrite E2, E1, IH. destruct (on_written b sz err last); reflexivity.
Qed.

Lemma same_links st (l : list qitem) i q q' : nth_error l i = Some q -> q_pkts q' = q_pkts q -> q_next q' = q_next q -> links st l -> links st (upd l i q').
Proof.
  intros H E1 E2 OL j y Y. assert (EX : forall k, nth_empty l k -> nth_empty (upd l i q') k).
  { intros k (z & Z1 & Z2). destruct (Nat.eq_dec k i) as [->|N]; [|exists z; rewrite upd_other by auto; auto]. rewrite H in Z1. injection Z1 as <-.
    exists q'. split; [apply upd_same; apply nth_error_Some; congruence|congruence]. }
  rewrite upd_length. destruct (Nat.eq_dec j i) as [->|N].
  - rewrite upd_same in Y by (apply nth_error_Some; congruence). injection Y as <-. destruct (OL i q H) as (d & D1 & D2 & D3). exists d. split; [exact D1|]. split; [congruence|]. intros e He. auto.
  - rewrite upd_other in Y by auto. destruct (OL j y Y) as (d & D1 & D2 & D3). exists d. split; [exact D1|]. split; [exact D2|]. intros e He. auto.
Qed.

Lemma written_good s m wr err : sinv s m -> good s m (s_step_fn s (LWritten wr err)).
Proof.
  intros (p & h & gF & gI & gM & gN & pend & B). cbn [s_step_fn]. destruct (w_pc (s_w s)) as [| |k hs ws] eqn:PC; try exact Logic.I.
  destruct (w_flight (s_w s)) as [|[i lst] fl] eqn:FL; [exact Logic.I|].
  pose proof B as [Q L T Mi K]. pose proof Q as [Qp Qm Qs Qc Qcap Qh Qt Qok QF QI QM QN Qst Qa Qw Qf Qfi Qe]. pose proof (pow_63 p Qp) as HP.
  set (st := h + glen gF) in *.
  assert (FF : flights h gF = []) by (apply flights_zero; eapply Forall_impl; [|exact QF]; cbn beta; tauto).
  (* the group the packet belongs to *)
  assert (GRP : exists g C k, gF ++ gI ++ gM ++ gN = gF ++ g :: C /\ ag_out g = S k /\
     (i, lst) :: fl = repeat (w64 st, false) k ++ (w64 st, done_b (ag_items g)) :: flights (st + Z.of_nat (length (ag_items g))) (removelast [] ++ match gI with _ :: r => r ++ gM | [] => tl gM end) /\
     ((exists r, gI = g :: r) \/ (gI = [] /\ exists r, gM = g :: r))).
  { rewrite Qf, flights_app, FF in FL. cbn [app] in FL. fold st in FL. destruct gI as [|g r].
    - destruct gM as [|g r]; [discriminate|]. cbn [app flights] in FL. destruct QM as [R0 QU]. rewrite (flights_zero _ r) in FL by now apply fresh_out.
      rewrite app_nil_r in FL. destruct (ag_out g) as [|k] eqn:O; [unfold gflight in FL; rewrite O in FL; discriminate|].
      exists g, (r ++ gN), k. split; [reflexivity|]. split; [exact O|]. split; [|right; eauto].
      cbn [removelast app tl]. rewrite (flights_zero _ r) by now apply fresh_out. unfold gflight in FL. rewrite O in FL. now rewrite FL.
    - inversion QI as [|? ? [X1 X2] X3]; subst. destruct (ag_out g) as [|k] eqn:O; [lia|]. exists g, (r ++ gM ++ gN), k. split; [reflexivity|]. split; [exact O|].
      split; [|left; eauto]. cbn [removelast app]. cbn [app flights] in FL. rewrite <- FL. unfold gflight. rewrite O. now rewrite <- app_assoc. }
  cbn [removelast app] in GRP. destruct GRP as (g & C & k & GS & OUT & FLE & WHERE).
  assert (IST : i = w64 st) by (destruct k; cbn [repeat app] in FLE; injection FLE; auto).
  assert (LST : lst = match k with O => done_b (ag_items g) | S _ => false end) by (destruct k; cbn [repeat app] in FLE; injection FLE; auto).
  assert (FL' : fl = match k with O => [] | S k' => repeat (w64 st, false) k' ++ [(w64 st, done_b (ag_items g))] end
                     ++ flights (st + Z.of_nat (length (ag_items g))) match gI with _ :: r => r ++ gM | [] => tl gM end).
  { destruct k; cbn [repeat app] in FLE; injection FLE as _ _ FLE; rewrite FLE; [reflexivity|]. now rewrite <- app_assoc. }
  clear FLE. subst i.
  assert (G0 : ag_ok st g /\ groups_ok (st + Z.of_nat (length (ag_items g))) C /\ groups_ok h gF).
  { rewrite GS in Qok. apply groups_ok_app in Qok as [X Y]. cbn [groups_ok] in Y. unfold st. tauto. }
  destruct G0 as (OK0 & OKC & OKF). destruct (ok_handler _ _ OK0) as (q & r & IT0 & HQ).
  assert (NQ : nth_error (ag_items g) 0 = Some q) by now rewrite IT0.
  assert (IT : its (gF ++ gI ++ gM ++ gN) ++ pend = its gF ++ ag_items g ++ (its C ++ pend)).
  { rewrite GS, its_app. cbn [its flat_map]. fold (its C). now rewrite <- !app_assoc. }
  rewrite IT in Qc. assert (IX : w64 st = w64 (h + Z.of_nat (length (its gF)) + Z.of_nat 0)) by (unfold st, glen; f_equal; lia).
  rewrite IX, Qm. rewrite (circ_at p _ h (its gF) (ag_items g) _ O q Qp Qc NQ).
  pose proof (circ_put p _ h (its gF) (ag_items g) _ O (account q wr err) Qp Qc ltac:(rewrite IT0; cbn [length]; lia)) as C1.
  set (sl' := put_queue _ _ _ _) in *. cbn [good]. intros _.
  set (l1 := upd (ag_items g) 0 (account q wr err)) in *.
  set (g1 := {| ag_id := ag_id g; ag_mode := ag_mode g; ag_items := l1; ag_act := ag_act g; ag_out := k |}).
  assert (L1 : length l1 = length (ag_items g)) by apply upd_length.
  assert (OK1 : ag_ok st g1).
  { apply (ag_ok_upd st g O q (account q wr err)); auto. intro MR. apply (same_links st _ O q); auto. apply (ok_links _ _ OK0 MR). }
  assert (DB : done_b l1 = done_b (ag_items g)) by (unfold l1; rewrite IT0; reflexivity).
  assert (LI1 : ag_left g1 = ag_left g).
  { unfold ag_left, left_of. cbn [g1 ag_mode ag_items ag_act]. assert (E : lists l1 = lists (ag_items g)) by (unfold l1; rewrite IT0; reflexivity). now rewrite E. }
  assert (EXH : exhausted (ag_items g) -> exhausted l1) by (rewrite <- !done_b_iff, DB; auto).
  assert (RUN : running g -> running g1).
  { intros [(y & a & b & Y1 & Y2) RS]. split.
    - cbn [g1 ag_items ag_act]. destruct (Nat.eq_dec (ag_act g) 0) as [Z0|N].
      + rewrite Z0 in *. rewrite NQ in Y1. injection Y1 as <-. exists (account q wr err), a, b. split; [unfold l1; rewrite IT0; reflexivity|exact Y2].
      + exists y, a, b. split; [unfold l1; now rewrite upd_other by auto|exact Y2].
    - cbn [g1 ag_mode ag_items ag_act]. intros MS j Hj. destruct (RS MS j Hj) as (z & Z1 & Z2). destruct (Nat.eq_dec j 0) as [->|N].
      + rewrite NQ in Z1. injection Z1 as <-. exists (account q wr err). split; [unfold l1; rewrite IT0; reflexivity|exact Z2].
      + exists z. split; [unfold l1; now rewrite upd_other by auto|exact Z2]. }
  (* monitor *)
  destruct Mi as [M1 M2 M3 M4 M5].
  assert (LF : lst = match k, ag_left g with O, [] => true | _, _ => false end).
  { rewrite LST. destruct k; [|reflexivity]. destruct (done_b (ag_items g)) eqn:D.
    - apply done_b_iff in D. rewrite (exhausted_left g D). reflexivity.
    - destruct WHERE as [(r' & W)|(_ & r' & W)].
      + rewrite W in QI. inversion QI as [|? ? [X1 _] _]; subst. apply done_b_iff in X1. congruence.
      + rewrite W in QM. destruct QM as [R0 _]. destruct (running_left g R0) as (? & ? & ? & _ & _ & E). rewrite E. reflexivity. }
  assert (MON : on_written (sm_groups m) wr err lst = Some (map hdone (pc_hs (w_pc (s_w s))) ++ map mg_of (gF ++ g1 :: C))).
  { rewrite M1, GS. rewrite !map_app, !app_assoc. rewrite on_written_skip.
    - cbn [map on_written mg_of mg_out]. rewrite OUT. cbn [mg_left]. rewrite LF, Bool.eqb_reflx. do 3 f_equal. unfold mg_of. rewrite LI1. cbn [g1 ag_id ag_out ag_items].
      unfold l1. rewrite IT0. cbn [upd gbytes gerr account q_bytes q_result]. reflexivity.
    - apply Forall_app. split.
      + clear. induction (pc_hs (w_pc (s_w s))) as [|[[id r] b] hs IH]; cbn [map]; constructor; auto.
      + clear - QF. induction QF as [|x l [X1 X2] _ IH]; cbn [map]; constructor; auto. cbn [mg_of mg_left mg_out]. split; [now apply exhausted_left|exact X2]. }
  eexists. cbn [smon_run smon_step]. rewrite MON. split; [reflexivity|]. split; [|split; reflexivity].
  assert (GL : glen (gF ++ g1 :: C) = glen (gF ++ g :: C)) by (rewrite !glen_app, !glen_cons; cbn [g1 ag_items]; lia).
  assert (CIRC : circ p sl' h (its (gF ++ g1 :: C) ++ pend)) by (rewrite its_app; cbn [its flat_map]; fold (its C); cbn [g1 ag_items]; rewrite <- !app_assoc; exact C1).
  assert (OKS : groups_ok h (gF ++ g1 :: C)).
  { apply groups_ok_app. split; [exact OKF|]. cbn [groups_ok]. fold st. split; [exact OK1|]. cbn [g1 ag_items]. now rewrite L1. }
  assert (TI : tinv (gF ++ g1 :: C) (length (pc_hs (w_pc (s_w s)))) (pc_ws (w_pc (s_w s))) (s_threads s) m).
  { rewrite GS in T. eapply tinv_waits; [|exact T]. apply Forall2_app; [now apply Forall2_refl|]. constructor; [|now apply Forall2_refl]. unfold gwait. cbn [g1 ag_items]. symmetry. now apply waits_upd with (q := q). }
  assert (DONE : forall gF' gI' gM', gF' ++ gI' ++ gM' ++ gN = gF ++ g1 :: C ->
     Forall (fun g => exhausted (ag_items g) /\ ag_out g = O) gF' -> Forall (fun g => exhausted (ag_items g) /\ (0 < ag_out g)%nat) gI' ->
     match gM' with [] => True | g :: r => running g /\ Forall fresh r end ->
     glen (gF' ++ gI') = glen (gF ++ gI) -> act_of gM' = act_of gM -> glen (gF' ++ gI' ++ gM') = glen (gF ++ gI ++ gM) -> fl = flights h (gF' ++ gI' ++ gM') ->
     length gF' = (length gF + if lst then 1 else 0)%nat -> (gM = [] -> gM' = []) ->
     sinv (set_writer (set_slots s sl') {| w_tail := w_tail (s_w s); w_active := w_active (s_w s); w_start := w_start (s_w s); w_pc := WRun; w_empty := w_empty (s_w s); w_flight := fl; w_fin := (w_fin (s_w s) + if lst then 1 else 0)%nat |})
       {| sm_groups := map hdone (pc_hs (w_pc (s_w s))) ++ map mg_of (gF ++ g1 :: C); sm_rejected := sm_rejected m; sm_accepted := sm_accepted m; sm_done := sm_done m;
          sm_target := sm_target m; sm_next := sm_next m; sm_step := sm_step m |}).
  { intros gF' gI' gM' E HF HI HM EG1 EA EG2 EF EN EM. exists p, h, gF', gI', gM', gN, pend. rewrite PC in *. constructor; sred; rewrite ?E.
    - constructor; sred; rewrite ?E; auto.
      + now rewrite GL, <- GS.
      + now rewrite GL, <- GS.
      + now rewrite EG1.
      + now rewrite EG1, EA.
      + now rewrite EG2.
      + rewrite EN, Qfi. lia.
    - now rewrite GL, <- GS.
    - destruct TI as [T1 T2 T3 T4]. constructor; auto.
    - constructor; cbn [sm_groups sm_accepted sm_done sm_rejected sm_next sm_step]; auto. rewrite M2, GS, !app_length. reflexivity.
    - destruct K as [K1 K2]. constructor; auto. intro HN. specialize (K2 HN). rewrite GS in K2. destruct gF; discriminate. }
  destruct WHERE as [(rI & W)|(W0 & rM & W)].
  - (* a group whose packets have all been taken *)
    rewrite W in QI. inversion QI as [|? ? [X1 X2] X3]; subst x l. assert (CC : C = rI ++ gM ++ gN) by (rewrite W in GS; apply app_inv_head in GS; now injection GS).
    pose proof X1 as D. apply done_b_iff in D. rewrite D in LST, FL'. rewrite W in FL'. destruct k as [|k].
    + apply (DONE (gF ++ [g1]) rI gM); auto.
      * rewrite CC. now rewrite <- app_assoc.
      * apply Forall_app. split; [exact QF|]. constructor; [|constructor]. split; [now apply EXH|reflexivity].
      * rewrite W, !glen_app, !glen_cons, glen_nil. cbn [g1 ag_items]. lia.
      * rewrite W, !glen_app, !glen_cons, glen_nil. cbn [g1 ag_items]. lia.
      * rewrite FL'. cbn [app]. rewrite <- (app_assoc gF), (flights_app gF), FF. cbn [app flights]. unfold gflight. cbn [g1 ag_out ag_items app]. fold st. now rewrite L1.
      * rewrite app_length, LST. cbn [length]. reflexivity.
    + apply (DONE gF (g1 :: rI) gM); auto.
      * now rewrite CC.
      * constructor; [|exact X3]. cbn [g1 ag_items ag_out]. split; [now apply EXH|lia].
      * rewrite W, !glen_app, !glen_cons. cbn [g1 ag_items]. lia.
      * rewrite W, !glen_app. cbn [app]. rewrite !glen_cons. cbn [g1 ag_items]. lia.
      * rewrite FL', (flights_app gF), FF. cbn [app flights]. unfold gflight. cbn [g1 ag_out ag_items]. fold st. rewrite DB, D, L1. reflexivity.
      * rewrite LST. lia.
  - (* the group being taken *)
    rewrite W in QM. destruct QM as [R0 QU]. assert (CC : C = rM ++ gN) by (rewrite W0, W in GS; apply app_inv_head in GS; now injection GS).
    pose proof (running_not_done g R0) as D. rewrite D in LST, FL'. assert (LST' : lst = false) by (destruct k; exact LST). rewrite W0, W in FL'. cbn [tl] in FL'.
    apply (DONE gF [] (g1 :: rM)); auto.
    + now rewrite CC.
    + now rewrite W0.
    + now rewrite W.
    + rewrite W0, W. cbn [app]. rewrite !glen_app, !glen_cons. cbn [g1 ag_items]. lia.
    + rewrite FL', (flights_app gF), FF. cbn [app flights]. fold st. cbn [g1 ag_items]. rewrite L1. f_equal. unfold gflight. cbn [g1 ag_out ag_items]. rewrite DB, D. reflexivity.
    + rewrite LST'. lia.
    + rewrite W. discriminate.
Qed.
