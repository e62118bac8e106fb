(** Invariant of the send stream: the other steps. *)
From Coq Require Import ZArith List Bool Lia.
From Verif Require Import Base ConcBase SendStreamModel SendStreamSpec SendStreamBase SendStreamProofs.
Import ListNotations.
Open Scope Z_scope.

Ltac sred := cbn [set_thread set_lock set_need set_tail set_head set_seq set_slots set_io set_posted set_writer set_wpc
                  s_size s_mask s_slots s_tail s_head s_w s_nsub s_next s_step s_lock s_threads s_io s_need s_posted
                  w_tail w_active w_start w_pc w_empty w_flight w_fin pc_n pc_hs pc_ws busy] in *.

Lemma user_good s m t : sinv s m -> good s m (s_step_fn s (LUser t)).
Proof.
  intros SI. cbn [s_step_fn]. unfold user_step. destruct (nth_error (s_threads s) t) as [pc|] eqn:Ht; [|exact Logic.I].
  destruct pc as [|rq [|hp todo] orig tail hd ncnt added|id err orig tail|orig tail| |b].
  - exact Logic.I.
  - eapply commit_good; eauto.
  - eapply user_add_good; eauto.
  - destruct SI as (p & h & gF & gI & gM & gN & pend & [Q L T Mi K]). cbn [good]. intros _. exists m. split; [reflexivity|]. split; [|split; reflexivity].
    exists p, h, gF, gI, gM, gN, pend. constructor; sred; auto.
    + eapply linv_thread; eauto. exact (li_rej _ _ _ _ _ _ _ _ _ L t _ Ht).
    + eapply tinv_thread; eauto.
    + destruct Mi as [M1 M2 M3 M4 M5]. constructor; auto. intro x. rewrite M3, sumw_app. cbn [sumw].
      pose proof (sumw_upd (rejw x) (s_threads s) t _ (UUnwind orig tail) Ht) as U. cbn [rejw] in U. lia.
    + eapply kinv_thread; eauto.
  - destruct SI as (p & h & gF & gI & gM & gN & pend & [Q L T Mi K]). pose proof (li_rej _ _ _ _ _ _ _ _ _ L t _ Ht) as E. cbn beta iota in E. subst orig.
    assert (AB : abort (length (s_slots s)) (s_mask s) (s_slots s) tail tail = Some (s_slots s)) by (destruct (length (s_slots s)); cbn [abort]; now rewrite Z.eqb_refl).
    rewrite AB. cbn [good]. intros _. exists m. split; [reflexivity|]. split; [|split; reflexivity].
    exists p, h, gF, gI, gM, gN, pend. constructor; sred; auto; [eapply linv_thread|eapply tinv_thread|eapply minv_thread|eapply kinv_thread]; eauto.
  - destruct SI as (p & h & gF & gI & gM & gN & pend & [Q L T Mi K]). cbn [good]. intros _. exists m. split; [reflexivity|]. split; [|split; reflexivity].
    exists p, h, gF, gI, gM, gN, pend. constructor; sred; auto.
    + eapply linv_thread; eauto.
    + eapply tinv_thread; eauto.
    + eapply minv_thread; eauto.
    + destruct K as [K1 K2]. constructor; auto. pose proof (sumw_upd wakew (s_threads s) t _ UIdle Ht) as U. cbn [wakew] in U. lia.
  - destruct b; [|exact Logic.I]. destruct SI as (p & h & gF & gI & gM & gN & pend & [Q L T Mi K]). cbn [good]. intros _. exists m.
    split; [|split; [|split; reflexivity]].
    + cbn [smon_run smon_step]. pose proof (ti_sig _ _ _ _ _ T t Ht) as S1. apply Nat.leb_le in S1. now rewrite S1.
    + exists p, h, gF, gI, gM, gN, pend. constructor; sred; auto.
      * eapply linv_thread; eauto.
      * assert (Lt : (t < length (s_threads s))%nat) by (apply nth_error_Some; congruence). destruct T as [T1 T2 T3 T4]. constructor; auto.
        -- intro t'. rewrite T1, flushing_upd by auto. destruct (Nat.eqb_spec t' t) as [E|E]; [|reflexivity]. unfold flushing. rewrite E, Ht. reflexivity.
        -- intros t' Hq. rewrite nth_upd in Hq. destruct (Nat.eqb_spec t' t) as [E|E]; [|now apply T4]. destruct (t <? length (s_threads s))%nat; discriminate.
      * eapply minv_thread; eauto.
      * eapply kinv_thread; eauto.
Qed.

Lemma setseq_good s m next step : sinv s m -> good s m (s_step_fn s (LSetSeq next step)).
Proof.
  intros (p & h & gF & gI & gM & gN & pend & [Q L T Mi K]). cbn [s_step_fn]. destruct (s_lock s) eqn:LK; [exact Logic.I|].
  destruct ((step =? 0) || _); [exact Logic.I|]. cbn [good]. intros _. eexists. cbn [smon_run smon_step]. split; [reflexivity|]. split; [|split; reflexivity].
  exists p, h, gF, gI, gM, gN, pend. constructor; sred; auto.
  - rewrite LK. destruct L as [L1 L2 L3]. constructor; auto.
  - destruct T as [T1 T2 T3 T4]. constructor; auto.
  - destruct Mi as [M1 M2 M3 M4 M5]. constructor; auto.
Qed.

Lemma sumw_remove (w : Z * Z -> nat) l j x : nth_error l j = Some x -> (sumw w (remove_nth j l) + w x = sumw w l)%nat.
Proof.
  revert j. induction l as [|y l IH]; intros [|j] H; cbn [nth_error] in H; try discriminate.
  - injection H as ->. unfold remove_nth. cbn [firstn skipn app sumw]. lia.
  - specialize (IH j H). unfold remove_nth in *. cbn [firstn app sumw]. change (skipn (S (S j)) (y :: l)) with (skipn (S j) l). cbn [sumw]. lia.
Qed.
Lemma remove_first_some x l : (0 < sumw (is_x x) l)%nat -> exists r, remove_first x l = Some r /\ forall y, (sumw (is_x y) r + is_x y x = sumw (is_x y) l)%nat.
Proof.
  induction l as [|y l IH]; cbn [sumw remove_first]; [lia|]. intro H. destruct ((fst x =? fst y) && (snd x =? snd y)) eqn:E.
  - exists l. split; [reflexivity|]. intro z. apply andb_prop in E as [E1 E2]. apply Z.eqb_eq in E1, E2. unfold is_x. rewrite E1, E2. lia.
  - unfold is_x at 1 in H. rewrite E in H. destruct (IH H) as (r & R1 & R2). rewrite R1. exists (y :: r). split; [reflexivity|]. intro z. cbn [sumw]. specialize (R2 z). lia.
Qed.
Lemma io_good s m j : sinv s m -> good s m (s_step_fn s (LIo j)).
Proof.
  intros (p & h & gF & gI & gM & gN & pend & [Q L T Mi K]). cbn [s_step_fn]. destruct (nth_error (s_io s) j) as [[id err]|] eqn:Hj; [|exact Logic.I].
  cbn [good]. intros _. destruct Mi as [M1 M2 M3 M4 M5].
  destruct (remove_first_some (id, err) (sm_rejected m)) as (r & R1 & R2).
  { rewrite M3. pose proof (sumw_ge (is_x (id, err)) (s_io s) j _ Hj) as G. unfold is_x at 1 in G. cbn [fst snd] in G. rewrite !Z.eqb_refl in G. cbn [andb] in G. lia. }
  eexists. cbn [smon_run smon_step]. rewrite R1. split; [reflexivity|]. split; [|split; reflexivity].
  exists p, h, gF, gI, gM, gN, pend. constructor; sred; auto.
  - destruct T as [T1 T2 T3 T4]. constructor; auto.
  - constructor; auto. intro x. cbn [sm_rejected]. specialize (R2 x). specialize (M3 x). pose proof (sumw_remove (is_x x) (s_io s) j _ Hj). lia.
Qed.

(** *** flush *)
Definition sim_item (q q' : qitem) : Prop :=
  q_pkts q = q_pkts q' /\ q_sub q = q_sub q' /\ q_end q = q_end q' /\ q_next q = q_next q' /\ q_mode q = q_mode q' /\ q_bytes q = q_bytes q' /\ q_result q = q_result q' /\ q_handler q = q_handler q'.
Lemma sim_refl q : sim_item q q. Proof. repeat split. Qed.
Definition sim_group (g g' : ag) : Prop :=
  ag_id g = ag_id g' /\ ag_mode g = ag_mode g' /\ ag_act g = ag_act g' /\ ag_out g = ag_out g' /\ Forall2 sim_item (ag_items g) (ag_items g').
Lemma sims_refl l : Forall2 sim_item l l. Proof. induction l; constructor; auto. apply sim_refl. Qed.
Lemma simg_refl g : sim_group g g. Proof. repeat split. apply sims_refl. Qed.
Lemma simgs_refl l : Forall2 sim_group l l. Proof. induction l; constructor; auto. apply simg_refl. Qed.

Lemma sims_sym l l' : Forall2 sim_item l l' -> Forall2 sim_item l' l.
Proof. induction 1 as [|q q' l l' H _ IH]; constructor; auto. unfold sim_item in *. intuition congruence. Qed.
Lemma simgs_sym l l' : Forall2 sim_group l l' -> Forall2 sim_group l' l.
Proof. induction 1 as [|q q' l l' H _ IH]; constructor; auto. destruct H as (A & B & C & D & E). repeat split; auto. now apply sims_sym. Qed.
Lemma Forall2_nth_l {A B} (R : A -> B -> Prop) l l' i x : Forall2 R l l' -> nth_error l i = Some x -> exists y, nth_error l' i = Some y /\ R x y.
Proof.
  intro H. revert i. induction H as [|a b l l' HR _ IH]; intros [|i] E; cbn [nth_error] in *; try discriminate; [injection E as <-; eauto|auto].
Qed.
Lemma sim_empty l l' i : Forall2 sim_item l l' -> nth_empty l i -> nth_empty l' i.
Proof. intros H (q & Q & E). destruct (Forall2_nth_l _ _ _ _ _ H Q) as (q' & Q' & S). exists q'. split; [exact Q'|]. unfold sim_item in S. intuition congruence. Qed.
Lemma sim_ready l l' i : Forall2 sim_item l l' -> nth_ready l i -> nth_ready l' i.
Proof. intros H (q & p & r & Q & E). destruct (Forall2_nth_l _ _ _ _ _ H Q) as (q' & Q' & S). exists q', p, r. split; [exact Q'|]. unfold sim_item in S. intuition congruence. Qed.
Lemma Forall2_len {A B} (R : A -> B -> Prop) l l' : Forall2 R l l' -> length l = length l'.
Proof. induction 1; cbn [length]; auto. Qed.
Lemma sim_exhausted l l' : Forall2 sim_item l l' -> exhausted l -> exhausted l'.
Proof. induction 1 as [|q q' l l' H _ IH]; intro E; [constructor|]. inversion E; subst. constructor; [|now apply IH]. unfold sim_item in H. intuition congruence. Qed.
Lemma sim_done l l' : Forall2 sim_item l l' -> done_b l = done_b l'.
Proof.
  intro H. pose proof (sim_exhausted _ _ H) as A. pose proof (sim_exhausted _ _ (sims_sym _ _ H)) as B.
  destruct (done_b l) eqn:E1, (done_b l') eqn:E2; auto; [apply done_b_iff in E1; apply A, done_b_iff in E1; congruence|apply done_b_iff in E2; apply B, done_b_iff in E2; congruence].
Qed.
Lemma sim_lists l l' : Forall2 sim_item l l' -> lists l = lists l'.
Proof.
  induction 1 as [|q q' l l' H _ IH]; cbn [lists map]; [reflexivity|]. f_equal; [|exact IH]. unfold ipk. destruct H as (A & B & _). now rewrite A, B.
Qed.
Lemma sim_left g g' : sim_group g g' -> ag_left g = ag_left g'.
Proof. intros (A & B & C & D & E). unfold ag_left, left_of. now rewrite B, C, (sim_lists _ _ E). Qed.
Lemma sim_mg g g' : sim_group g g' -> mg_of g = mg_of g'.
Proof.
  intro S. pose proof (sim_left _ _ S) as HL. destruct S as (A & B & C & D & E). unfold mg_of. rewrite HL, A, D.
  inversion E as [|q q' l l' H ? E1 E2]; [reflexivity|]. cbn [gbytes gerr]. unfold sim_item in H. destruct H as (_ & _ & _ & _ & _ & H1 & H2 & _). now rewrite H1, H2.
Qed.
Lemma sim_ok st g g' : sim_group g g' -> ag_ok st g -> ag_ok st g'.
Proof.
  intros (A & B & C & D & E) [O1 O2 O3 O4]. pose proof (Forall2_len _ _ _ E) as HL. constructor.
  - intro K. rewrite K in HL. destruct (ag_items g); [congruence|discriminate].
  - rewrite <- HL, <- B. generalize (length (ag_items g)) O2. intro n. clear - E. induction E as [|q q' l l' S _ IH]; intro F; [constructor|]. inversion F as [|? ? F1 F2]; subst.
    constructor; [|now apply IH]. unfold sim_item in S. intuition congruence.
  - destruct O3 as (q & r & O3 & O5). rewrite O3 in E. inversion E as [|? q' ? l' S]; subst. exists q', l'. split; [reflexivity|]. unfold sim_item in S. intuition congruence.
  - intros M i q' Hq. rewrite <- B in M. destruct (Forall2_nth_l _ _ _ _ _ (sims_sym _ _ E) Hq) as (q & Q & S). destruct (O4 M i q Q) as (d & D1 & D2 & D3).
    exists d. rewrite <- HL. split; [exact D1|]. split; [unfold sim_item in S; intuition congruence|]. intros e He. eapply sim_empty; eauto.
Qed.
Lemma sim_running g g' : sim_group g g' -> running g -> running g'.
Proof.
  intros (A & B & C & D & E) [R1 R2]. split; [rewrite <- C; eapply sim_ready; eauto|]. rewrite <- B, <- C. intros M i Hi. eapply sim_empty; eauto.
Qed.
Lemma sim_fresh g g' : sim_group g g' -> fresh g -> fresh g'.
Proof. intros S (F1 & F2 & F3). split; [eapply sim_running; eauto|]. destruct S as (A & B & C & D & E). split; congruence. Qed.
Lemma Forall_sim (P : ag -> Prop) l l' : (forall g g', sim_group g g' -> P g -> P g') -> Forall2 sim_group l l' -> Forall P l -> Forall P l'.
Proof. intros H. induction 1; intro F; [constructor|]. inversion F; subst. constructor; eauto. Qed.
Lemma sim_glen l l' : Forall2 sim_group l l' -> glen l = glen l'.
Proof.
  induction 1 as [|g g' l l' H _ IH]; [reflexivity|]. rewrite !glen_cons, IH. destruct H as (_ & _ & _ & _ & E). now rewrite (Forall2_len _ _ _ E).
Qed.
Lemma sim_groups_ok l l' : Forall2 sim_group l l' -> forall st, groups_ok st l -> groups_ok st l'.
Proof.
  induction 1 as [|g g' l l' H _ IH]; intros st; cbn [groups_ok]; [auto|]. intros [O1 O2]. split; [eapply sim_ok; eauto|].
  destruct H as (_ & _ & _ & _ & E). rewrite <- (Forall2_len _ _ _ E). auto.
Qed.
Lemma sim_flights l l' : Forall2 sim_group l l' -> forall st, flights st l = flights st l'.
Proof.
  induction 1 as [|g g' l l' H _ IH]; intros st; cbn [flights]; [reflexivity|]. destruct H as (_ & _ & _ & D & E). unfold gflight.
  now rewrite D, (sim_done _ _ E), (Forall2_len _ _ _ E), IH.
Qed.
Lemma sim_mgs l l' : Forall2 sim_group l l' -> map mg_of l = map mg_of l'.
Proof. induction 1 as [|g g' l l' H _ IH]; cbn [map]; [reflexivity|]. now rewrite (sim_mg _ _ H), IH. Qed.

Lemma qinv_sim p h gF gI gM gN pend size mask sl tail head w gF' gI' gM' gN' sl' :
  qinv p h gF gI gM gN pend size mask sl tail head w ->
  Forall2 sim_group gF gF' -> Forall2 sim_group gI gI' -> Forall2 sim_group gM gM' -> Forall2 sim_group gN gN' ->
  circ p sl' h (its (gF' ++ gI' ++ gM' ++ gN') ++ pend) ->
  qinv p h gF' gI' gM' gN' pend size mask sl' tail head w.
Proof.
  intros [Qp Qm Qs Qc Qcap Qh Qt Qok QF QI QM QN Qst Qa Qw Qf Qfi Qe] SF SI SM SN C.
  assert (S2 : Forall2 sim_group (gF ++ gI) (gF' ++ gI')) by (apply Forall2_app; auto).
  assert (S3 : Forall2 sim_group (gF ++ gI ++ gM) (gF' ++ gI' ++ gM')) by (repeat apply Forall2_app; auto).
  assert (S4 : Forall2 sim_group (gF ++ gI ++ gM ++ gN) (gF' ++ gI' ++ gM' ++ gN')) by (repeat apply Forall2_app; auto).
  constructor; auto.
  - now rewrite <- (sim_glen _ _ S4).
  - now rewrite <- (sim_glen _ _ S4).
  - eapply sim_groups_ok; eauto.
  - eapply Forall_sim; [|exact SF|exact QF]. cbn beta. intros g g' (_ & _ & _ & D & E) [X Y]. split; [eapply sim_exhausted; eauto|congruence].
  - eapply Forall_sim; [|exact SI|exact QI]. cbn beta. intros g g' (_ & _ & _ & D & E) [X Y]. split; [eapply sim_exhausted; eauto|congruence].
  - inversion SM as [|g g' l l' H HL E1 E2]; [exact Logic.I|]. subst gM. destruct QM as [X Y]. split; [eapply sim_running; eauto|]. eapply Forall_sim; [|exact HL|exact Y]. apply sim_fresh.
  - eapply Forall_sim; [|exact SN|exact QN]. apply sim_fresh.
  - now rewrite <- (sim_glen _ _ S2).
  - rewrite <- (sim_glen _ _ S2), Qa. do 2 f_equal. inversion SM as [|g g' l l' H HL E1 E2]; [reflexivity|]. cbn [act_of]. destruct H as (_ & _ & H & _). now rewrite H.
  - now rewrite <- (sim_glen _ _ S3).
  - now rewrite <- (sim_flights _ _ S3).
  - now rewrite <- (Forall2_len _ _ _ SF).
  - intro E. specialize (Qe E). subst gM. inversion SM. reflexivity.
Qed.

Lemma gwait_upd l i q q' t : nth_error l i = Some q -> (occ t (flat_map q_waiters (upd l i q')) + occ t (q_waiters q) = occ t (flat_map q_waiters l) + occ t (q_waiters q'))%nat.
Proof.
  revert i. induction l as [|x l IH]; intros [|i] H; cbn [nth_error upd flat_map] in *; try discriminate; rewrite !occ_app; [injection H as ->; lia|]. specialize (IH i H). lia.
Qed.

Lemma flush_good s m t : sinv s m -> good s m (s_step_fn s (LFlush t)).
Proof.
  intros (p & h & gF & gI & gM & gN & pend & [Q L T Mi K]). cbn [s_step_fn]. destruct (nth_error (s_threads s) t) as [[]|] eqn:Ht; try exact Logic.I.
  destruct (s_lock s) eqn:LK; [exact Logic.I|]. assert (Lt : (t < length (s_threads s))%nat) by (apply nth_error_Some; congruence).
  pose proof Q as [Qp Qm Qs Qc Qcap Qh Qt Qok QF QI QM QN Qst Qa Qw Qf Qfi Qe]. set (gs := gF ++ gI ++ gM ++ gN) in *. pose proof (pow_63 p Qp) as HP.
  assert (IDLE : forall t', t' = t -> flushing (s_threads s) t' = O) by (intros t' ->; unfold flushing; now rewrite Ht).
  destruct (Z.eqb_spec (s_head s) (s_tail s)) as [E|E].
  - cbn [good]. intros _. rewrite Qh, Qt in E. apply w64_inj in E; [|pose proof (glen_nonneg gs); lia]. assert (G0 : gs = []) by (apply (gs_nil h); [exact Qok|lia]).
    destruct Mi as [M1 M2 M3 M4 M5]. rewrite G0 in M1. cbn [map] in M1. rewrite app_nil_r in M1.
    eexists. cbn [smon_run smon_step sm_groups]. rewrite M1.
    assert (A : forallb sent (map hdone (pc_hs (w_pc (s_w s)))) = true).
    { clear. induction (pc_hs (w_pc (s_w s))) as [|[[id r] b] hs IH]; cbn [map forallb]; [reflexivity|]. now rewrite IH. }
    rewrite A. split; [reflexivity|]. split; [|split; reflexivity]. exists p, h, gF, gI, gM, gN, pend. fold gs. constructor; auto; fold gs; rewrite ?LK; auto.
    + destruct T as [T1 T2 T3 T4]. constructor; cbn [sm_target sm_done]; auto.
      * intros j g t' Hj. rewrite G0 in Hj. destruct j; discriminate.
      * intros t' Hin. destruct (Nat.eqb_spec t' t) as [E'|E']; [|auto]. apply occ_in in Hin. specialize (T1 t'). rewrite (IDLE t' E') in T1. lia.
      * intros t' Hs. destruct (Nat.eqb_spec t' t) as [E'|E']; [|auto]. congruence.
    + constructor; cbn [sm_groups sm_accepted sm_done sm_rejected sm_next sm_step]; auto. now rewrite G0, app_nil_r.
  - destruct (exists_last (l := gs)) as (A & g & GS).
    { intro G0. apply E. rewrite Qh, Qt, G0, glen_nil. f_equal. lia. }
    assert (GO : ag_ok (h + glen A) g) by (rewrite GS in Qok; apply groups_ok_app in Qok as [_ Qok]; apply Qok).
    pose proof (ok_ne _ _ GO) as NE. destruct (exists_last NE) as (l0 & q & GI).
    set (g' := {| ag_id := ag_id g; ag_mode := ag_mode g; ag_items := upd (ag_items g) (length l0) (add_waiter q t); ag_act := ag_act g; ag_out := ag_out g |}).
    assert (NQ : nth_error (ag_items g) (length l0) = Some q) by (rewrite GI, nth_error_app2, Nat.sub_diag by lia; reflexivity).
    assert (SG : sim_group g g').
    { repeat split. cbn [g' ag_items]. rewrite GI. rewrite <- (Nat.add_0_r (length l0)). rewrite upd_app2. cbn [upd]. apply Forall2_app; [apply sims_refl|]. constructor; [repeat split|constructor]. }
    assert (IT : its gs ++ pend = its A ++ ag_items g ++ pend) by (rewrite GS, its_app; cbn [its flat_map]; now rewrite app_nil_r, <- app_assoc).
    assert (IX : w64 (s_tail s - 1) = w64 (h + Z.of_nat (length (its A)) + Z.of_nat (length l0))).
    { rewrite Qt, w64_sub. f_equal. rewrite GS, glen_app, glen_cons, glen_nil, GI, app_length. cbn [length]. change (glen A) with (Z.of_nat (length (its A))). lia. }
    rewrite IT in Qc. rewrite IX, Qm. rewrite (circ_at p _ h (its A) (ag_items g) pend (length l0) q Qp Qc NQ).
    pose proof (circ_put p _ h (its A) (ag_items g) pend (length l0) (add_waiter q t) Qp Qc ltac:(apply nth_error_Some; congruence)) as C2.
    set (sl' := put_queue _ _ _ _) in *. cbn [good]. intros _. eexists. cbn [smon_run smon_step]. split; [reflexivity|]. split; [|split; reflexivity].
    assert (SGS : Forall2 sim_group gs (A ++ [g'])) by (rewrite GS; apply Forall2_app; [apply simgs_refl|constructor; [exact SG|constructor]]).
    assert (IT' : its (A ++ [g']) ++ pend = its A ++ upd (ag_items g) (length l0) (add_waiter q t) ++ pend) by (rewrite its_app; cbn [its flat_map g' ag_items]; now rewrite app_nil_r, <- app_assoc).
    rewrite <- IT' in C2. pose proof SGS as SGS'. unfold gs in SGS'.
    apply Forall2_app_inv_l in SGS' as (gF' & R1 & SF & SGS' & E1). apply Forall2_app_inv_l in SGS' as (gI' & R2 & SI & SGS' & E2). apply Forall2_app_inv_l in SGS' as (gM' & gN' & SM & SN & E3).
    subst R2 R1. rewrite E1 in *. exists p, h, gF', gI', gM', gN', pend.
    constructor; sred; rewrite ?LK.
    + eapply qinv_sim; eauto.
    + rewrite <- (sim_glen _ _ SGS). rewrite <- LK. eapply linv_thread; eauto; rewrite LK; auto.
    + destruct T as [T1 T2 T3 T4].
      assert (OC : forall t', occ t' (waits (A ++ [g'])) = (occ t' (waits gs) + if Nat.eqb t t' then 1 else 0)%nat).
      { intro t'. rewrite GS, !waits_app, !occ_app. cbn [waits flat_map]. rewrite !app_nil_r. change (gwait g') with (flat_map q_waiters (upd (ag_items g) (length l0) (add_waiter q t))).
        pose proof (gwait_upd (ag_items g) (length l0) q (add_waiter q t) t' NQ) as U. cbn [add_waiter q_waiters] in U. unfold gwait. unfold occ in U at 4. cbn [sumw] in U. fold (occ t' (q_waiters q)) in U. lia. }
      constructor; cbn [sm_target sm_done]; rewrite <- ?E1.
      * intro t'. rewrite OC, flushing_upd by auto. specialize (T1 t'). rewrite (Nat.eqb_sym t' t). destruct (Nat.eqb_spec t t') as [E'|E']; [rewrite (IDLE t' (eq_sym E')) in T1; lia|lia].
      * intros j x t' Hj Hin. destruct Mi as [M1 M2 M3 M4 M5]. assert (LG : length gs = S (length A)) by (rewrite GS, app_length; cbn [length]; lia).
        assert (J : (j < length (A ++ [g']))%nat) by (apply nth_error_Some; congruence). rewrite app_length in J. cbn [length] in J.
        destruct (Nat.eq_dec j (length A)) as [->|N].
        -- rewrite nth_error_app2, Nat.sub_diag in Hj by lia. injection Hj as <-. destruct (Nat.eqb_spec t' t) as [E'|E']; [lia|].
           apply (T2 (length A) g t'); [rewrite GS, nth_error_app2, Nat.sub_diag by lia; reflexivity|].
           apply occ_in. apply occ_in in Hin. unfold gwait in Hin |- *. cbn [g' ag_items] in Hin.
           pose proof (gwait_upd (ag_items g) (length l0) q (add_waiter q t) t' NQ) as U. cbn [add_waiter q_waiters] in U. unfold occ in U at 4. cbn [sumw] in U.
           destruct (Nat.eqb_spec t t'); [congruence|]. fold (occ t' (q_waiters q)) in U. lia.
        -- rewrite nth_error_app1 in Hj by lia. assert (Hj' : nth_error gs j = Some x) by (rewrite GS, nth_error_app1 by lia; exact Hj).
           destruct (Nat.eqb_spec t' t) as [E'|E']; [|now apply (T2 j x)]. exfalso. subst t'. specialize (T1 t). rewrite (IDLE t eq_refl) in T1.
           assert (In t (waits gs)) by (apply in_flat_map; exists x; split; [eapply nth_error_In; eauto|exact Hin]). apply occ_in in H. lia.
      * intros t' Hin. destruct (Nat.eqb_spec t' t) as [E'|E']; [|auto]. apply occ_in in Hin. specialize (T1 t'). rewrite (IDLE t' E') in T1. lia.
      * intros t' Hs. rewrite nth_upd in Hs. destruct (Nat.eqb_spec t' t) as [E'|E']; [|auto]. destruct (t <? length (s_threads s))%nat; discriminate.
    + assert (Mi' : minv gs (pc_hs (w_pc (s_w s))) (s_io s) (upd (s_threads s) t (UFlush false)) (s_next s) (s_step s) m) by (eapply minv_thread; eauto).
      destruct Mi' as [M1 M2 M3 M4 M5]. constructor; cbn [sm_groups sm_accepted sm_done sm_rejected sm_next sm_step]; auto.
      * now rewrite <- (sim_mgs _ _ SGS).
      * now rewrite <- (Forall2_len _ _ _ SGS).
    + assert (K' : kinv gs (w_pc (s_w s)) (s_need s) (s_posted s) (upd (s_threads s) t (UFlush false))) by (eapply kinv_thread; eauto).
      destruct K' as [K1 K2]. constructor; auto. intro Hn. specialize (K2 Hn). rewrite K2 in GS. destruct A; discriminate.
Qed.
