(** Runs of the receive stream: no undefined behaviour, and the invariant. *)
From Coq Require Import ZArith List Lia Bool Permutation Sorted.
From Coq Require Import ZifyBool ZifyNat.
From Verif Require Import Base CodecModel RecvPacketModel LiveHeapModel LiveHeapSpec LiveHeapProofs
  StreamModel StreamSpec StreamProofs StreamInvProofs.
Import ListNotations.
Open Scope Z_scope.

(** [n]: the number of packets passed to add_packet so far. *)
Record good (c : sconfig) (n : Z) (b : batch) (a : astream) : Prop := {
  gd_inv : ainv c a;
  gd_fed : fed a;
  gd_acct : acct a b;
  gd_packets : ss_packets (as_stats a) + ba_packets b = n;
  gd_stopped : as_stopped a = true -> as_live a = []
}.
Definition sim (c : sconfig) (n : Z) (b : batch) (s : stream) (a : astream) : Prop := refines c s a /\ good c n b a.

Definition batch_zero (st : bool) : batch :=
  {| ba_packets := 0; ba_complete := 0; ba_evicted := 0; ba_single := 0; ba_dist := 0; ba_stopped := st |}.

Lemma sim_new c st : config_ok c -> sim c 0 (batch_zero st) (stream_new c) (astream_new c).
Proof.
  intro Hc. split; [now apply refines_new|]. constructor.
  - now apply ainv_new.
  - split; intros ? [].
  - constructor; reflexivity.
  - reflexivity.
  - reflexivity.
Qed.

Lemma packet_sim c n b s a p : config_ok c -> sim c n b s a -> rpkt_ok p -> as_stopped a = false ->
  exists s' a' b' r, stream_add_packet c s b p = Some (s', b', r) /\ sim c (n + 1) b' s' a' /\
    as_stopped a' = false /\ effect c p r a a' /\ ba_packets b' = ba_packets b + 1.
Proof.
  intros Hc [R G] Hp Hst. pose proof (gd_inv _ _ _ _ G) as HI.
  destruct (add_packet_refines c s a b p Hc R (ab_subs _ _ (ai_base _ _ HI)) (abase_safe _ _ _ (ai_base _ _ HI) Hp))
    as (d & s' & a' & b' & r & H1 & H2 & H3).
  destruct (packet_inv c d a b p a' b' r Hc HI (gd_fed _ _ _ _ G) (gd_acct _ _ _ _ G) Hp H2) as (J1 & J2 & J3 & J4 & J5 & J6 & J7 & J8).
  exists s', a', b', r. split; [exact H1|]. split; [|split; [congruence|split; [exact J8|exact J6]]]. split; [exact H3|].
  constructor; try assumption.
  - rewrite J5, J6, <- (gd_packets _ _ _ _ G). lia.
  - congruence.
Qed.

(** Effects of a sequence of packets. *)
Inductive effects (c : sconfig) : list rpkt -> list bool -> astream -> astream -> Prop :=
| EF_nil a : effects c [] [] a a
| EF_cons p r ps rs a a1 a2 : effect c p r a a1 -> ainv c a1 -> effects c ps rs a1 a2 -> effects c (p :: ps) (r :: rs) a a2.

Lemma batch_packets_sim c : config_ok c -> forall ps n b s a, sim c n b s a -> Forall rpkt_ok ps -> as_stopped a = false ->
  exists s' a' b' rs, batch_packets c s b ps = Some (s', b', rs) /\ sim c (n + zlen rs) b' s' a' /\ as_stopped a' = false /\
    (exists ps1 ps2, ps = ps1 ++ ps2 /\ effects c ps1 rs a a' /\ (ps2 = [] \/ ba_stopped b' = true)) /\
    (rs = [] -> b' = b) /\ ba_packets b' = ba_packets b + zlen rs.
Proof.
  intro Hc. induction ps as [|p ps IH]; intros n b s a HS HF Hst; cbn [batch_packets].
  - exists s, a, b, []. rewrite Z.add_0_r. split; [reflexivity|]. split; [exact HS|]. split; [exact Hst|]. split; [|split; [reflexivity|change (zlen (@nil bool)) with 0; lia]].
    exists [], []. split; [reflexivity|]. split; [constructor|now left].
  - destruct (ba_stopped b) eqn:EB.
    + exists s, a, b, []. rewrite Z.add_0_r. split; [reflexivity|]. split; [exact HS|]. split; [exact Hst|]. split; [|split; [reflexivity|change (zlen (@nil bool)) with 0; lia]].
      exists [], (p :: ps). split; [reflexivity|]. split; [constructor|now right].
    + inversion HF as [|? ? Hp HF']; subst.
      destruct (packet_sim c n b s a p Hc HS Hp Hst) as (s1 & a1 & b1 & r & -> & HS1 & Hst1 & He & Hbp).
      destruct (IH _ _ _ _ HS1 HF' Hst1) as (s2 & a2 & b2 & rs & -> & HS2 & Hst2 & (ps1 & ps2 & -> & E2 & E3) & _ & Hb2).
      exists s2, a2, b2, (r :: rs). rewrite zlen_cons. split; [reflexivity|].
      split; [replace (n + (1 + zlen rs)) with (n + 1 + zlen rs) by lia; exact HS2|]. split; [exact Hst2|]. split; [|split; [discriminate|lia]].
      exists (p :: ps1), ps2. split; [reflexivity|]. split; [econstructor; [exact He|exact (gd_inv _ _ _ _ (proj2 HS1))|exact E2]|exact E3].
Qed.

Lemma flush_out_counts a new : Forall (flushed_of a) new -> count_why Evicted new = 0 /\ count_why Flushed new = zlen new.
Proof.
  induction 1 as [|o l [H1 _] HF IH]; [split; reflexivity|]. destruct IH as [I1 I2]. unfold count_why in *. cbn [filter]. rewrite H1.
  rewrite !zlen_cons. split; [exact I1|]. f_equal. exact I2.
Qed.

Definition flushed_from (a a' : astream) : Prop :=
  as_live a' = [] /\ as_hist a' = as_hist a /\ as_log a' = as_log a /\ as_dropped a' = as_dropped a /\
  exists new, as_out a' = as_out a ++ new /\ Forall (flushed_of a) new.

Lemma flush_sim c n b s a : config_ok c -> sim c n b s a ->
  exists s' a', flush_unlocked c s = Some s' /\ sim c n b s' a' /\ flushed_from a a' /\ as_stopped a' = as_stopped a.
Proof.
  intros Hc [R G]. pose proof (gd_inv _ _ _ _ G) as HI.
  destruct (flush_refines c s a Hc R (ab_subs _ _ (ai_base _ _ HI))) as (s' & a' & H1 & H2 & H3).
  destruct (flush_inv c a a' Hc HI H2) as (J1 & J2 & J3 & J4 & J5 & J6 & new & J7 & J8 & J9 & J10 & J11 & J12 & J13).
  exists s', a'. split; [exact H1|]. split.
  - split; [exact H3|]. destruct G as [G1 G2 G3 G4 G5]. constructor.
    + exact J1.
    + split; [rewrite J2; intros ? []|]. rewrite J4, J7. intros o Ho. apply in_app_or in Ho as [Ho|Ho]; [now apply G2|].
      rewrite Forall_forall in J8. destruct (J8 o Ho) as (_ & x & Hx & <- & _). now apply G2.
    + destruct G3 as [A1 A2 A3]. destruct (flush_out_counts a new J8) as [F1 F2].
      constructor; rewrite ?J7, ?J9, ?J10, ?J11, ?zlen_app, ?count_why_app; lia.
    + rewrite J12. exact G4.
    + intros _. exact J2.
  - split; [|exact J6]. split; [exact J2|]. split; [exact J3|]. split; [exact J4|]. split; [exact J5|]. exists new. now split.
Qed.

Lemma set_stopped_sim c n b s a : sim c n b s a -> as_live a = [] \/ True ->
  refines c (set_stopped s true) (a_set_stopped a true) /\
  ainv c (a_set_stopped a true) /\ fed (a_set_stopped a true) /\ acct (a_set_stopped a true) b.
Proof.
  intros [R [G1 G2 G3 G4 G5]] _. split; [|split; [|split]].
  - destruct R. constructor; cbn; try assumption. reflexivity.
  - destruct G1 as [B1 B2]. constructor; [|exact B2]. destruct B1. constructor; cbn; assumption.
  - exact G2.
  - destruct G3. constructor; cbn; assumption.
Qed.

Lemma stop_received_sim c n b s a : config_ok c -> sim c n b s a ->
  exists s' a', stop_received c s = Some s' /\ sim c n b s' a' /\ flushed_from a a' /\ as_stopped a' = true.
Proof.
  intros Hc HS. destruct (set_stopped_sim c n b s a HS (or_intror I)) as (R & G1 & G2 & G3). destruct HS as [_ [_ _ _ G4 _]].
  unfold stop_received.
  destruct (flush_refines c _ _ Hc R (ab_subs _ _ (ai_base _ _ G1))) as (s' & a' & H1 & H2 & H3).
  destruct (flush_inv c _ a' Hc G1 H2) as (J1 & J2 & J3 & J4 & J5 & J6 & new & J7 & J8 & J9 & J10 & J11 & J12 & J13).
  cbn [a_set_stopped as_live as_subs as_stopped as_stats as_hist as_out as_dropped as_log] in *.
  assert (J8' : Forall (flushed_of a) new) by exact J8.
  exists s', a'. split; [exact H1|]. split.
  - split; [exact H3|]. constructor.
    + exact J1.
    + split; [rewrite J2; intros ? []|]. rewrite J4, J7. intros o Ho. apply in_app_or in Ho as [Ho|Ho]; [now apply G2|].
      rewrite Forall_forall in J8. destruct (J8 o Ho) as (_ & x & Hx & <- & _). now apply G2.
    + destruct G3 as [A1 A2 A3]. destruct (flush_out_counts a new J8') as [F1 F2].
      cbn [a_set_stopped as_stats as_out] in *.
      constructor; rewrite ?J7, ?J9, ?J10, ?J11, ?zlen_app, ?count_why_app; lia.
    + rewrite J12. exact G4.
    + intros _. exact J2.
  - split; [|exact J6]. split; [exact J2|]. split; [exact J3|]. split; [exact J4|]. split; [exact J5|]. exists new. now split.
Qed.

Lemma set_stats_sim c n b s a x n' b' : sim c n b s a ->
  ss_heaps x + ba_complete b' + ba_evicted b' = ss_heaps (as_stats a) + ba_complete b + ba_evicted b ->
  ss_evicted x + ba_evicted b' = ss_evicted (as_stats a) + ba_evicted b ->
  ss_flushed x = ss_flushed (as_stats a) -> ss_packets x + ba_packets b' = n' ->
  sim c n' b' (set_stats s x) (a_set_stats a x).
Proof.
  intros [R [G1 G2 G3 G4 G5]] E1 E2 E3 E4. split.
  - destruct R. constructor; cbn; try assumption. reflexivity.
  - constructor.
    + destruct G1 as [B1 B2]. constructor; [|exact B2]. destruct B1. constructor; cbn; assumption.
    + exact G2.
    + destruct G3 as [A1 A2 A3]. constructor; cbn [a_set_stats as_stats as_out]; congruence.
    + exact E4.
    + exact G5.
Qed.

(** What an operation does: packets, then possibly a flush. *)
Definition op_effect (c : sconfig) (o : op) (rs : list bool) (a a' : astream) : Prop :=
  match o with
  | Batch ps eof =>
      if as_stopped a then rs = [] /\ a' = a
      else exists ps1 ps2 a1, ps = ps1 ++ ps2 /\ effects c ps1 rs a a1 /\ (as_stopped a' = false -> ps2 = []) /\
             (eof = true -> as_stopped a' = true) /\
             (if as_stopped a' then flushed_from a1 a' else as_live a' = as_live a1 /\ as_subs a' = as_subs a1 /\
                as_hist a' = as_hist a1 /\ as_out a' = as_out a1 /\ as_dropped a' = as_dropped a1 /\ as_log a' = as_log a1)
  | Flush => rs = [] /\ flushed_from a a' /\ as_stopped a' = as_stopped a
  | Stop => rs = [] /\ as_stopped a' = true /\ (if as_stopped a then a' = a else flushed_from a a')
  end.

Definition op_ok (o : op) : Prop := match o with Batch ps _ => Forall rpkt_ok ps | _ => True end.

Lemma step_sim c n st s a o : config_ok c -> sim c n (batch_zero st) s a -> op_ok o ->
  exists s' a' rs st', step c s o = Some (s', rs) /\ sim c (n + zlen rs) (batch_zero st') s' a' /\ op_effect c o rs a a'.
Proof.
  intros Hc HS Ho. destruct o as [ps eof| |]; cbn [step].
  - unfold do_batch, op_effect. rewrite (rf_stopped _ _ _ (proj1 HS)). destruct (as_stopped a) eqn:Est.
    { exists s, a, [], st. rewrite Z.add_0_r. split; [reflexivity|]. split; [exact HS|]. now split. }
    assert (HS0 : sim c n (batch_new s) s a).
    { destruct HS as [R [G1 G2 G3 G4 G5]]. split; [exact R|]. constructor; try assumption. destruct G3; constructor; assumption. }
    destruct (batch_packets_sim c Hc ps n (batch_new s) s a HS0 Ho Est) as (s1 & a1 & b1 & rs & -> & HS1 & Hst1 & (ps1 & ps2 & Eps & He & Hps2) & Hnil & Hbp).
    set (b2 := {| ba_packets := ba_packets b1; ba_complete := ba_complete b1; ba_evicted := ba_evicted b1;
                  ba_single := ba_single b1; ba_dist := ba_dist b1; ba_stopped := ba_stopped b1 || eof |}).
    assert (HS2 : sim c (n + zlen rs) b2 s1 a1).
    { destruct HS1 as [R [G1 G2 G3 G4 G5]]. split; [exact R|]. constructor; try assumption. destruct G3; constructor; assumption. }
    unfold batch_end. cbn [b2 ba_stopped ba_packets ba_complete ba_evicted ba_single ba_dist]. fold b2.
    destruct (ba_stopped b1 || eof) eqn:EB.
    + destruct (stop_received_sim c _ b2 s1 a1 Hc HS2) as (s3 & a3 & -> & HS3 & Hfl & Hst3). cbn [b2 ba_stopped ba_packets].
      rewrite andb_true_r. destruct (ba_packets b1 =? 0) eqn:EP.
      * exists s3, a3, rs, true. split; [reflexivity|]. split.
        -- assert (Ers : rs = []).
           { destruct rs as [|r rs]; [reflexivity|exfalso]. rewrite zlen_cons in Hbp. pose proof (zlen_nonneg rs). cbn [batch_new ba_packets] in Hbp. lia. }
           specialize (Hnil Ers). subst b1. destruct HS3 as [R [G1 G2 G3 G4 G5]]. split; [exact R|]. constructor; try assumption.
        -- exists ps1, ps2, a1. rewrite Hst3. split; [exact Eps|]. split; [exact He|]. split; [discriminate|]. split; [reflexivity|exact Hfl].
      * eexists. exists (a_set_stats a3 {| ss_heaps := ss_heaps (as_stats a3) + (ba_complete b1 + ba_evicted b1); ss_evicted := ss_evicted (as_stats a3) + ba_evicted b1;
           ss_flushed := ss_flushed (as_stats a3); ss_packets := ss_packets (as_stats a3) + ba_packets b1; ss_batches := ss_batches (as_stats a3) + 1;
           ss_max_batch := Z.max (ss_max_batch (as_stats a3)) (ba_packets b1); ss_single := ss_single (as_stats a3) + ba_single b1;
           ss_dist := ss_dist (as_stats a3) + ba_dist b1 |}), rs, true.
        split; [reflexivity|]. split.
        -- rewrite (rf_stats _ _ _ (proj1 HS3)). pose proof (gd_packets _ _ _ _ (proj2 HS3)) as HP. cbn [b2 ba_packets] in HP.
           apply (set_stats_sim c _ b2 s3 a3 _ _ _ HS3); cbn [b2 batch_zero ss_heaps ss_evicted ss_flushed ss_packets ba_complete ba_evicted ba_packets]; lia.
        -- exists ps1, ps2, a1. cbn [a_set_stats as_stopped]. rewrite Hst3. split; [exact Eps|]. split; [exact He|]. split; [discriminate|]. split; [reflexivity|].
           exact Hfl.
    + rewrite andb_false_r. apply orb_false_iff in EB as [EB1 ->].
      eexists. exists (a_set_stats a1 {| ss_heaps := ss_heaps (as_stats a1) + (ba_complete b1 + ba_evicted b1); ss_evicted := ss_evicted (as_stats a1) + ba_evicted b1;
           ss_flushed := ss_flushed (as_stats a1); ss_packets := ss_packets (as_stats a1) + ba_packets b1; ss_batches := ss_batches (as_stats a1) + 1;
           ss_max_batch := Z.max (ss_max_batch (as_stats a1)) (ba_packets b1); ss_single := ss_single (as_stats a1) + ba_single b1;
           ss_dist := ss_dist (as_stats a1) + ba_dist b1 |}), rs, false.
      split; [reflexivity|]. split.
      * rewrite (rf_stats _ _ _ (proj1 HS2)). pose proof (gd_packets _ _ _ _ (proj2 HS2)) as HP. cbn [b2 ba_packets] in HP.
        apply (set_stats_sim c _ b2 s1 a1 _ _ _ HS2); cbn [b2 batch_zero ss_heaps ss_evicted ss_flushed ss_packets ba_complete ba_evicted ba_packets]; lia.
      * exists ps1, ps2, a1. cbn [a_set_stats as_stopped as_live as_subs as_hist as_out as_dropped as_log]. rewrite Hst1. split; [exact Eps|]. split; [exact He|].
        split; [|split; [discriminate|repeat split]]. intros _. destruct Hps2 as [E|E]; [exact E|congruence].
  - destruct (flush_sim c n _ s a Hc HS) as (s' & a' & -> & HS' & Hf & Hst). exists s', a', [], st. rewrite Z.add_0_r.
    split; [reflexivity|]. split; [exact HS'|]. split; [reflexivity|]. now split.
  - unfold stop. rewrite (rf_stopped _ _ _ (proj1 HS)). unfold op_effect. destruct (as_stopped a) eqn:Est.
    + exists s, a, [], st. rewrite Z.add_0_r. split; [reflexivity|]. split; [exact HS|]. split; [reflexivity|]. now split.
    + destruct (stop_received_sim c n _ s a Hc HS) as (s' & a' & -> & HS' & Hf & Hst). exists s', a', [], st. rewrite Z.add_0_r.
      split; [reflexivity|]. split; [exact HS'|]. split; [reflexivity|]. now split.
Qed.

Inductive run_effect (c : sconfig) : list op -> list bool -> astream -> astream -> Prop :=
| RE_nil a : run_effect c [] [] a a
| RE_cons o rs ops rs' a a1 a2 : op_effect c o rs a a1 -> run_effect c ops rs' a1 a2 -> run_effect c (o :: ops) (rs ++ rs') a a2.

Lemma run_sim c : config_ok c -> forall ops n st s a, sim c n (batch_zero st) s a -> Forall op_ok ops ->
  exists s' a' rs st', run c s ops = Some (s', rs) /\ sim c (n + zlen rs) (batch_zero st') s' a' /\ run_effect c ops rs a a'.
Proof.
  intro Hc. induction ops as [|o ops IH]; intros n st s a HS HF; cbn [run].
  - exists s, a, [], st. rewrite Z.add_0_r. split; [reflexivity|]. split; [exact HS|constructor].
  - inversion HF as [|? ? Ho HF']; subst.
    destruct (step_sim c n st s a o Hc HS Ho) as (s1 & a1 & rs & st1 & -> & HS1 & He).
    destruct (IH _ _ _ _ HS1 HF') as (s2 & a2 & rs2 & st2 & -> & HS2 & He2).
    exists s2, a2, (rs ++ rs2), st2. split; [reflexivity|]. split; [rewrite zlen_app, Z.add_assoc; exact HS2|]. econstructor; eassumption.
Qed.
