(** C46 with the arithmetic of the code: doubles and 64-bit ticks. *)
From Coq Require Import ZArith QArith Qround List Bool Lia Lqa.
From Verif Require Import DoubleModel DoubleProofs RateModel RateSpec RateProps RateDModel RateDSpec RateDProofs.
Import ListNotations.
Open Scope Q_scope.

Definition okrel (r : release) : Prop := (0 <= fst r)%Z /\ is_double (snd r).
Lemma dur_nonneg l : Forall okrel l -> 0 <= duration l.
Proof.
  induction 1 as [|[n w] l [N W] _ IH]; unfold duration in *; cbn [fold_right fst snd] in *; [lra|]. apply injZ_le in N. change (inject_Z 0) with 0 in N. apply double_nonneg in W. pose proof (Qmult_le_0_compat _ _ N W). lra.
Qed.
Lemma stepsD_ok c p tr q : stepsD c p tr q -> Forall okrel tr.
Proof. induction 1; auto. apply Forall_app. split; [assumption|]. constructor; [split; assumption|constructor]. Qed.
Lemma len_app {A} (a b : list A) : nq (length (a ++ b)) == nq (length a) + nq (length b).
Proof. rewrite app_length. apply nq_plus. Qed.

(** The packets [a] are in the time [V], the packets [b] in the wait. *)
Definition acc (r base W : Q) (j : nat) (tr : list release) (V wait : Q) (rb : Z) : Prop := exists a b, tr = a ++ b /\ bytes b = rb /\ (b = [] -> wait == 0) /\
  g (3 * length tr) * duration b - nq (length b) * ulp <= wait /\
  base + g (3 * length tr + 2 * length a + 2 * j) * ((duration a + W) / r) - nq (length a + j) * (3 * ulp) <= V + W / r.

Lemma g_split a b : g (a + b) == g a * g b. Proof. induction a as [|a IH]; cbn [Nat.add g]; [ring|]. rewrite IH. ring. Qed.
Lemma g_dur n m x : (n <= m)%nat -> 0 <= x -> g m * x <= g n * x.
Proof. intros L X. apply Qmult_le_compat_r; [now apply g_anti|exact X]. Qed.

Lemma shrink z : 0 <= z -> (1 - ulp) * ((1 - ulp) * z) <= z.
Proof. intro H. pose proof ulp_pos as U. pose proof ulp_small as U8. assert (A : 0 <= ulp * z) by (apply Qmult_le_0_compat; lra). assert (B : ulp * (ulp * z) <= 1 * (ulp * z)) by (apply Qmult_le_compat_r; lra). lra. Qed.
Lemma acc_add r base W j tr V wait rb n w : 1 <= r -> 0 <= W -> Forall okrel tr -> (0 <= n)%Z -> is_double w -> 0 <= wait -> acc r base W j tr V wait rb -> acc r base W j (tr ++ [(n, w)]) V (wadd wait n w) (rb + n).
Proof.
  intros R W0 F N D P (a & b & -> & B & Z & H1 & H2). apply Forall_app in F as [Fa Fb]. pose proof (dur_nonneg _ Fa) as Da. pose proof (dur_nonneg _ Fb) as Db. pose proof (double_nonneg _ D) as Dw. destruct (wadd_spec wait n w P N Dw) as (_ & Sw & _).
  pose proof ulp_pos as U. pose proof ulp_small as U8. pose proof eta_ulp as He. pose proof eta_pos as Hp. pose proof (nq_nonneg (length b)) as Nb. set (L := length (a ++ b)) in *.
  assert (Y0 : 0 <= inject_Z n * w) by (apply Qmult_le_0_compat; [change 0 with (inject_Z 0); now apply injZ_le|exact Dw]).
  exists a, (b ++ [(n, w)]). assert (EL : length ((a ++ b) ++ [(n, w)]) = (1 + L)%nat) by (rewrite app_length; cbn [length]; unfold L; lia).
  split; [now rewrite app_assoc|]. split; [rewrite bytes_app; cbn; lia|]. split; [intro X; now apply app_eq_nil in X as [_ X]|]. rewrite EL. split.
  - rewrite duration_app, duration_1, len_app. cbn [length]. rewrite nq_1. assert (S1 : (1 - ulp) * (g (3 * L) * duration b - nq (length b) * ulp) <= (1 - ulp) * wait) by (apply Qmult_le_l; lra).
    assert (S2 : g (3 * (1 + L)) * duration b <= (1 - ulp) * (g (3 * L) * duration b)). { apply Qle_trans with (g (S (3 * L)) * duration b); [apply g_dur; [lia|exact Db]|]. cbn [g]. lra. }
    assert (S3 : g (3 * (1 + L)) * (inject_Z n * w) <= g 3 * (inject_Z n * w)) by (apply g_dur; [lia|exact Y0]). assert (S4 : 0 <= ulp * (nq (length b) * ulp)) by (apply Qmult_le_0_compat; [lra|apply Qmult_le_0_compat; lra]). lra.
  - assert (X0 : 0 <= (duration a + W) / r) by (apply div_nonneg; lra). pose proof (g_dur (3 * L + 2 * length a + 2 * j) (3 * (1 + L) + 2 * length a + 2 * j) _ ltac:(lia) X0). lra.
Qed.
Lemma acc_update r base W j tr V V' wait rb : 1 <= r -> 0 <= W -> Forall okrel tr -> acc r base W j tr V wait rb -> adv r V V' wait -> acc r base W j tr V' 0 0.
Proof.
  intros R W0 F (a & b & -> & B & Z & H1 & H2) (A1 & _ & A3). apply Forall_app in F as [Fa Fb]. pose proof (dur_nonneg _ Fa) as Da. pose proof (dur_nonneg _ Fb) as Db. pose proof ulp_pos as U. pose proof ulp_small as U8.
  exists (a ++ b), []. rewrite app_nil_r. split; [reflexivity|]. split; [reflexivity|]. split; [reflexivity|]. split; [cbn [length duration fold_right]; change (nq 0) with 0; lra|].
  destruct b as [|b0 b1]; [rewrite app_nil_r in *; specialize (A3 (Z eq_refl)); rewrite A3; exact H2|]. set (bb := b0 :: b1) in *. assert (Lb : (1 <= length bb)%nat) by (unfold bb; cbn [length]; lia). clearbody bb.
  set (L := length (a ++ bb)) in *. assert (EL : L = (length a + length bb)%nat) by apply app_length. pose proof (nq_le _ _ Lb) as Nb. rewrite nq_1 in Nb. pose proof (nq_nonneg (length bb)) as Nb0. rewrite duration_app. unfold Qdiv in *.
  set (ir := / r) in *. assert (I0 : 0 < ir) by (apply Qinv_lt_0_compat; lra). assert (I1 : ir <= 1). { assert (E : ir * r == 1) by (unfold ir; field; lra). assert (ir * 1 <= ir * r) by (apply Qmult_le_l; lra). lra. }
  assert (M1 : (g (3 * L) * duration bb - nq (length bb) * ulp) * ir <= wait * ir) by (apply Qmult_le_compat_r; lra).
  assert (M2 : (1 - ulp) * ((1 - ulp) * ((g (3 * L) * duration bb - nq (length bb) * ulp) * ir)) <= (1 - ulp) * ((1 - ulp) * (wait * ir))) by (apply Qmult_le_l; [lra|]; apply Qmult_le_l; lra).
  assert (Db' : 0 <= duration bb * ir) by (apply Qmult_le_0_compat; lra). assert (Da' : 0 <= (duration a + W) * ir) by (apply Qmult_le_0_compat; lra).
  pose proof (g_dur (S (S (3 * L))) (3 * L + 2 * L + 2 * j) (duration bb * ir) ltac:(lia) Db') as G1. cbn [g] in G1. pose proof (g_dur (3 * L + 2 * length a + 2 * j) (3 * L + 2 * L + 2 * j) ((duration a + W) * ir) ltac:(lia) Da') as G2.
  assert (E0 : 0 <= nq (length bb) * ulp) by (apply Qmult_le_0_compat; lra). assert (E1 : nq (length bb) * ulp * ir <= nq (length bb) * ulp) by nra. assert (E10 : 0 <= nq (length bb) * ulp * ir) by (apply Qmult_le_0_compat; lra).
  assert (E2 : (1 - ulp) * ((1 - ulp) * (nq (length bb) * ulp * ir)) <= nq (length bb) * ulp) by (pose proof (shrink _ E10); lra). assert (E3 : nq (L + j) == nq (length a + j) + nq (length bb)) by (rewrite <- nq_plus; replace (length a + j + length bb)%nat with (L + j)%nat by lia; reflexivity).
  rewrite E3. assert (E4 : ulp <= nq (length bb) * ulp) by nra. clearbody ir. set (q1 := nq (length a + j) * (3 * ulp)) in *. set (q2 := nq (length bb) * ulp) in *.
  assert (E5 : (nq (length a + j) + nq (length bb)) * (3 * ulp) == q1 + 3 * q2) by (unfold q1, q2; ring). rewrite E5.
  assert (E6 : g (3 * L + 2 * L + 2 * j) * ((duration a + duration bb + W) * ir) == g (3 * L + 2 * L + 2 * j) * ((duration a + W) * ir) + g (3 * L + 2 * L + 2 * j) * (duration bb * ir)) by ring. rewrite E6. lra.
Qed.

(** All the packets, and [W] from before them, are still in the wait. *)
Definition acc0 (base W : Q) (tr : list release) (V wait : Q) (rb : Z) : Prop := (bytes tr <= rb)%Z /\ base <= V + W /\ g (3 * length tr) * (duration tr + W) - nq (length tr) * ulp <= wait.
Lemma acc0_add base W tr V wait rb n w : 0 <= W -> Forall okrel tr -> (0 <= n)%Z -> is_double w -> 0 <= wait -> acc0 base W tr V wait rb -> acc0 base W (tr ++ [(n, w)]) V (wadd wait n w) (rb + n).
Proof.
  intros W0 F N D P (B & H1 & H2). pose proof (dur_nonneg _ F) as Da. pose proof (double_nonneg _ D) as Dw. destruct (wadd_spec wait n w P N Dw) as (_ & Sw & _). pose proof ulp_pos as U. pose proof ulp_small as U8. pose proof eta_ulp as He. pose proof eta_pos as Hp. pose proof (nq_nonneg (length tr)) as Nb. set (L := length tr) in *.
  assert (Y0 : 0 <= inject_Z n * w) by (apply Qmult_le_0_compat; [change 0 with (inject_Z 0); now apply injZ_le|exact Dw]).
  split; [rewrite bytes_app; cbn; lia|]. split; [exact H1|]. rewrite duration_app, duration_1, len_app. cbn [length]. rewrite nq_1. rewrite app_length. cbn [length]. fold L.
  assert (S1 : (1 - ulp) * (g (3 * L) * (duration tr + W) - nq L * ulp) <= (1 - ulp) * wait) by (apply Qmult_le_l; lra).
  assert (S2 : g (3 * (L + 1)) * (duration tr + W) <= (1 - ulp) * (g (3 * L) * (duration tr + W))). { apply Qle_trans with (g (S (3 * L)) * (duration tr + W)); [apply g_dur; [lia|lra]|]. cbn [g]. lra. }
  assert (S3 : g (3 * (L + 1)) * (inject_Z n * w) <= g 3 * (inject_Z n * w)) by (apply g_dur; [lia|exact Y0]). assert (S4 : 0 <= ulp * (nq L * ulp)) by (apply Qmult_le_0_compat; [lra|apply Qmult_le_0_compat; lra]). lra.
Qed.
Lemma acc0_update base W tr V V' wait rb : 0 <= W -> Forall okrel tr -> acc0 base W tr V wait rb -> adv 1 V V' wait -> acc 1 base W 1 tr V' 0 0.
Proof.
  intros W0 F (B & H1 & H2) (A1 & _ & _). pose proof (dur_nonneg _ F) as Da. pose proof ulp_pos as U. pose proof ulp_small as U8. exists tr, []. rewrite app_nil_r. split; [reflexivity|]. split; [reflexivity|]. split; [reflexivity|]. split; [cbn [length duration fold_right]; change (nq 0) with 0; lra|].
  set (L := length tr) in *. pose proof (nq_nonneg L) as NL. assert (D1 : forall x, x / 1 == x) by (intro; field). rewrite !D1. rewrite D1 in A1.
  assert (M2 : (1 - ulp) * ((1 - ulp) * (g (3 * L) * (duration tr + W) - nq L * ulp)) <= (1 - ulp) * ((1 - ulp) * wait)) by (apply Qmult_le_l; [lra|]; apply Qmult_le_l; lra).
  pose proof (g_dur (S (S (3 * L))) (3 * L + 2 * L + 2 * 1) (duration tr + W) ltac:(lia) ltac:(lra)) as G1. cbn [g] in G1. rewrite nq_plus, nq_1. assert (E0 : 0 <= nq L * ulp) by (apply Qmult_le_0_compat; lra). assert (E2 : (1 - ulp) * ((1 - ulp) * (nq L * ulp)) <= nq L * ulp) by now apply shrink.
  set (x := nq L * ulp) in *. assert (E5 : (nq L + 1) * (3 * ulp) == 3 * x + 3 * ulp) by (unfold x; ring). rewrite E5. lra.
Qed.

Definition avgD (base W : Q) (tr : list release) (s : rst) : Prop := acc 1 base W 1 tr (val (r_time s)) (r_wait s) (r_bytes s) \/ acc0 base W tr (val (r_time s)) (r_wait s) (r_bytes s).
Lemma acc_V r base W j tr V V' wait rb : V <= V' -> acc r base W j tr V wait rb -> acc r base W j tr V' wait rb.
Proof. intros L (a & b & E & B & Z & H1 & H2). exists a, b. repeat split; auto. lra. Qed.
Lemma avgD_checked c base W k now tr s s1 : 1 <= burst_ratio c -> 0 <= W -> Forall okrel tr -> dinv k s -> (k <= now)%Z -> (r_must s = true -> p_coarse (r_burst s) <= now)%Z -> checkedD c now s = Some s1 -> avgD base W tr s -> avgD base W tr s1.
Proof.
  intros R W0 F I L M C A. destruct (checkedD_cases c k now s s1 R I L M C) as [(_ & B1 & B2 & B3 & _)|(_ & ->)]; [|exact A]. left. rewrite B1, B2. destruct A as [A|A]; [now apply (acc_update 1 base W 1 tr _ _ _ _ ltac:(lra) W0 F A)|now apply (acc0_update base W tr _ _ _ _ W0 F A)].
Qed.
Lemma avgD_steps c base W p tr q : 1 <= burst_ratio c -> hw_rate c = false -> 0 <= W -> dinv (fst p) (snd p) -> avgD base W [] (snd p) -> stepsD c p tr q -> avgD base W tr (snd q).
Proof.
  intros R HW W0 I A S. assert (I' : forall tr q, stepsD c p tr q -> dinv (fst q) (snd q)) by (intros tr' q' S'; apply (steps_dinv c p tr' q' R S' I)).
  induction S; cbn [snd] in *; auto.
  - pose proof (IHS I A I') as B. destruct (empty_dinv k now s s' (I' _ _ S) H H0) as (_ & _ & E2 & E3 & _ & G & _). unfold avgD. rewrite E2, E3. destruct B as [B|(B1 & B2 & B3)]; [left; eapply acc_V; [exact G|exact B]|right; repeat split; auto; lra].
  - destruct (get_casesD c k now1 now2 pk s r s' R (I' _ _ S) H H0) as [(-> & -> & _)|(s1 & E0 & M & E1 & E2 & [(-> & _ & F1 & F2)|[(-> & -> & _)|(-> & _)]])]; auto; [| |congruence];
      pose proof (avgD_checked c base W k now2 tr s s1 R W0 (stepsD_ok _ _ _ _ S) (I' _ _ S) ltac:(lia) M E0 (IHS I A I')) as X; [|exact X]. unfold avgD. rewrite E1, F1, F2. exact X.
  - destruct (get_casesD c k now1 now2 _ s _ s' R (I' _ _ S) H H2) as [[E _]|(s1 & E0 & M & E1 & E2 & [(E & _)|[(E & _)|(_ & J & _ & _ & size' & w' & [= <- <-] & ->)]])]; try discriminate.
    pose proof (avgD_checked c base W k now2 tr s s1 R W0 (stepsD_ok _ _ _ _ S) (I' _ _ S) ltac:(lia) M E0 (IHS I A I')) as X. rewrite HW. unfold avgD. cbn [r_time r_wait r_bytes]. pose proof (double_nonneg _ (d_w _ _ J)) as P. fold (wadd (r_wait s1) size w).
    destruct X as [X|X]; [left; apply acc_add; auto; try lra; now apply stepsD_ok in S|right; apply acc0_add; auto; now apply stepsD_ok in S].
Qed.

(** Average rate, as [C46_average_partial] but for the doubles of the code.
    Consider the moment [e] at which the stream got work after it had been empty,
    and a packet let through at [now2], [n] packets after [e].  The packets before
    it are those in [b], no more than a burst, and others that at their rate take
    no longer than the time since [e], up to a tick and the rounding errors: a
    relative error of 2^-53 for each operation, on those packets and on the part of
    a burst that was pending at [e], and a fraction of a tick for each packet. *)
Theorem C46_average c t0 tr0 k s1 e s1' tr k2 s2 now1 now2 size w s3 : 1 <= burst_ratio c -> hw_rate c = false -> (0 <= t0)%Z ->
  stepsD c (t0, r_init) tr0 (k, s1) -> (k <= e)%Z -> update_send_time_emptyD e s1 = Some s1' -> stepsD c (e, s1') tr (k2, s2) ->
  (k2 <= now1 <= now2)%Z -> get_packetD c now1 now2 (Some (size, w)) s2 = Some (SUCCESS, s3) ->
  exists a b, tr = a ++ b /\ (bytes b <= Z.max 0 (burst_size c))%Z /\
    (1 - (5 * count tr + 2) * ulp) * duration a < inject_Z (now2 - e) + 1 + (count tr + 1) * (3 * ulp) + (5 * count tr + 2) * ulp * r_wait s1.
Proof.
  intros R HW T0 S0 Ke E S L G. destruct (steps_dinv c _ _ _ R S0 (init_dinv t0 T0)) as [I1 _]. cbn [fst snd] in I1. destruct (empty_dinv k e s1 s1' I1 Ke E) as (Ie & _ & Eb & Ew & _ & G1 & G2 & _). pose proof (double_nonneg _ (d_w _ _ I1)) as W0. set (W := r_wait s1) in *.
  assert (A0 : avgD (inject_Z e) W [] s1').
  { right. split; [cbn [bytes fold_right]; apply (d_b _ _ Ie)|]. split; [lra|]. change (g (3 * length (@nil release))) with 1. change (nq (length (@nil release))) with 0. rewrite Ew. cbn [duration fold_right]. lra. }
  destruct (steps_dinv c _ _ _ R S Ie) as [I2 Le]. cbn [fst snd] in I2, Le. pose proof (avgD_steps c _ W (e, s1') tr (k2, s2) R HW W0 Ie A0 S) as A2. cbn [snd] in A2. pose proof (stepsD_ok _ _ _ _ S) as F.
  destruct (get_casesD c k2 now1 now2 _ s2 _ s3 R I2 L G) as [[X _]|(s' & E0 & M & E1 & E2 & [(X & _)|[(X & _)|(_ & I' & NM & BB & _)]])]; try discriminate.
  pose proof (avgD_checked c _ W k2 now2 tr s2 s' R W0 F I2 ltac:(lia) M E0 A2) as A. pose proof (d_awake _ _ I' NM) as AW. pose proof (d_t _ _ I') as DT. assert (VT : val (r_time s') < inject_Z now2 + 1) by (apply val_lt; [apply dnorm_norm, (d_nt _ _ I')|lia]).
  assert (LE : 0 <= inject_Z (now2 - e)) by (apply (injZ_le 0); lia). unfold Z.sub in *. rewrite inject_Z_plus, inject_Z_opp in *. fold W. unfold count. fold (nq (length tr)). set (N := nq (length tr)). assert (N0 : 0 <= N) by apply nq_nonneg.
  pose proof ulp_pos as U. assert (T : 0 <= (5 * N + 2) * ulp) by (apply Qmult_le_0_compat; lra). destruct A as [(a & b & -> & P1 & P0 & P2 & P3)|(P1 & P2 & P3)].
  - exists a, b. split; [reflexivity|]. split; [lia|]. apply Forall_app in F as [Fa Fb]. pose proof (dur_nonneg _ Fa) as Da. assert (D1 : forall x, x / 1 == x) by (intro; field). rewrite !D1 in P3.
    pose proof (g_dur (3 * length (a ++ b) + 2 * length a + 2 * 1) (5 * length (a ++ b) + 2) (duration a + W) ltac:(rewrite app_length; lia) ltac:(lra)) as G3. pose proof (bern_g (5 * length (a ++ b) + 2)) as Bg.
    assert (E3 : nq (5 * length (a ++ b) + 2) == 5 * N + 2) by (unfold N, nq; rewrite Nat2Z.inj_add, Nat2Z.inj_mul, inject_Z_plus, inject_Z_mult; reflexivity). rewrite E3 in Bg.
    assert (G4 : (1 - (5 * N + 2) * ulp) * (duration a + W) <= g (5 * length (a ++ b) + 2) * (duration a + W)) by (apply Qmult_le_compat_r; lra).
    assert (N1 : nq (length a + 1) <= N + 1) by (rewrite nq_plus, nq_1; unfold N; rewrite len_app; pose proof (nq_nonneg (length b)); lra). assert (N2 : nq (length a + 1) * (3 * ulp) <= (N + 1) * (3 * ulp)) by (apply Qmult_le_compat_r; lra). lra.
  - exists [], tr. split; [reflexivity|]. split; [lia|]. cbn [duration fold_right]. assert (0 <= (5 * N + 2) * ulp * W) by now apply Qmult_le_0_compat. assert (0 <= (N + 1) * (3 * ulp)) by (apply Qmult_le_0_compat; lra). lra.
Qed.
(** The duration of a byte at a rate in bytes per second, in nanoseconds *)
Lemma wpb_spec rate : 0 < rate -> rate <= inject_Z (2 ^ 1000) -> is_double (wait_per_byte rate) /\ (1 - 2 * ulp) * (inject_Z 1000000000 / rate) <= wait_per_byte rate.
Proof.
  intros P B. unfold wait_per_byte. pose proof ulp_pos as U. pose proof ulp_small as U8. set (G := inject_Z 1000000000). assert (G0 : 1 <= G) by (vm_compute; discriminate).
  assert (I : pow2 (-1000) <= 1 / rate). { apply Qle_shift_div_l; [exact P|]. apply Qle_trans with (pow2 (-1000) * inject_Z (2 ^ 1000)); [apply Qmult_le_l; [apply pow2_pos|exact B]|]. vm_compute. discriminate. }
  assert (I2 : pow2 (-1021) <= 1 / rate) by (apply Qle_trans with (2 := I), pow2_le; lia). destruct (rnd_err_big _ I2) as [_ A]. change u53 with ulp in A. set (x := 1 / rate) in *. assert (X0 : 0 < x) by (apply Qlt_le_trans with (2 := I2), pow2_pos).
  assert (R0 : pow2 (-1001) <= rnd x). { apply Qle_trans with (2 := A). assert (H : pow2 (-1001) == (1 # 2) * pow2 (-1000)) by reflexivity. rewrite H. assert (ulp * x <= (1 # 8) * x) by (apply Qmult_le_compat_r; lra). lra. }
  assert (R1 : rnd x <= rnd x * G). { assert (0 < rnd x) by (apply Qlt_le_trans with (2 := R0), pow2_pos). assert (rnd x * 1 <= rnd x * G) by (apply Qmult_le_l; lra). lra. }
  assert (R2 : pow2 (-1021) <= rnd x * G) by (apply Qle_trans with (pow2 (-1001)); [apply pow2_le; lia|lra]). destruct (rnd_err_big _ R2) as [_ C]. change u53 with ulp in C.
  split; [apply rnd_double; pose proof (pow2_pos (-1001)); lra|]. assert (E : G / rate == x * G) by (unfold x; field; lra). rewrite E.
  assert (M : (1 - ulp) * ((x - ulp * x) * G) <= (1 - ulp) * (rnd x * G)) by (apply Qmult_le_l; [lra|]; apply Qmult_le_compat_r; lra). assert (0 <= ulp * ulp * (x * G)) by (apply Qmult_le_0_compat; [apply Qmult_le_0_compat; lra|apply Qmult_le_0_compat; lra]). lra.
Qed.
(** In bytes, with one rate (in bytes per second) for all packets, and a clock in nanoseconds. *)
Corollary C46_average_rate c t0 tr0 k s1 e s1' tr k2 s2 now1 now2 size w s3 rate : 1 <= burst_ratio c -> hw_rate c = false -> (0 <= t0)%Z -> 0 < rate -> rate <= inject_Z (2 ^ 1000) -> Forall (fun r => snd r = wait_per_byte rate) tr ->
  stepsD c (t0, r_init) tr0 (k, s1) -> (k <= e)%Z -> update_send_time_emptyD e s1 = Some s1' -> stepsD c (e, s1') tr (k2, s2) ->
  (k2 <= now1 <= now2)%Z -> get_packetD c now1 now2 (Some (size, w)) s2 = Some (SUCCESS, s3) ->
  (1 - (5 * count tr + 4) * ulp) * (inject_Z (bytes tr) * (1000000000 / rate)) <
    inject_Z (now2 - e) + 1 + inject_Z (Z.max 0 (burst_size c)) * (1000000000 / rate) + (count tr + 1) * (3 * ulp) + (5 * count tr + 2) * ulp * r_wait s1.
Proof.
  intros R HW T0 P B FR S0 Ke E S L G. destruct (C46_average c t0 tr0 k s1 e s1' tr k2 s2 now1 now2 size w s3 R HW T0 S0 Ke E S L G) as (a & b & Et & Bb & D). destruct (wpb_spec rate P B) as [Dw W]. change (inject_Z 1000000000) with 1000000000 in W. set (x := 1000000000 / rate) in *. set (y := wait_per_byte rate) in *.
  pose proof (stepsD_ok _ _ _ _ S) as F. destruct (steps_dinv c _ _ _ R S0 (init_dinv t0 T0)) as [I1 _]. pose proof (double_nonneg _ (d_w _ _ I1)) as W0. cbn [snd] in W0. pose proof ulp_pos as U. pose proof ulp_small as U8. set (N := count tr) in *. assert (N0 : 0 <= N) by apply nq_nonneg.
  assert (DB : forall l, Forall (fun r => snd r = y) l -> duration l == inject_Z (bytes l) * y).
  { induction 1 as [|r l Er _ IH]; unfold duration, bytes in *; cbn [fold_right]; [unfold inject_Z; lra|]. rewrite inject_Z_plus, IH, Er. ring. }
  assert (BN : forall l, Forall okrel l -> (0 <= bytes l)%Z). { induction 1 as [|r l [Er _] _ IH]; unfold bytes in *; cbn [fold_right]; lia. }
  subst tr. apply Forall_app in FR as [F1 F2]. apply Forall_app in F as [O1 O2]. rewrite (DB a F1) in D. rewrite bytes_app, inject_Z_plus. pose proof (BN _ O1) as Ba. pose proof (BN _ O2) as Bn. apply injZ_le in Bb, Ba, Bn. change (inject_Z 0) with 0 in Ba, Bn. set (A := inject_Z (bytes a)) in *. set (BB := inject_Z (bytes b)) in *. set (M := inject_Z (Z.max 0 (burst_size c))) in *.
  assert (X0 : 0 < x) by (unfold x; apply Qlt_shift_div_l; [exact P|lra]). assert (Ax : 0 <= A * x) by (apply Qmult_le_0_compat; lra). assert (Bx : 0 <= BB * x) by (apply Qmult_le_0_compat; lra). assert (Mx : BB * x <= M * x) by (apply Qmult_le_compat_r; lra).
  set (K := (5 * N + 2) * ulp) in *. assert (K0 : 0 <= K) by (apply Qmult_le_0_compat; lra). assert (EK : (5 * N + 4) * ulp == K + 2 * ulp) by (unfold K; ring). rewrite EK.
  assert (T1 : (1 - (K + 2 * ulp)) * (BB * x) <= BB * x). { assert (0 <= (K + 2 * ulp) * (BB * x)) by (apply Qmult_le_0_compat; lra). lra. }
  set (Y := inject_Z (now2 - e) + 1 + (N + 1) * (3 * ulp) + K * r_wait s1) in *. assert (Y0 : 0 < Y). { unfold Y. pose proof (steps_dinv c _ _ _ R S ltac:(cbn [fst snd]; exact (proj1 (empty_dinv k e s1 s1' I1 Ke E)))) as [_ Le]. cbn [fst] in Le. assert (0 <= inject_Z (now2 - e)) by (apply (injZ_le 0); lia). assert (0 <= K * r_wait s1) by now apply Qmult_le_0_compat. assert (0 <= (N + 1) * (3 * ulp)) by (apply Qmult_le_0_compat; lra). lra. }
  assert (T2 : (1 - (K + 2 * ulp)) * (A * x) < Y).
  { destruct (Qlt_le_dec (1 - K) 0) as [Kn|Kp].
    - apply Qle_lt_trans with (2 := Y0). assert (0 <= (K + 2 * ulp - 1) * (A * x)) by (apply Qmult_le_0_compat; lra). lra.
    - apply Qle_lt_trans with (2 := D). apply Qle_trans with ((1 - K) * ((1 - 2 * ulp) * (A * x))).
      + assert (0 <= K * ulp * (A * x)) by (apply Qmult_le_0_compat; [apply Qmult_le_0_compat; lra|lra]). lra.
      + assert (Z1 : A * ((1 - 2 * ulp) * x) <= A * y). { rewrite !(Qmult_comm A). apply Qmult_le_compat_r; lra. } assert (Z2 : (1 - 2 * ulp) * (A * x) <= A * y) by lra. rewrite !(Qmult_comm (1 - K)). apply Qmult_le_compat_r; lra. }
  assert (Goal1 : (1 - (K + 2 * ulp)) * ((A + BB) * x) < Y + M * x) by lra. unfold Y in Goal1. lra.
Qed.

(** *** Bursts *)
Definition winD (c : config) (t0 : Z) (tr : list release) (s : rst) : Prop := exists a m, tr = a ++ m /\ front c a /\
  (m = [] /\ (bytes a <= r_bytes s)%Z \/ acc (burst_ratio c) (inject_Z t0) 0 0 m (val (r_burst s)) (r_wait s) (r_bytes s)).
Lemma acc_start r base V : base <= V -> 0 < r -> acc r base 0 0 [] V 0 0.
Proof.
  intros L R. exists [], []. split; [reflexivity|]. split; [reflexivity|]. split; [reflexivity|]. cbn [length duration fold_right]. change (nq 0) with 0. change (nq (0 + 0)) with 0. assert (E : forall q, q == 0 -> q / r == 0) by (intros q ->; unfold Qdiv; ring).
  rewrite !E by lra. split; lra.
Qed.
Lemma winD_checked c t0 k now tr s s1 : 1 <= burst_ratio c -> Forall okrel tr -> dinv k s -> (t0 <= now)%Z -> (k <= now)%Z -> (r_must s = true -> p_coarse (r_burst s) <= now)%Z -> checkedD c now s = Some s1 -> winD c t0 tr s -> winD c t0 tr s1.
Proof.
  intros R Ok I T L M C (a & m & -> & F & W). destruct (checkedD_cases c k now s s1 R I L M C) as [(_ & B1 & B2 & _ & (V & B4 & B5 & B6 & _))|(_ & ->)]; [|exists a, m; auto]. apply Forall_app in Ok as [_ Om].
  exists a, m. split; [reflexivity|]. split; [exact F|]. right. rewrite B1, B2. apply injZ_le in T. destruct W as [[-> _]|W]; [apply acc_start; lra|]. eapply acc_V; [exact B5|]. eapply acc_update; [exact R|lra|exact Om|exact W|exact B4].
Qed.
Lemma winD_steps c t0 s0 tr q : 1 <= burst_ratio c -> hw_rate c = false -> dinv t0 s0 -> stepsD c (t0, s0) tr q -> winD c t0 tr (snd q).
Proof.
  intros R HW I S. assert (I' : forall tr q, stepsD c (t0, s0) tr q -> dinv (fst q) (snd q) /\ (t0 <= fst q)%Z) by (intros tr' q' S'; apply (steps_dinv c (t0, s0) tr' q' R S' I)).
  remember (t0, s0) as p eqn:Ep. induction S; subst; cbn [snd] in *.
  - exists [], []. split; [reflexivity|]. split; [intros a' x X; now apply app_cons_not_nil in X|]. left. split; [reflexivity|]. apply (d_b _ _ I).
  - destruct (IHS eq_refl I') as (a & m & -> & F & W). destruct (I' _ _ S) as [J _]. destruct (empty_dinv k now s s' J H H0) as (_ & E1 & E2 & E3 & _). exists a, m. rewrite E1, E2, E3. auto.
  - destruct (IHS eq_refl I') as (a & m & -> & F & W). exists a, m. auto.
  - destruct (I' _ _ S) as [J T]. cbn [fst snd] in *. destruct (get_casesD c k now1 now2 pk s r s' R J H H0) as [(-> & -> & _)|(s1 & E0 & M & E1 & E2 & [(-> & _ & F1 & F2)|[(-> & -> & _)|(-> & _)]])]; auto; [| |congruence];
      pose proof (winD_checked c t0 k now2 tr s s1 R (stepsD_ok _ _ _ _ S) J ltac:(lia) ltac:(lia) M E0 (IHS eq_refl I')) as X; [|exact X]. destruct X as (a & m & -> & F & W). exists a, m. rewrite E2, F1, F2. auto.
  - destruct (I' _ _ S) as [J T]. cbn [fst snd] in *. destruct (get_casesD c k now1 now2 _ s _ s' R J H H2) as [[E _]|(s1 & E0 & M & E1 & E2 & [(E & _)|[(E & _)|(_ & J1 & _ & BB & size' & w' & [= <- <-] & ->)]])]; try discriminate.
    pose proof (stepsD_ok _ _ _ _ S) as Ok. pose proof (winD_checked c t0 k now2 tr s s1 R Ok J ltac:(lia) ltac:(lia) M E0 (IHS eq_refl I')) as (a & m & -> & F & W). rewrite HW. destruct W as [[-> W]|W].
    + exists (a ++ [(size, w)]), []. rewrite !app_nil_r. split; [reflexivity|]. split; [intros a' x X; apply app_inj_tail in X as [<- _]; lia|]. left. split; [reflexivity|]. cbn [r_bytes]. rewrite bytes_app. cbn. lia.
    + exists a, (m ++ [(size, w)]). rewrite app_assoc. split; [reflexivity|]. split; [exact F|]. right. cbn [r_burst r_wait r_bytes]. fold (wadd (r_wait s1) size w). apply Forall_app in Ok as [_ Om]. apply acc_add; auto; [lra|]. apply double_nonneg, (d_w _ _ J1).
Qed.
(** Peak rate, as [C46_burst_partial] but for the doubles of the code. *)
Theorem C46_burst c z tr0 t0 s1 tr k2 s2 now1 now2 size w s3 : 1 <= burst_ratio c -> hw_rate c = false -> (0 <= z)%Z ->
  stepsD c (z, r_init) tr0 (t0, s1) -> stepsD c (t0, s1) tr (k2, s2) ->
  (k2 <= now1 <= now2)%Z -> get_packetD c now1 now2 (Some (size, w)) s2 = Some (SUCCESS, s3) ->
  exists a m b, tr = a ++ m ++ b /\ front c a /\ (bytes b <= Z.max 0 (burst_size c))%Z /\
    (1 - 5 * count tr * ulp) * (duration m / burst_ratio c) < inject_Z (now2 - t0) + 1 + count tr * (3 * ulp).
Proof.
  intros R HW Z0 S0 S L G. destruct (steps_dinv c _ _ _ R S0 (init_dinv z Z0)) as [I1 _]. cbn [fst snd] in I1. destruct (steps_dinv c _ _ _ R S I1) as [I2 Le]. cbn [fst snd] in I2, Le. pose proof (stepsD_ok _ _ _ _ S) as Ok.
  pose proof (winD_steps c t0 s1 tr (k2, s2) R HW I1 S) as W2. cbn [snd] in W2. destruct (get_casesD c k2 now1 now2 _ s2 _ s3 R I2 L G) as [[E _]|(s' & E0 & M & E1 & E2 & [(E & _)|[(E & _)|(_ & I' & NM & BB & _)]])]; try discriminate.
  destruct (winD_checked c t0 k2 now2 tr s2 s' R Ok I2 ltac:(lia) ltac:(lia) M E0 W2) as (a & m & -> & F & W). assert (LE : 0 <= inject_Z (now2 - t0)) by (apply (injZ_le 0); lia).
  assert (Z1 : forall q, q == 0 -> q / burst_ratio c == 0) by (intros q ->; unfold Qdiv; ring). pose proof ulp_pos as U. pose proof (nq_nonneg (length (a ++ m))) as N0. unfold count. fold (nq (length (a ++ m))). set (N := nq (length (a ++ m))) in *.
  assert (T : 0 <= N * (3 * ulp)) by (apply Qmult_le_0_compat; lra). destruct W as [[-> W]|(x & b & -> & P1 & P0 & P2 & P3)].
  - exists a, [], []. split; [reflexivity|]. split; [exact F|]. split; [cbn; lia|]. cbn [duration fold_right]. rewrite Z1 by lra. lra.
  - exists a, x, b. split; [reflexivity|]. split; [exact F|]. split; [lia|]. pose proof (d_awake _ _ I' NM) as AW. assert (VT : val (r_burst s') < inject_Z now2 + 1) by (apply val_lt; [apply dnorm_norm, (d_nb _ _ I')|exact AW]). unfold Z.sub in *. rewrite inject_Z_plus, inject_Z_opp in *.
    apply Forall_app in Ok as [_ Om]. apply Forall_app in Om as [Ox _]. pose proof (dur_nonneg _ Ox) as Dx. pose proof (Z1 0 (Qeq_refl 0)) as Z2. assert (Dx' : 0 <= duration x / burst_ratio c) by (apply div_nonneg; lra).
    assert (Ex : (duration x + 0) / burst_ratio c == duration x / burst_ratio c) by (rewrite Qplus_0_r; reflexivity). rewrite Ex in P3. set (y := duration x / burst_ratio c) in *.
    set (LL := length (a ++ x ++ b)) in *. assert (ELL : (length (x ++ b) <= LL)%nat) by (unfold LL; rewrite (app_length a); lia). assert (EX : (length x <= LL)%nat) by (unfold LL; rewrite !app_length; lia).
    pose proof (g_dur (3 * length (x ++ b) + 2 * length x + 2 * 0) (5 * LL) y ltac:(lia) Dx') as G3. pose proof (bern_g (5 * LL)) as Bg. assert (E3 : nq (5 * LL) == 5 * N) by (unfold N, nq; rewrite Nat2Z.inj_mul, inject_Z_mult; reflexivity). rewrite E3 in Bg.
    assert (G4 : (1 - 5 * N * ulp) * y <= g (5 * LL) * y) by (apply Qmult_le_compat_r; lra). assert (N1 : nq (length x + 0) <= N) by (apply nq_le; lia). assert (N2 : nq (length x + 0) * (3 * ulp) <= N * (3 * ulp)) by (apply Qmult_le_compat_r; lra). lra.
Qed.

(** *** The limiter wakes up *)
Lemma get_mustD c now1 now2 pk s r s' : get_packetD c now1 now2 pk s = Some (r, s') -> r_must s' = true -> s' = s \/ r_bytes s' = 0%Z /\ r_wait s' = 0.
Proof.
  unfold get_packetD. intros G M. destruct (r_must s && (now1 <? p_coarse (r_burst s))%Z); [injection G as _ <-; now left|]. cbn [r_bytes] in G. destruct (burst_size c <=? r_bytes s)%Z.
  - destruct (update_send_timesD _ _ _) as [[target s1]|] eqn:EU; [|discriminate]. cbn [bind] in G. assert (E : r_bytes s1 = 0%Z /\ r_wait s1 = 0 /\ r_must s1 = false).
    { unfold update_send_timesD in EU. cbn [r_burst r_time r_wait r_must] in EU. destruct (paddD (r_burst s) _); [|discriminate]. cbn [bind] in EU. destruct (paddD (r_time s) _); [|discriminate]. cbn [bind] in EU. injection EU as _ <-. auto. }
    destruct E as (E1 & E2 & E3). destruct (now2 <? target)%Z; [injection G as _ <-; right; cbn [r_bytes r_wait]; auto|]. destruct pk as [[? ?]|]; injection G as _ <-; [destruct (hw_rate c)|]; cbn [r_must] in M; congruence.
  - cbn [bind] in G. destruct (Z.ltb_spec now2 now2); [lia|]. destruct pk as [[? ?]|]; injection G as _ <-; [destruct (hw_rate c)|]; cbn in M; discriminate.
Qed.
Lemma sleep_invD c p tr q : stepsD c p tr q -> (r_must (snd p) = true -> r_bytes (snd p) = 0%Z /\ r_wait (snd p) = 0) -> r_must (snd q) = true -> r_bytes (snd q) = 0%Z /\ r_wait (snd q) = 0.
Proof.
  intros S H0. induction S; cbn [snd] in *; auto; intro X; try discriminate X.
  - unfold update_send_time_emptyD in H1. destruct (ck _); [|discriminate]. cbn [bind] in H1. destruct (ck _); [|discriminate]. cbn [bind] in H1. injection H1 as <-. cbn [r_must r_bytes r_wait] in *. auto.
  - destruct (get_mustD _ _ _ _ _ _ _ H1 X) as [->|]; auto.
  - destruct (get_mustD _ _ _ _ _ _ _ H3 X) as [->|]; auto.
Qed.
(** Asked at or after the time it said it would wait for, the limiter does not say
    so again: rounding does not move a time that nothing is added to. *)
Theorem C46_wakes_double c z tr0 k s now1 now2 pk s' r : 1 <= burst_ratio c -> (0 <= z)%Z -> stepsD c (z, r_init) tr0 (k, s) -> r_must s = true -> (k <= now1 <= now2)%Z -> (p_coarse (r_burst s) <= now1)%Z ->
  get_packetD c now1 now2 pk s = Some (r, s') -> r <> SLEEP.
Proof.
  intros R Z0 S M L B G. destruct (steps_dinv c _ _ _ R S (init_dinv z Z0)) as [I _]. cbn [fst snd] in I. destruct (sleep_invD c _ _ _ S) as [B0 W0]; [discriminate|exact M|]. cbn [snd] in B0, W0.
  unfold get_packetD in G. rewrite M in G. cbn [andb] in G. destruct (Z.ltb_spec now1 (p_coarse (r_burst s))); [lia|]. cbn [r_bytes] in G. pose proof (d_nb _ _ I) as Nb0. pose proof (d_nt _ _ I) as Nt0. pose proof (d_w _ _ I) as Dw. pose proof (d_t _ _ I) as Dt.
  destruct (burst_size c <=? r_bytes s)%Z; [|cbn [bind] in G; destruct (Z.ltb_spec now2 now2); [lia|]; destruct pk as [[? ?]|]; injection G as <- <-; discriminate].
  unfold update_send_timesD in G. cbn [r_burst r_time r_wait] in G. destruct (paddD (r_burst s) _) as [b|] eqn:E1; [|discriminate]. cbn [bind] in G. destruct (paddD (r_time s) _) as [t|] eqn:E2; [|discriminate]. cbn [bind] in G.
  destruct (adv_burst _ _ _ _ Nb0 R Dw E1) as [Nb (_ & _ & Vb)]. destruct (adv_time _ _ _ Nt0 Dw E2) as [Nt (_ & _ & Vt)]. assert (W00 : r_wait s == 0) by (rewrite W0; reflexivity). specialize (Vb W00). specialize (Vt W00). apply dnorm_norm in Nb, Nt, Nb0, Nt0.
  assert (Cb : (p_coarse b <= p_coarse (r_burst s))%Z) by (apply coarse_mono; auto; lra). assert (Ct : (p_coarse t <= p_coarse (r_time s))%Z) by (apply coarse_mono; auto; lra).
  assert (P : (p_coarse (pmax b t) <= now2)%Z) by (destruct (pmax_is b t) as [-> | ->]; lia). destruct (Z.ltb_spec now2 (p_coarse (pmax b t))); [lia|]. destruct pk as [[? ?]|]; injection G as <- <-; discriminate.
Qed.

(** *** Overflow *)
Lemma h_dur n m x : (n <= m)%nat -> 0 <= x -> h n * x <= h m * x.
Proof. intros L X. apply Qmult_le_compat_r; [now apply h_mono|exact X]. Qed.
Definition up (k : Z) (tr : list release) (s : rst) : Prop := exists a b, tr = a ++ b /\ (b = [] -> r_wait s == 0) /\
  r_wait s <= h (3 * length tr) * (duration b + (1 # 2) * nq (length b)) /\
  val (r_time s) <= inject_Z k + h (5 * length tr) * (duration a + nq (length a)) /\ val (r_burst s) <= inject_Z k + h (5 * length tr) * (duration a + nq (length a)).
Lemma up_adv r k a b V V' wait : 1 <= r -> Forall okrel (a ++ b) -> (b = [] -> wait == 0) -> 0 <= wait -> wait <= h (3 * length (a ++ b)) * (duration b + (1 # 2) * nq (length b)) ->
  V <= inject_Z k + h (5 * length (a ++ b)) * (duration a + nq (length a)) -> adv r V V' wait -> V' <= inject_Z k + h (5 * length (a ++ b)) * (duration (a ++ b) + nq (length (a ++ b))).
Proof.
  intros R F Z W0 W H (_ & A2 & A3). apply Forall_app in F as [Fa Fb]. pose proof (dur_nonneg _ Fa) as Da. pose proof (dur_nonneg _ Fb) as Db. pose proof ulp_pos as U. pose proof ulp_small as U8. pose proof (nq_nonneg (length a)) as Na. pose proof (nq_nonneg (length b)) as Nb0.
  destruct b as [|b0 b1]; [rewrite app_nil_r in *; rewrite (A3 (Z eq_refl)); exact H|]. set (bb := b0 :: b1) in *. assert (Lb : (1 <= length bb)%nat) by (unfold bb; cbn [length]; lia). clearbody bb. set (L := length (a ++ bb)) in *. assert (EL : L = (length a + length bb)%nat) by apply app_length.
  pose proof (nq_le _ _ Lb) as Nb. rewrite nq_1 in Nb. assert (EN : nq L == nq (length a) + nq (length bb)) by (rewrite EL; apply nq_plus). rewrite duration_app, EN.
  assert (D : wait / r <= wait). { apply Qle_shift_div_r; [lra|]. assert (wait * 1 <= wait * r) by (rewrite !(Qmult_comm wait); apply Qmult_le_compat_r; lra). lra. }
  assert (M1 : (1 + ulp) * ((1 + ulp) * (wait / r)) <= (1 + ulp) * ((1 + ulp) * (h (3 * L) * (duration bb + (1 # 2) * nq (length bb))))) by (apply Qmult_le_l; [lra|]; apply Qmult_le_l; lra).
  pose proof (h_dur (S (S (3 * L))) (5 * L) (duration bb + (1 # 2) * nq (length bb)) ltac:(lia) ltac:(lra)) as G1. cbn [h] in G1. pose proof (h_pos (5 * L)) as Hp. set (hh := h (5 * L)) in *.
  assert (X : 1 * (1 # 2) <= hh * ((1 # 2) * nq (length bb))) by (apply Qle_trans with (hh * (1 # 2)); [lra|apply Qmult_le_l; lra]). lra.
Qed.
Lemma up_checked c k now tr s s1 : 1 <= burst_ratio c -> Forall okrel tr -> dinv k s -> (k <= now)%Z -> (r_must s = true -> p_coarse (r_burst s) <= now)%Z -> checkedD c now s = Some s1 -> up k tr s -> up now tr s1.
Proof.
  intros R F I L M C (a & b & -> & Z & W & T & B). apply injZ_le in L as Lq. destruct (checkedD_cases c k now s s1 R I L M C) as [(_ & B1 & B2 & B3 & (V & B4 & _ & _ & _ & B5))|(_ & ->)]; [|exists a, b; cbn [awake r_wait r_time r_burst]; repeat split; auto; lra].
  pose proof (double_nonneg _ (d_w _ _ I)) as W0. pose proof (up_adv 1 k a b _ _ _ ltac:(lra) F Z W0 W T B3) as UT. pose proof (up_adv _ k a b _ _ _ R F Z W0 W B B4) as UB. pose proof (dur_nonneg _ F) as D0. pose proof (nq_nonneg (length (a ++ b))) as N0. pose proof (h_pos (5 * length (a ++ b))) as Hp.
  assert (Y : 0 <= h (5 * length (a ++ b)) * (duration (a ++ b) + nq (length (a ++ b)))) by (apply Qmult_le_0_compat; lra).
  exists (a ++ b), []. rewrite app_nil_r, B2. split; [reflexivity|]. split; [reflexivity|]. split; [cbn [length duration fold_right]; change (nq 0) with 0; lra|]. split; [lra|]. destruct B5 as [B5|[B5|B5]]; lra.
Qed.
Lemma up_steps c p tr q : 1 <= burst_ratio c -> dinv (fst p) (snd p) -> up (fst p) [] (snd p) -> stepsD c p tr q -> up (fst q) tr (snd q).
Proof.
  intros R I A S. assert (I' : forall tr q, stepsD c p tr q -> dinv (fst q) (snd q)) by (intros tr' q' S'; apply (steps_dinv c p tr' q' R S' I)).
  induction S; cbn [fst snd] in *; auto.
  - destruct (IHS I A I') as (a & b & E & Z & W & T & B). destruct (empty_dinv k now s s' (I' _ _ S) H H0) as (_ & E1 & _ & E3 & _ & _ & _ & G). exists a, b. rewrite E1, E3. apply injZ_le in H. split; [exact E|]. split; [exact Z|]. split; [exact W|]. split; [|lra].
    destruct G as [->|G]; [lra|]. pose proof (stepsD_ok _ _ _ _ S) as F. rewrite E in F. apply Forall_app in F as [F _]. pose proof (dur_nonneg _ F). pose proof (nq_nonneg (length a)). pose proof (h_pos (5 * length tr)).
    assert (0 <= h (5 * length tr) * (duration a + nq (length a))) by (apply Qmult_le_0_compat; lra). lra.
  - destruct (IHS I A I') as (a & b & E & Z & W & T & B). apply injZ_le in H. exists a, b. cbn [on_timer r_wait r_time r_burst]. repeat split; auto; lra.
  - destruct (get_casesD c k now1 now2 pk s r s' R (I' _ _ S) H H0) as [(-> & -> & _)|(s1 & E0 & M & E1 & E2 & [(-> & _ & F1 & F2)|[(-> & -> & _)|(-> & _)]])]; [| | |congruence].
    + destruct (IHS I A I') as (a & b & E & Z & W & T & B). destruct H as [H H']. apply injZ_le in H, H'. exists a, b. repeat split; auto; lra.
    + pose proof (up_checked c k now2 tr s s1 R (stepsD_ok _ _ _ _ S) (I' _ _ S) ltac:(lia) M E0 (IHS I A I')) as X. unfold up. rewrite E1, E2, F2. exact X.
    + apply (up_checked c k now2 tr s s1 R (stepsD_ok _ _ _ _ S) (I' _ _ S) ltac:(lia) M E0 (IHS I A I')).
  - destruct (get_casesD c k now1 now2 _ s _ s' R (I' _ _ S) H H2) as [[E _]|(s1 & E0 & M & E1 & E2 & [(E & _)|[(E & _)|(_ & J & _ & _ & size' & w' & [= <- <-] & ->)]])]; try discriminate.
    pose proof (stepsD_ok _ _ _ _ S) as F. destruct (up_checked c k now2 tr s s1 R F (I' _ _ S) ltac:(lia) M E0 (IHS I A I')) as (a & b & -> & Z & W & T & B). apply Forall_app in F as [Fa Fb]. pose proof (dur_nonneg _ Fa) as Da. pose proof (dur_nonneg _ Fb) as Db. pose proof (nq_nonneg (length a)) as Na. pose proof (nq_nonneg (length b)) as Nb.
    exists a, (b ++ [(size, w)]). rewrite app_assoc. split; [reflexivity|]. set (L := length (a ++ b)) in *. assert (EL : length ((a ++ b) ++ [(size, w)]) = (1 + L)%nat) by (rewrite app_length; cbn [length]; unfold L; lia). rewrite EL.
    pose proof (h_dur (5 * L) (5 * (1 + L)) (duration a + nq (length a)) ltac:(lia) ltac:(lra)) as G1. pose proof (double_nonneg _ H1) as Dw. assert (Y0 : 0 <= inject_Z size * w) by (apply Qmult_le_0_compat; [change 0 with (inject_Z 0); now apply injZ_le|exact Dw]).
    pose proof ulp_pos as U. pose proof eta_ulp as He. pose proof eta_pos as Hp. pose proof ulp_small as U8. rewrite duration_app, duration_1, len_app. cbn [length]. rewrite nq_1. pose proof (double_nonneg _ (d_w _ _ J)) as W0. destruct (wadd_spec (r_wait s1) size w W0 H0 Dw) as (_ & _ & Sw).
    assert (M1 : (1 + ulp) * r_wait s1 <= (1 + ulp) * (h (3 * L) * (duration b + (1 # 2) * nq (length b)))) by (apply Qmult_le_l; lra).
    pose proof (h_dur (1 + 3 * L) (3 * (1 + L)) (duration b + (1 # 2) * nq (length b)) ltac:(lia) ltac:(lra)) as G2. pose proof (h_dur 3 (3 * (1 + L)) (inject_Z size * w) ltac:(lia) Y0) as G3. pose proof (h_pos (3 * (1 + L))) as H3'. change (h (1 + 3 * L)) with ((1 + ulp) * h (3 * L)) in G2.
    assert (WB : wadd (r_wait s1) size w <= h (3 * (1 + L)) * (duration b + inject_Z size * w + (1 # 2) * (nq (length b) + 1))) by lra.
    split; [intro X; now apply app_eq_nil in X as [_ X]|]. destruct (hw_rate c); cbn [r_wait r_time r_burst]; [|fold (wadd (r_wait s1) size w); repeat split; auto; lra]. split; [|lra].
    apply Qle_trans with ((1 + ulp) * r_wait s1); [assert (0 <= ulp * r_wait s1) by (apply Qmult_le_0_compat; lra); lra|]. assert (0 <= h (3 * (1 + L)) * (inject_Z size * w + (1 # 2))) by (apply Qmult_le_0_compat; lra). lra.
Qed.
(** No overflow: while the clock and twice the time all packets take at their rates
    (and two ticks for each) are below 2^63 ticks (292 years), and no more than 2^48
    packets have been sent, nothing undefined happens. *)
Theorem C46_defined c z tr k s now1 now2 pk : 1 <= burst_ratio c -> (0 <= z)%Z -> stepsD c (z, r_init) tr (k, s) -> (k <= now1 <= now2)%Z ->
  (Z.of_nat (length tr) <= 2 ^ 48)%Z -> inject_Z now2 + 2 * (duration tr + count tr) < inject_Z (2 ^ 63) ->
  get_packetD c now1 now2 pk s <> None /\ update_send_time_emptyD now2 s <> None.
Proof.
  intros R Z0 S L N B. destruct (steps_dinv c _ _ _ R S (init_dinv z Z0)) as [I Le]. cbn [fst snd] in I, Le. assert (U0 : up z [] r_init).
  { exists [], []. cbn [length duration fold_right r_init r_wait r_time r_burst]. change (nq 0) with 0. assert (P0 : 0 <= inject_Z z) by now apply (injZ_le 0). rewrite !val_of. change (inject_Z 0) with 0. split; [reflexivity|]. split; [reflexivity|]. lra. }
  pose proof (up_steps c (z, r_init) tr (k, s) R (init_dinv z Z0) U0 S) as UP. cbn [fst snd] in UP. pose proof (stepsD_ok _ _ _ _ S) as F. pose proof (dur_nonneg _ F) as D0. unfold count in B. fold (nq (length tr)) in B. pose proof (nq_nonneg (length tr)) as N0.
  assert (H5 : h (5 * length tr) <= 2). { apply h_2. apply Qle_trans with (inject_Z (5 * 2 ^ 48) * ulp); [apply Qmult_le_compat_r; [unfold nq; apply injZ_le; lia|pose proof ulp_pos; lra]|vm_compute; discriminate]. }
  assert (HD : h (5 * length tr) * (duration tr + nq (length tr)) <= 2 * (duration tr + nq (length tr))) by (apply Qmult_le_compat_r; lra). assert (Lq : inject_Z k <= inject_Z now2) by (apply injZ_le; lia). assert (K0 : 0 <= inject_Z k) by (apply (injZ_le 0), (d_k _ _ I)).
  pose proof (double_nonneg _ (d_w _ _ I)) as W0. destruct UP as (a & b & -> & Z & W & T & V). split.
  - unfold get_packetD. destruct (r_must s && (now1 <? p_coarse (r_burst s))%Z); [discriminate|]. cbn [r_bytes]. destruct (burst_size c <=? r_bytes s)%Z.
    + unfold update_send_timesD. cbn [r_burst r_time r_wait r_must]. pose proof (div_nonneg (r_wait s) (burst_ratio c) W0 ltac:(lra)) as Wd.
      assert (X : forall r t d, 1 <= r -> dnorm t -> 0 <= d -> (1 - ulp) * (r_wait s / r) - eta <= d -> d <= (1 + ulp) * (r_wait s / r) + eta -> (r_wait s == 0 -> d == 0) -> val t <= inject_Z k + h (5 * length (a ++ b)) * (duration a + nq (length a)) -> exists t', paddD t d = Some t').
      { intros r t d Hr Nt Dd D1 D2 D3 Vt. apply paddD_some; auto.
        assert (Vx : inject_Z (p_coarse t) + rnd (p_corr t + d) <= inject_Z k + h (5 * length (a ++ b)) * (duration (a ++ b) + nq (length (a ++ b)))); [|lra].
        apply (up_adv r k a b (val t) _ (r_wait s) Hr F Z W0 W Vt). destruct Nt as (Dt & Lt & Ct). pose proof (double_nonneg _ Dt) as P0. pose proof ulp_pos as U. pose proof ulp_small as U8. pose proof eta_ulp as He. pose proof eta_pos as Hp.
        destruct (rnd_err (p_corr t + d) ltac:(lra)) as [Q1 Q2]. change u53 with ulp in Q1, Q2. pose proof (div_nonneg (r_wait s) r W0 ltac:(lra)) as Wr. unfold adv, val in *. set (cc := p_corr t) in *. set (y := r_wait s / r) in *.
        assert (Uc : ulp * cc <= ulp) by nra. assert (Uc0 : 0 <= ulp * cc) by nra. assert (Ue : ulp * eta <= eta) by nra.
        assert (G1 : (1 - ulp) * ((1 - ulp) * y - eta) <= (1 - ulp) * d) by (apply Qmult_le_l; lra). assert (G2 : (1 + ulp) * d <= (1 + ulp) * ((1 + ulp) * y + eta)) by (apply Qmult_le_l; lra).
        split; [nra|]. split; [nra|]. intro Zw. rewrite (rnd_same cc d Dt (D3 Zw)). reflexivity. }
      pose proof ulp_pos as U. pose proof eta_pos as Hp. destruct (rnd_err (r_wait s / burst_ratio c) Wd) as [Q1 Q2]. change u53 with ulp in Q1, Q2.
      destruct (X (burst_ratio c) (r_burst s) (rnd (r_wait s / burst_ratio c)) R (d_nb _ _ I) (rnd_nonneg _ Wd)) as [tb ->]; [lra|lra|intro Zw; rewrite rnd_0; [reflexivity|rewrite Zw; unfold Qdiv; ring]|exact V|].
      assert (E1 : r_wait s / 1 == r_wait s) by field. destruct (X 1 (r_time s) (r_wait s) ltac:(lra) (d_nt _ _ I) W0) as [tt ->]; [rewrite E1; nra|rewrite E1; nra|auto|exact T|]. cbn [bind].
      match goal with |- (if ?x then _ else _) <> None => destruct x end; [discriminate|]. destruct pk as [[? ?]|]; discriminate.
    + cbn [bind]. destruct (now2 <? now2)%Z; [discriminate|]. destruct pk as [[? ?]|]; discriminate.
  - unfold update_send_time_emptyD. destruct (trunc_bound _ W0) as (T1 & T2 & T3). apply Forall_app in F as [Fa Fb]. pose proof (dur_nonneg _ Fa) as Da. pose proof (dur_nonneg _ Fb) as Db. pose proof (nq_nonneg (length b)) as Nb.
    pose proof (h_dur (3 * length (a ++ b)) (5 * length (a ++ b)) (duration b + (1 # 2) * nq (length b)) ltac:(lia) ltac:(lra)) as HH. assert (H6 : h (5 * length (a ++ b)) * (duration b + (1 # 2) * nq (length b)) <= 2 * (duration b + (1 # 2) * nq (length b))) by (apply Qmult_le_compat_r; lra).
    rewrite duration_app, len_app in B. pose proof (nq_nonneg (length a)) as Na. assert (X : (trunc (r_wait s) + now2 < 2 ^ 63)%Z) by (rewrite Zlt_Qlt, inject_Z_plus; lra). pose proof (d_k _ _ I) as Dk. cbn [fst] in *. rewrite ck_ok by lia. cbn [bind]. rewrite ck_ok by lia. discriminate.
Qed.

(** *** Examples: 300 MB/s (a byte takes 3.33 ns, which is not a double), bursts of
    1000 bytes, ratio 1.05. *)
Definition exd_c : config := {| burst_size := 1000; burst_ratio := rnd (21 # 20); hw_rate := false |}.
Definition exd_w : Q := wait_per_byte 300000000.
Definition exd_get (now : Z) (s : rst) : rst := match get_packetD exd_c now now (Some (800%Z, exd_w)) s with Some (_, s') => s' | None => r_init end.
Definition exd_0 : rst := match update_send_time_emptyD 5000 r_init with Some s => s | None => r_init end.
Definition exd_1 : rst := exd_get 5000 exd_0.
Definition exd_2 : rst := exd_get 5001 exd_1.
Definition exd_3 : rst := exd_get 5002 exd_2.
Definition exd_4 : rst := exd_get 10340 (on_timer exd_3).
(** Two packets go at once, the third one 5333 ns after the start; the fourth is
    let through at once; then the limiter sleeps. *)
Example C46_double_ex : stepsD exd_c (0, r_init)%Z [] (0%Z, r_init) /\ update_send_time_emptyD 5000 r_init = Some exd_0 /\
  stepsD exd_c (5000%Z, exd_0) [(800%Z, exd_w); (800%Z, exd_w); (800%Z, exd_w)] (10340%Z, exd_4) /\
  get_packetD exd_c 10341 10341 (Some (800%Z, exd_w)) exd_4 = Some (SUCCESS, exd_get 10341 exd_4) /\
  option_map fst (get_packetD exd_c 5002 5002 (Some (800%Z, exd_w)) exd_2) = Some SLEEP /\ p_coarse (r_burst exd_3) = 10333%Z /\ ~ exd_w == 10 # 3 /\ p_corr (r_burst exd_3) < 1 /\ 0 < p_corr (r_burst exd_3).
Proof.
  assert (W : is_double exd_w) by (apply wpb_spec; [lra|vm_compute; discriminate]).
  split; [apply stepsD0|]. split; [vm_compute; reflexivity|]. split; [|split; [vm_compute; reflexivity|split; [vm_compute; reflexivity|split; [vm_compute; reflexivity|split; [vm_compute; discriminate|split; vm_compute; reflexivity]]]]].
  change [(800%Z, exd_w); (800%Z, exd_w); (800%Z, exd_w)] with ((([] ++ [(800%Z, exd_w)]) ++ [(800%Z, exd_w)]) ++ [(800%Z, exd_w)]).
  apply (stepsD_get _ _ _ 10334%Z (on_timer exd_3) 10340%Z 10340%Z); [|lia|lia|exact W|vm_compute; reflexivity]. apply (stepsD_timer _ _ _ 5002%Z); [|lia|vm_compute; discriminate].
  apply (stepsD_wait _ _ _ 5001%Z exd_2 5002%Z 5002%Z (Some (800%Z, exd_w)) SLEEP); [|lia|vm_compute; reflexivity|discriminate].
  apply (stepsD_get _ _ _ 5000%Z exd_1 5001%Z 5001%Z); [|lia|lia|exact W|vm_compute; reflexivity].
  apply (stepsD_get _ _ _ 5000%Z exd_0 5000%Z 5000%Z); [|lia|lia|exact W|vm_compute; reflexivity]. apply stepsD0.
Qed.

(** Without the bound of [C46_defined] there is undefined behaviour: at a rate of
    10^-7 bytes per second, which set_rate accepts, the time a packet of 1472 bytes
    takes is not a 64-bit number of nanoseconds. *)
Theorem C46_tiny_rate_refuted : exists c rate s, 1 <= burst_ratio c /\ 0 < rate /\
  stepsD c (0%Z, r_init) [(1472%Z, wait_per_byte rate)] (1%Z, s) /\ get_packetD c 2 2 None s = None /\ update_send_time_emptyD 2 s = None.
Proof.
  set (w := wait_per_byte (1 # 10000000)). set (s := match get_packetD exd_c 1 1 (Some (1472%Z, w)) r_init with Some (_, s') => s' | None => r_init end).
  exists exd_c, (1 # 10000000), s. split; [vm_compute; discriminate|]. split; [reflexivity|]. split; [|split; vm_compute; reflexivity]. change [(1472%Z, wait_per_byte (1 # 10000000))] with ([] ++ [(1472%Z, w)]).
  apply (stepsD_get _ _ _ 0%Z r_init 1%Z 1%Z); [apply stepsD0|lia|lia|apply wpb_spec; [reflexivity|vm_compute; discriminate]|vm_compute; reflexivity].
Qed.

Print Assumptions C46_average.
Print Assumptions C46_average_rate.
Print Assumptions C46_burst.
Print Assumptions C46_wakes_double.
Print Assumptions C46_defined.
Print Assumptions C46_tiny_rate_refuted.
