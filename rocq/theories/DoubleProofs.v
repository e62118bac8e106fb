(** Rounding to double. *)
From Coq Require Import ZArith QArith Qround Qpower Qabs Lia Lqa.
From Verif Require Import DoubleModel.
Open Scope Q_scope.

Lemma two_n0 : ~ 2 == 0. Proof. lra. Qed.
Lemma pow2_pos k : 0 < pow2 k. Proof. apply Qpower_0_lt. lra. Qed.
Lemma pow2_plus a b : pow2 (a + b) == pow2 a * pow2 b. Proof. apply Qpower_plus, two_n0. Qed.
Lemma pow2_le a b : (a <= b)%Z -> pow2 a <= pow2 b. Proof. intro H. apply Qpower_le_compat_l; [exact H|lra]. Qed.
Lemma pow2_lt_inv a b : pow2 a < pow2 b -> (a < b)%Z. Proof. intro H. apply (Qpower_lt_compat_l_inv 2); [exact H|lra]. Qed.
Lemma pow2_Z k : (0 <= k)%Z -> inject_Z (2 ^ k) == pow2 k. Proof. intro H. now apply Zpower_Qpower. Qed.
Lemma pow2_inv k : pow2 (- k) * pow2 k == 1. Proof. rewrite <- pow2_plus. replace (- k + k)%Z with 0%Z by lia. reflexivity. Qed.
Lemma pow2_0 : pow2 0 == 1. Proof. reflexivity. Qed.

Lemma ilog_spec q : 0 < q -> pow2 (ilog q) <= q /\ q < pow2 (ilog q + 1).
Proof.
  intro P. assert (N : (0 < Qnum q)%Z) by (unfold Qlt in P; cbn in P; lia). pose proof (Pos2Z.is_pos (Qden q)) as D. unfold ilog.
  destruct (Z.log2_spec _ N) as [N1 N2]. destruct (Z.log2_spec _ D) as [D1 D2]. set (ln := Z.log2 (Qnum q)) in *. set (ld := Z.log2 (QDen q)) in *.
  assert (Ln : (0 <= ln)%Z) by apply Z.log2_nonneg. assert (Ld : (0 <= ld)%Z) by apply Z.log2_nonneg.
  assert (E : q * inject_Z (QDen q) == inject_Z (Qnum q)) by (destruct q as [n d]; unfold Qeq, inject_Z; cbn; lia).
  rewrite Zle_Qle, (pow2_Z ln Ln) in N1. rewrite Zlt_Qlt, (pow2_Z (Z.succ ln)) in N2 by lia. rewrite Zle_Qle, (pow2_Z ld Ld) in D1. rewrite Zlt_Qlt, (pow2_Z (Z.succ ld)) in D2 by lia.
  unfold Z.succ in *. rewrite pow2_plus in N2, D2. change (pow2 1) with 2 in *. pose proof (pow2_pos ld) as Pd. pose proof (pow2_pos ln) as Pn.
  assert (Ee : pow2 (ln - ld) * pow2 ld == pow2 ln) by (rewrite <- pow2_plus; replace (ln - ld + ld)%Z with ln by lia; reflexivity).
  pose proof (pow2_pos (ln - ld)) as Pe. assert (U : q < pow2 (ln - ld + 1)).
  { rewrite pow2_plus. change (pow2 1) with 2. apply Qnot_le_lt. intro C. assert (q * pow2 ld <= inject_Z (Qnum q)) by (rewrite <- E; apply Qmult_le_l; lra). assert (pow2 (ln - ld) * 2 * pow2 ld <= q * pow2 ld) by (apply Qmult_le_r; lra). lra. }
  destruct (Qle_bool (pow2 (ln - ld)) q) eqn:B; [split; [now apply Qle_bool_iff|exact U]|]. replace (ln - ld - 1 + 1)%Z with (ln - ld)%Z by lia.
  split; [|apply Qnot_le_lt; intro C; apply Qle_bool_iff in C; congruence].
  apply Qnot_lt_le. intro C. assert (T : pow2 (ln - ld) == pow2 (ln - ld - 1) * 2) by (change 2 with (pow2 1); rewrite <- pow2_plus; replace (ln - ld - 1 + 1)%Z with (ln - ld)%Z by lia; reflexivity).
  assert (inject_Z (Qnum q) <= q * (pow2 ld * 2)) by (rewrite <- E; apply Qmult_le_l; lra).
  assert (q * (pow2 ld * 2) < pow2 (ln - ld - 1) * (pow2 ld * 2)) by (apply Qmult_lt_r; lra).
  assert (pow2 (ln - ld - 1) * (pow2 ld * 2) == pow2 ln) by (rewrite <- Ee, T; ring). lra.
Qed.

Lemma rne_spec x : inject_Z (rne x) - x <= 1 # 2 /\ x - inject_Z (rne x) <= 1 # 2.
Proof.
  unfold rne. pose proof (Qfloor_le x) as L. pose proof (Qlt_floor x) as U. rewrite inject_Z_plus in U. change (inject_Z 1) with 1 in U. destruct (Qcompare _ _) eqn:C.
  - apply Qeq_alt in C. destruct (Z.even _); rewrite ?inject_Z_plus; change (inject_Z 1) with 1; lra.
  - apply Qlt_alt in C. lra.
  - apply Qgt_alt in C. rewrite inject_Z_plus. change (inject_Z 1) with 1. lra.
Qed.
Lemma rne_int x z : x == inject_Z z -> rne x = z.
Proof.
  intro E. unfold rne. assert (F : Qfloor x = z) by (rewrite E; apply Qfloor_Z). rewrite F. destruct (Qcompare _ _) eqn:C; [apply Qeq_alt in C|reflexivity|apply Qgt_alt in C]; lra.
Qed.
Lemma rne_mono x z : x <= inject_Z z -> (rne x <= z)%Z.
Proof.
  intro H. destruct (rne_spec x) as [A B]. destruct (Z_le_gt_dec (rne x) z) as [|G]; [assumption|]. assert (G' : (z + 1 <= rne x)%Z) by lia. rewrite Zle_Qle, inject_Z_plus in G'. change (inject_Z 1) with 1 in G'. lra.
Qed.
Lemma rne_nonneg x : 0 <= x -> (0 <= rne x)%Z.
Proof. intro H. destruct (rne_spec x) as [A B]. destruct (Z_le_gt_dec 0 (rne x)) as [|G]; [assumption|]. assert (G' : (rne x <= -1)%Z) by lia. rewrite Zle_Qle in G'. change (inject_Z (-1)) with (-1) in G'. lra. Qed.

Definition kexp (q : Q) : Z := Z.max (ilog q - 52) (-1074).
Lemma scaled q k : q / pow2 k * pow2 k == q.
Proof. pose proof (pow2_pos k). field. lra. Qed.
Lemma rnd_pos_err q : 0 < q -> rnd_pos q - q <= pow2 (kexp q - 1) /\ q - rnd_pos q <= pow2 (kexp q - 1).
Proof.
  intro P. unfold rnd_pos. fold (kexp q). set (k := kexp q). destruct (rne_spec (q / pow2 k)) as [A B]. pose proof (pow2_pos k) as Pk. pose proof (scaled q k) as E. set (x := q / pow2 k) in *.
  assert (H : pow2 k == pow2 (k - 1) * 2) by (change 2 with (pow2 1); rewrite <- pow2_plus; replace (k - 1 + 1)%Z with k by lia; reflexivity).
  split.
  - setoid_replace (inject_Z (rne x) * pow2 k - q) with ((inject_Z (rne x) - x) * pow2 k) by (rewrite <- E; ring). setoid_replace (pow2 (k - 1)) with ((1 # 2) * pow2 k) by (rewrite H; field). apply Qmult_le_r; assumption.
  - setoid_replace (q - inject_Z (rne x) * pow2 k) with ((x - inject_Z (rne x)) * pow2 k) by (rewrite <- E; ring). setoid_replace (pow2 (k - 1)) with ((1 # 2) * pow2 k) by (rewrite H; field). apply Qmult_le_r; assumption.
Qed.
Lemma kexp_err q : 0 < q -> pow2 (kexp q - 1) <= u53 * q \/ pow2 (kexp q - 1) == eta /\ q < pow2 (-1021).
Proof.
  intro P. unfold kexp. destruct (ilog_spec q P) as [L U]. destruct (Z.max_spec (ilog q - 52) (-1074)) as [[C ->]|[C ->]].
  - right. split; [reflexivity|]. apply Qlt_le_trans with (1 := U). apply pow2_le. lia.
  - left. replace (ilog q - 52 - 1)%Z with (-53 + ilog q)%Z by lia. rewrite pow2_plus. apply Qmult_le_l; [apply pow2_pos|exact L].
Qed.
Lemma rnd_is_pos q : 0 < q -> rnd q = rnd_pos q.
Proof. intro P. unfold rnd. apply Qgt_alt in P. now rewrite P. Qed.
Lemma rnd_0 q : q == 0 -> rnd q = 0.
Proof. intro E. unfold rnd. apply Qeq_alt in E. now rewrite E. Qed.
Lemma u53_pos : 0 < u53. Proof. apply pow2_pos. Qed.
Lemma eta_pos : 0 < eta. Proof. apply pow2_pos. Qed.
Lemma qcase q : 0 <= q -> q == 0 \/ 0 < q.
Proof. intro H. destruct (Qlt_le_dec 0 q) as [|L]; [now right|left; lra]. Qed.

(** Rounding errors *)
Lemma rnd_err q : 0 <= q -> rnd q <= q + u53 * q + eta /\ q - u53 * q - eta <= rnd q.
Proof.
  intro P. pose proof u53_pos as Up. pose proof eta_pos as Ep. apply qcase in P as [P|P]; [rewrite (rnd_0 q P); setoid_rewrite P; lra|].
  rewrite (rnd_is_pos q P). destruct (rnd_pos_err q P) as [A B]. assert (0 < u53 * q) by (apply Qmult_lt_0_compat; assumption). destruct (kexp_err q P) as [C|[C _]]; lra.
Qed.
Lemma rnd_err_big q : pow2 (-1021) <= q -> rnd q <= q + u53 * q /\ q - u53 * q <= rnd q.
Proof.
  intro P. assert (P0 : 0 < q) by (apply Qlt_le_trans with (2 := P), pow2_pos). rewrite (rnd_is_pos q P0). destruct (rnd_pos_err q P0) as [A B]. destruct (kexp_err q P0) as [C|[_ C]]; lra.
Qed.
Lemma rnd_err_int z : (0 <= z)%Z -> rnd (inject_Z z) <= inject_Z z + u53 * inject_Z z /\ inject_Z z - u53 * inject_Z z <= rnd (inject_Z z).
Proof.
  intro H. destruct (Z.eq_dec z 0) as [->|N]; [rewrite rnd_0 by reflexivity; split; vm_compute; discriminate|]. apply rnd_err_big.
  apply Qle_trans with 1; [vm_compute; discriminate|]. change 1 with (inject_Z 1). rewrite <- Zle_Qle. lia.
Qed.
Lemma rnd_nonneg q : 0 <= q -> 0 <= rnd q.
Proof.
  intro P. apply qcase in P as [P|P]; [rewrite (rnd_0 q P); lra|]. rewrite (rnd_is_pos q P). unfold rnd_pos. set (k := Z.max _ _). pose proof (pow2_pos k).
  apply Qmult_le_0_compat; [|lra]. change 0 with (inject_Z 0). rewrite <- Zle_Qle. apply rne_nonneg. apply Qle_shift_div_l; [assumption|lra].
Qed.
(** The result is a double, and a double is not changed. *)
Lemma rnd_double q : 0 <= q -> is_double (rnd q).
Proof.
  intro P. apply qcase in P as [P|P]; [exists 0%Z, 0%Z; rewrite (rnd_0 q P); repeat split; try lia; try reflexivity; apply Z.pow_nonneg; lia|].
  rewrite (rnd_is_pos q P). unfold rnd_pos. fold (kexp q). exists (rne (q / pow2 (kexp q))), (kexp q). pose proof (pow2_pos (kexp q)) as Pk. split; [|split; [unfold kexp; lia|reflexivity]]. split.
  - apply rne_nonneg. apply Qle_shift_div_l; [assumption|lra].
  - apply rne_mono. rewrite pow2_Z by lia. apply Qle_shift_div_r; [assumption|]. rewrite <- pow2_plus. apply Qlt_le_weak. apply Qlt_le_trans with (1 := proj2 (ilog_spec q P)). apply pow2_le. unfold kexp. lia.
Qed.
Lemma rnd_exact q : is_double q -> rnd q == q.
Proof.
  intros (m & k & M & K & E). destruct (Z.eq_dec m 0) as [->|N].
  { assert (Z0 : q == 0) by (rewrite E; ring). now rewrite (rnd_0 q Z0), Z0. }
  pose proof (pow2_pos k) as Pk. assert (P : 0 < q). { rewrite E. apply Qmult_lt_0_compat; [|assumption]. change 0 with (inject_Z 0). rewrite <- Zlt_Qlt. lia. }
  rewrite (rnd_is_pos q P). unfold rnd_pos. fold (kexp q). destruct (ilog_spec q P) as [L U].
  assert (I : exists z, q == inject_Z z * pow2 (kexp q)).
  { destruct (Z.eq_dec m (2 ^ 53)) as [->|N2].
    - assert (E2 : q == pow2 (53 + k)) by (rewrite E, pow2_plus, pow2_Z by lia; reflexivity). assert (U' : (53 + k < ilog q + 1)%Z) by (apply pow2_lt_inv; lra). assert (L' : (ilog q <= 53 + k)%Z).
      { destruct (Z_le_gt_dec (ilog q) (53 + k)) as [|G]; [assumption|]. assert (X : pow2 (53 + k) < pow2 (ilog q)) by (apply Qpower_lt_compat_l; [lia|lra]). lra. }
      exists (2 ^ (53 + k - kexp q))%Z. rewrite pow2_Z by (unfold kexp; lia). rewrite <- pow2_plus. replace (53 + k - kexp q + kexp q)%Z with (53 + k)%Z by lia. exact E2.
    - assert (Q1 : q < pow2 (53 + k)). { rewrite E, pow2_plus. apply Qmult_lt_r; [assumption|]. rewrite <- pow2_Z by lia. rewrite <- Zlt_Qlt. lia. }
      assert (L1 : (ilog q < 53 + k)%Z) by (apply pow2_lt_inv; lra).
      assert (KK : (kexp q <= k)%Z) by (unfold kexp; lia). exists (m * 2 ^ (k - kexp q))%Z. rewrite inject_Z_mult, pow2_Z by lia. rewrite <- Qmult_assoc, <- pow2_plus. replace (k - kexp q + kexp q)%Z with k by lia. exact E. }
  destruct I as (z & I). rewrite (rne_int (q / pow2 (kexp q)) z); [symmetry; exact I|]. pose proof (pow2_pos (kexp q)). apply (Qmult_inj_r _ _ (pow2 (kexp q))); [lra|]. rewrite scaled. exact I.
Qed.
Lemma double_eq a b : a == b -> is_double a -> is_double b.
Proof. intros E (m & k & M & K & H). exists m, k. repeat split; try tauto. now rewrite <- E. Qed.
Lemma double_nonneg q : is_double q -> 0 <= q.
Proof. intros (m & k & M & K & ->). pose proof (pow2_pos k). apply Qmult_le_0_compat; [|lra]. change 0 with (inject_Z 0). rewrite <- Zle_Qle. lia. Qed.
(** The integer part and the fractional part of a double are doubles. *)
Lemma double_floor q : is_double q -> is_double (inject_Z (Qfloor q)) /\ is_double (q - inject_Z (Qfloor q)).
Proof.
  intros (m & k & M & K & E). destruct (Z_le_gt_dec 0 k) as [G|G].
  - assert (I : q == inject_Z (m * 2 ^ k)) by (rewrite inject_Z_mult, pow2_Z by lia; exact E). assert (F : Qfloor q = (m * 2 ^ k)%Z) by (rewrite I; apply Qfloor_Z). rewrite F. split.
    + exists m, k. repeat split; try tauto. rewrite inject_Z_mult, pow2_Z by lia. reflexivity.
    + exists 0%Z, 0%Z. split; [split; [lia|apply Z.pow_nonneg; lia]|]. split; [lia|]. rewrite I. rewrite pow2_0. change (inject_Z 0) with 0. ring.
  - set (d := (2 ^ (- k))%Z). assert (Pd : (0 < d)%Z) by (apply Z.pow_pos_nonneg; lia). assert (Ed : inject_Z d * pow2 k == 1) by (unfold d; rewrite pow2_Z by lia; rewrite pow2_inv; reflexivity).
    pose proof (pow2_pos k) as Pk. pose proof (Z.div_mod m d ltac:(lia)) as DM. pose proof (Z.mod_pos_bound m d Pd) as MB.
    assert (Eq : q == inject_Z (m / d) + inject_Z (m mod d) * pow2 k). { rewrite E. rewrite DM at 1. rewrite inject_Z_plus, inject_Z_mult. transitivity (inject_Z (m / d) * (inject_Z d * pow2 k) + inject_Z (m mod d) * pow2 k); [ring|]. rewrite Ed. ring. }
    assert (F : Qfloor q = (m / d)%Z).
    { assert (R0 : 0 <= inject_Z (m mod d) * pow2 k) by (apply Qmult_le_0_compat; [change 0 with (inject_Z 0); rewrite <- Zle_Qle; lia|lra]).
      assert (R1 : inject_Z (m mod d) * pow2 k < 1) by (rewrite <- Ed; apply Qmult_lt_r; [assumption|rewrite <- Zlt_Qlt; lia]).
      pose proof (Qfloor_le q) as L. pose proof (Qlt_floor q) as U. assert (A : inject_Z (Qfloor q) < inject_Z (m / d + 1)) by (rewrite inject_Z_plus; change (inject_Z 1) with 1; lra).
      assert (B : inject_Z (m / d) < inject_Z (Qfloor q + 1)) by lra. rewrite <- Zlt_Qlt in A, B. lia. }
    assert (Qm : (m / d <= m)%Z) by (apply Z.div_le_upper_bound; nia). assert (Q0 : (0 <= m / d)%Z) by (apply Z.div_pos; lia). rewrite F. split.
    + exists (m / d)%Z, 0%Z. split; [lia|]. split; [lia|]. rewrite pow2_0. ring.
    + exists (m mod d)%Z, k. split; [split; [lia|]|split; [lia|]].
      * apply Z.le_trans with m; [|lia]. apply Z.mod_le; lia.
      * rewrite Eq at 1. ring.
Qed.

Example rnd_ex : rnd (1 # 10) == 3602879701896397 # 36028797018963968 /\ rnd (inject_Z (2 ^ 53 + 1)) == inject_Z (2 ^ 53) /\ rnd (inject_Z (2 ^ 53 + 3)) == inject_Z (2 ^ 53 + 4) /\ rnd (- (3 # 4)) == - (3 # 4).
Proof. vm_compute. auto. Qed.
