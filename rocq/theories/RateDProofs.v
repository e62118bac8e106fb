(** The rate limiter on doubles: invariants. *)
From Coq Require Import ZArith QArith Qround List Bool Lia Lqa.
From Verif Require Import DoubleModel DoubleProofs RateModel RateSpec RateProps RateDModel RateDSpec.
Import ListNotations.
Open Scope Q_scope.

Lemma u53_ulp : u53 == ulp. Proof. reflexivity. Qed.
Lemma eta_ulp : 4 * eta <= ulp. Proof. vm_compute. discriminate. Qed.
Lemma ulp_pos : 0 < ulp. Proof. reflexivity. Qed.
Lemma ulp_small : ulp <= 1 # 8. Proof. vm_compute. discriminate. Qed.

(** The powers of 1 - u and 1 + u *)
Fixpoint g (n : nat) : Q := match n with O => 1 | S m => (1 - ulp) * g m end.
Fixpoint h (n : nat) : Q := match n with O => 1 | S m => (1 + ulp) * h m end.
Lemma g_pos n : 0 < g n. Proof. induction n as [|n IH]; cbn [g]; [lra|]. apply Qmult_lt_0_compat; [pose proof ulp_small; lra|exact IH]. Qed.
Lemma h_pos n : 1 <= h n. Proof. induction n as [|n IH]; cbn [h]; [lra|]. pose proof ulp_pos. nra. Qed.
Lemma g_anti n m : (n <= m)%nat -> g m <= g n.
Proof. induction 1 as [|m _ IH]; [lra|]. cbn [g]. pose proof (g_pos m). pose proof ulp_pos. nra. Qed.
Lemma h_mono n m : (n <= m)%nat -> h n <= h m.
Proof. induction 1 as [|m _ IH]; [lra|]. cbn [h]. pose proof (h_pos m). pose proof ulp_pos. nra. Qed.
Lemma g_le1 n : g n <= 1. Proof. apply (g_anti 0 n). lia. Qed.
Definition nq (n : nat) : Q := inject_Z (Z.of_nat n).
Lemma nq_S n : nq (S n) == nq n + 1. Proof. unfold nq. rewrite Nat2Z.inj_succ. unfold Z.succ. rewrite inject_Z_plus. reflexivity. Qed.
Lemma nq_plus a b : nq (a + b) == nq a + nq b. Proof. unfold nq. rewrite Nat2Z.inj_add, inject_Z_plus. reflexivity. Qed.
Lemma nq_nonneg n : 0 <= nq n. Proof. unfold nq. change 0 with (inject_Z 0). rewrite <- Zle_Qle. lia. Qed.
Lemma nq_le a b : (a <= b)%nat -> nq a <= nq b. Proof. intro H. unfold nq. rewrite <- Zle_Qle. lia. Qed.
Lemma nq_1 : nq 1 == 1. Proof. reflexivity. Qed.
Lemma bern_g n : 1 - nq n * ulp <= g n.
Proof. induction n as [|n IH]; [cbn [g]; pose proof ulp_pos; change (nq 0) with 0; lra|]. cbn [g]. rewrite nq_S. pose proof (g_le1 n). pose proof ulp_pos. pose proof ulp_small. pose proof (nq_nonneg n).
  assert ((1 - ulp) * (1 - nq n * ulp) <= (1 - ulp) * g n) by (apply Qmult_le_l; lra). assert (0 <= nq n * (ulp * ulp)) by (apply Qmult_le_0_compat; [assumption|nra]). nra.
Qed.
Lemma bern_h n : h n * (1 - nq n * ulp) <= 1.
Proof.
  induction n as [|n IH]; [cbn [h]; change (nq 0) with 0; lra|]. cbn [h]. rewrite nq_S. pose proof (h_pos n) as P. pose proof ulp_pos as U. pose proof (nq_nonneg n) as N.
  apply Qle_trans with (2 := IH). assert (0 <= h n * (ulp * ulp * (nq n + 1))) by (apply Qmult_le_0_compat; [lra|apply Qmult_le_0_compat; [nra|lra]]).
  setoid_replace ((1 + ulp) * h n * (1 - (nq n + 1) * ulp)) with (h n * (1 - nq n * ulp) - h n * (ulp * ulp * (nq n + 1))) by ring. lra.
Qed.
Lemma h_2 n : nq n * ulp <= 1 # 2 -> h n <= 2.
Proof. intro H. pose proof (bern_h n) as B. pose proof (h_pos n) as P. assert (h n * (1 # 2) <= h n * (1 - nq n * ulp)) by (apply Qmult_le_l; lra). lra. Qed.

(** A normalised time *)
Definition dnorm (t : ptime) : Prop := is_double (p_corr t) /\ p_corr t < 1 /\ (0 <= p_coarse t)%Z.
Lemma dnorm_norm t : dnorm t -> norm t. Proof. intros (D & L & _). split; [now apply double_nonneg|exact L]. Qed.
Lemma double_0 : is_double 0. Proof. exists 0%Z, 0%Z. split; [split; [lia|apply Z.pow_nonneg; lia]|]. split; [lia|reflexivity]. Qed.
Lemma dnorm_of c : (0 <= c)%Z -> dnorm (of_coarse c). Proof. intro H. split; [apply double_0|]. split; [reflexivity|exact H]. Qed.
Lemma pmax_dnorm a b : dnorm a -> dnorm b -> dnorm (pmax a b). Proof. intros A B. destruct (pmax_is a b) as [-> | ->]; assumption. Qed.
Lemma in64_spec z : in64 z = true <-> (- 2 ^ 63 <= z < 2 ^ 63)%Z. Proof. unfold in64. rewrite andb_true_iff, Z.leb_le, Z.ltb_lt. tauto. Qed.
Lemma ck_spec z y : ck z = Some y -> y = z. Proof. unfold ck. destruct (in64 z); congruence. Qed.
Lemma ck_ok z : (- 2 ^ 63 <= z < 2 ^ 63)%Z -> ck z = Some z. Proof. intro H. unfold ck. apply in64_spec in H. now rewrite H. Qed.
Lemma trunc_floor q : 0 <= q -> trunc q = Qfloor q. Proof. intro H. unfold trunc. apply Qle_bool_iff in H. now rewrite H. Qed.

Lemma norm_core q : is_double q -> Qlt_b q (rnd (inject_Z (Qfloor q))) = false /\ rnd (q - rnd (inject_Z (Qfloor q))) == q - inject_Z (Qfloor q).
Proof.
  intro D. destruct (double_floor q D) as [F1 F2]. pose proof (rnd_exact _ F1) as E1. split.
  - pose proof (Qlt_b_spec q (rnd (inject_Z (Qfloor q)))) as B. destruct (Qlt_b _ _); [|reflexivity]. rewrite E1 in B. pose proof (Qfloor_le q). lra.
  - assert (E2 : q - inject_Z (Qfloor q) == q - rnd (inject_Z (Qfloor q))) by (rewrite E1; reflexivity). rewrite (rnd_exact _ (double_eq _ _ E2 F2)). symmetry. exact E2.
Qed.
Lemma floor_nonneg q : 0 <= q -> (0 <= Qfloor q)%Z. Proof. intro H. apply (Qfloor_resp_le 0 q) in H. exact H. Qed.
Lemma paddD_spec t d t' : dnorm t -> 0 <= d -> paddD t d = Some t' -> dnorm t' /\ val t' == inject_Z (p_coarse t) + rnd (p_corr t + d).
Proof.
  intros (D & L & C) P. unfold paddD, normalizeD. cbn [p_coarse p_corr]. set (q := rnd (p_corr t + d)). pose proof (double_nonneg _ D) as P0. assert (Dq : is_double q) by (apply rnd_double; lra).
  assert (Pq : 0 <= q) by now apply double_nonneg. rewrite (trunc_floor q Pq). destruct (ck (Qfloor q)) as [f|] eqn:E1; [|discriminate]. apply ck_spec in E1 as ->. cbn [bind]. destruct (norm_core q Dq) as [N1 N2]. rewrite N1.
  destruct (ck (p_coarse t + Qfloor q)) as [z|] eqn:E2; [|discriminate]. apply ck_spec in E2 as ->. cbn [bind]. intros [= <-]. destruct (double_floor q Dq) as [F1 F2]. pose proof (Qlt_floor q) as U. rewrite inject_Z_plus in U. change (inject_Z 1) with 1 in U.
  split; [split; [cbn [p_corr]; apply (double_eq _ _ (Qeq_sym _ _ N2) F2)|split; cbn [p_corr p_coarse]; [lra|pose proof (floor_nonneg q Pq); lia]]|]. unfold val. cbn [p_coarse p_corr]. rewrite N2, inject_Z_plus. ring.
Qed.
Lemma paddD_some t d : dnorm t -> 0 <= d -> inject_Z (p_coarse t) + rnd (p_corr t + d) < inject_Z (2 ^ 63) -> exists t', paddD t d = Some t'.
Proof.
  intros (D & L & C) P B. unfold paddD, normalizeD. cbn [p_coarse p_corr]. set (q := rnd (p_corr t + d)) in *. pose proof (double_nonneg _ D) as P0. assert (Dq : is_double q) by (apply rnd_double; lra).
  assert (Pq : 0 <= q) by now apply double_nonneg. rewrite (trunc_floor q Pq). pose proof (floor_nonneg q Pq) as Fn. pose proof (Qfloor_le q) as Fl. destruct (norm_core q Dq) as [N1 N2].
  assert (S1 : (p_coarse t + Qfloor q < 2 ^ 63)%Z) by (rewrite Zlt_Qlt, inject_Z_plus; lra). rewrite ck_ok by lia. cbn [bind]. rewrite N1, ck_ok by lia. cbn [bind]. eauto.
Qed.
Lemma rnd_same c d : is_double c -> d == 0 -> rnd (c + d) == c.
Proof. intros D E. assert (X : c == c + d) by lra. rewrite (rnd_exact _ (double_eq _ _ X D)). lra. Qed.

(** What is lost and gained by adding a wait, divided by [r], to a time *)
Definition adv (r V V' wait : Q) : Prop :=
  V + (1 - ulp) * ((1 - ulp) * (wait / r)) - 2 * ulp <= V' /\ V' <= V + (1 + ulp) * ((1 + ulp) * (wait / r)) + 2 * ulp /\ (wait == 0 -> V' == V).
Lemma div_nonneg a r : 0 <= a -> 0 < r -> 0 <= a / r.
Proof. intros A R. apply Qle_shift_div_l; [exact R|lra]. Qed.
Lemma adv_raw r t t' wait x : dnorm t -> 1 <= r -> 0 <= wait -> 0 <= x -> (1 - ulp) * (wait / r) - eta <= x -> x <= (1 + ulp) * (wait / r) + eta -> (wait == 0 -> x == 0) -> paddD t x = Some t' -> dnorm t' /\ adv r (val t) (val t') wait.
Proof.
  intros N R W X X1 X2 X0 E. destruct (paddD_spec t x t' N X E) as [N' V]. split; [exact N'|]. destruct N as (D & L & C). pose proof (double_nonneg _ D) as P0. pose proof ulp_pos as U. pose proof ulp_small as U8. pose proof eta_ulp as He. pose proof eta_pos as Hp.
  destruct (rnd_err (p_corr t + x) ltac:(lra)) as [E1 E2]. change u53 with ulp in E1, E2. pose proof (div_nonneg wait r W ltac:(lra)) as Wd. unfold adv, val in *. set (c := p_corr t) in *. set (y := wait / r) in *.
  assert (Uc : ulp * c <= ulp) by nra. assert (Uc0 : 0 <= ulp * c) by nra. assert (Ue : ulp * eta <= eta) by nra.
  assert (G1 : (1 - ulp) * ((1 - ulp) * y - eta) <= (1 - ulp) * x) by (apply Qmult_le_l; lra). assert (G2 : (1 + ulp) * x <= (1 + ulp) * ((1 + ulp) * y + eta)) by (apply Qmult_le_l; lra).
  split; [nra|]. split; [nra|]. intro Z. rewrite V, (rnd_same c x D (X0 Z)). reflexivity.
Qed.
Lemma adv_time t t' wait : dnorm t -> is_double wait -> paddD t wait = Some t' -> dnorm t' /\ adv 1 (val t) (val t') wait.
Proof.
  intros N W. pose proof (double_nonneg _ W) as P. pose proof ulp_pos. pose proof eta_pos. assert (E1 : wait / 1 == wait) by field. apply adv_raw; auto; try lra; rewrite E1; nra.
Qed.
Lemma adv_burst r t t' wait : dnorm t -> 1 <= r -> is_double wait -> paddD t (rnd (wait / r)) = Some t' -> dnorm t' /\ adv r (val t) (val t') wait.
Proof.
  intros N R W. pose proof (double_nonneg _ W) as P. pose proof (div_nonneg wait r P ltac:(lra)) as Wd. destruct (rnd_err (wait / r) Wd) as [E1 E2]. change u53 with ulp in E1, E2. apply adv_raw; auto; try lra; [now apply rnd_nonneg|].
  intro Z. rewrite rnd_0; [reflexivity|]. rewrite Z. unfold Qdiv. ring.
Qed.

(** *** The invariant of RateProps, on doubles *)
Record dinv (k : Z) (s : rst) : Prop := {
  d_nb : dnorm (r_burst s); d_nt : dnorm (r_time s); d_w : is_double (r_wait s); d_b : (0 <= r_bytes s)%Z; d_k : (0 <= k)%Z;
  d_t : (p_coarse (r_time s) <= Z.max k (p_coarse (r_burst s)))%Z;
  d_awake : r_must s = false -> (p_coarse (r_burst s) <= k)%Z }.
Definition checkedD (c : config) (now : Z) (s : rst) : option rst := if (burst_size c <=? r_bytes s)%Z then bind (update_send_timesD c now (awake s)) (fun p => Some (snd p)) else Some (awake s).
Lemma dinv_mono k k' s : dinv k s -> (k <= k')%Z -> dinv k' s.
Proof. intros [] L. constructor; auto; try lia. intro H. specialize (d_awake0 H). lia. Qed.
Lemma updateD_dinv c k now s target s1 : 1 <= burst_ratio c -> dinv k s -> (k <= now)%Z -> r_must s = false -> update_send_timesD c now s = Some (target, s1) ->
  dinv now {| r_burst := r_burst s1; r_time := r_time s1; r_bytes := 0; r_wait := 0; r_must := (now <? target)%Z |} /\ r_bytes s1 = 0%Z /\ r_wait s1 = 0 /\ r_must s1 = false /\
  adv 1 (val (r_time s)) (val (r_time s1)) (r_wait s) /\
  (exists V, adv (burst_ratio c) (val (r_burst s)) V (r_wait s) /\ V <= val (r_burst s1) /\ inject_Z now <= val (r_burst s1) /\ val (r_time s1) <= val (r_burst s1) /\
     (val (r_burst s1) <= V \/ val (r_burst s1) <= inject_Z now \/ val (r_burst s1) <= val (r_time s1))).
Proof.
  intros R [] L M. unfold update_send_timesD. destruct (paddD (r_burst s) _) as [b|] eqn:E1; [|discriminate]. cbn [bind]. destruct (paddD (r_time s) _) as [t|] eqn:E2; [|discriminate]. cbn [bind]. intros [= <- <-]. cbn [r_burst r_time r_bytes r_wait r_must].
  destruct (adv_burst _ _ _ _ d_nb0 R d_w0 E1) as [Nb Ab]. destruct (adv_time _ _ _ d_nt0 d_w0 E2) as [Nt At].
  pose proof (dnorm_norm _ Nb) as Nb'. pose proof (dnorm_norm _ Nt) as Nt'. destruct (pmax_ge b t Nb' Nt') as (G1 & G2 & G3). destruct (pmax_ge (of_coarse now) (pmax b t) (norm_of now) G3) as (H1 & H2 & H3).
  pose proof (val_of now) as Vn. assert (Dm : dnorm (pmax b t)) by now apply pmax_dnorm. assert (On : dnorm (of_coarse now)) by (apply dnorm_of; lia).
  split; [constructor; cbn [r_burst r_time r_bytes r_wait r_must]; auto; try lia|].
  - now apply pmax_dnorm.
  - apply double_0.
  - apply Z.le_trans with (p_coarse (pmax (of_coarse now) (pmax b t))); [|lia]. apply coarse_mono; auto. lra.
  - intro H. apply Z.ltb_ge in H. destruct (pmax_is (of_coarse now) (pmax b t)) as [-> | ->]; [cbn; lia|exact H].
  - split; [reflexivity|]. split; [reflexivity|]. split; [exact M|]. split; [exact At|]. exists (val b). split; [exact Ab|]. split; [lra|]. split; [lra|]. split; [lra|].
    destruct (pmax_is (of_coarse now) (pmax b t)) as [-> | ->]; [right; left; lra|]. destruct (pmax_is b t) as [-> | ->]; [left; lra|right; right; lra].
Qed.

Lemma get_casesD c k now1 now2 pk s r s' : 1 <= burst_ratio c -> dinv k s -> (k <= now1 <= now2)%Z -> get_packetD c now1 now2 pk s = Some (r, s') ->
  (r = SLEEP /\ s' = s /\ r_must s = true \/
   exists s1, checkedD c now2 s = Some s1 /\ (r_must s = true -> p_coarse (r_burst s) <= now2)%Z /\ r_time s' = r_time s1 /\ r_burst s' = r_burst s1 /\
     (r = SLEEP /\ dinv now2 s' /\ r_bytes s' = r_bytes s1 /\ r_wait s' = r_wait s1 \/
      r = EMPTY /\ s' = s1 /\ dinv now2 s1 \/
      r = SUCCESS /\ dinv now2 s1 /\ r_must s1 = false /\ (r_bytes s1 <= Z.max 0 (burst_size c))%Z /\
        exists size w, pk = Some (size, w) /\ s' = if hw_rate c then s1 else {| r_burst := r_burst s1; r_time := r_time s1; r_bytes := (r_bytes s1 + size)%Z; r_wait := rnd (r_wait s1 + rnd (rnd (inject_Z size) * w)); r_must := r_must s1 |})).
Proof.
  intros R I L. unfold get_packetD. destruct (r_must s && (now1 <? p_coarse (r_burst s))%Z) eqn:EM; [intros [= <- <-]; left; destruct (r_must s); [auto|discriminate]|].
  assert (MB : (r_must s = true -> p_coarse (r_burst s) <= now2)%Z) by (intro X; rewrite X in EM; cbn [andb] in EM; apply Z.ltb_ge in EM; lia).
  fold (awake s). cbn [awake r_bytes]. assert (Ia : dinv now2 (awake s)).
  { pose proof (dinv_mono _ now2 _ I ltac:(lia)) as []. constructor; auto. intros _. cbn [awake r_burst]. destruct (r_must s); [cbn [andb] in EM; apply Z.ltb_ge in EM; lia|]. now apply d_awake0. }
  unfold checkedD. destruct (Z.leb_spec (burst_size c) (r_bytes s)) as [B|B].
  - destruct (update_send_timesD c now2 (awake s)) as [[target s1]|] eqn:EU; [|discriminate]. cbn [bind snd]. destruct (updateD_dinv c now2 now2 (awake s) target s1 R Ia ltac:(lia) eq_refl EU) as (U & E3 & E2 & E4 & _).
    destruct (now2 <? target)%Z eqn:ET.
    + intros [= <- <-]. right. exists s1. cbn [r_burst r_time r_bytes r_wait]. split; [reflexivity|]. split; [exact MB|]. split; [reflexivity|]. split; [reflexivity|]. left. split; [reflexivity|]. split; [|auto]. rewrite E2, E3. exact U.
    + assert (Us : dinv now2 s1). { destruct s1 as [s1b s1t s1n s1w s1m]. cbn in E2, E3, E4. subst. exact U. } destruct pk as [[size w]|]; intros [= <- <-]; right; exists s1; (split; [reflexivity|]; split; [exact MB|]).
      * split; [destruct (hw_rate c); reflexivity|]. split; [destruct (hw_rate c); reflexivity|]. right; right. split; [reflexivity|]. split; [exact Us|]. split; [exact E4|]. split; [lia|]. eauto.
      * split; [reflexivity|]. split; [reflexivity|]. right; left. auto.
  - cbn [bind]. destruct (Z.ltb_spec now2 now2); [lia|]. destruct pk as [[size w]|]; intros [= <- <-]; right; exists (awake s); (split; [reflexivity|]; split; [exact MB|]).
    + split; [destruct (hw_rate c); reflexivity|]. split; [destruct (hw_rate c); reflexivity|]. right; right. split; [reflexivity|]. split; [exact Ia|]. split; [reflexivity|]. split; [cbn [awake r_bytes]; lia|]. eauto.
    + split; [reflexivity|]. split; [reflexivity|]. right; left. auto.
Qed.

(** Adding a packet to the wait *)
Definition wadd (wait : Q) (n : Z) (w : Q) : Q := rnd (wait + rnd (rnd (inject_Z n) * w)).
Lemma wadd_spec wait n w : 0 <= wait -> (0 <= n)%Z -> 0 <= w -> is_double (wadd wait n w) /\
  (1 - ulp) * wait + g 3 * (inject_Z n * w) - 3 * eta <= wadd wait n w /\ wadd wait n w <= (1 + ulp) * wait + h 3 * (inject_Z n * w) + 3 * eta.
Proof.
  intros W N P. pose proof ulp_pos as U. pose proof ulp_small as U8. pose proof eta_pos as Hp. apply injZ_le in N as Nq. change (inject_Z 0) with 0 in Nq. destruct (rnd_err_int n N) as [A1 A2]. change u53 with ulp in *.
  pose proof (rnd_nonneg _ Nq) as A0. set (a := rnd (inject_Z n)) in *. set (m := inject_Z n) in *. assert (B0 : 0 <= a * w) by now apply Qmult_le_0_compat. destruct (rnd_err (a * w) B0) as [B1 B2]. change u53 with ulp in *.
  assert (A3 : (1 - ulp) * m * w <= a * w) by (apply Qmult_le_compat_r; lra). assert (A4 : a * w <= (1 + ulp) * m * w) by (apply Qmult_le_compat_r; lra). pose proof (rnd_nonneg _ B0) as X0. set (x := rnd (a * w)) in *. set (aw := a * w) in *. set (y := m * w).
  assert (A3' : (1 - ulp) * y <= aw) by (unfold y; lra). assert (A4' : aw <= (1 + ulp) * y) by (unfold y; lra). assert (Y0 : 0 <= y) by (unfold y; now apply Qmult_le_0_compat).
  destruct (rnd_err (wait + x) ltac:(lra)) as [C1 C2]. change u53 with ulp in *. change (wadd wait n w) with (rnd (wait + x)). split; [apply rnd_double; lra|]. cbn [g h].
  assert (X1 : (1 - ulp) * ((1 - ulp) * y) <= (1 - ulp) * aw) by (apply Qmult_le_l; lra). assert (X2 : (1 + ulp) * aw <= (1 + ulp) * ((1 + ulp) * y)) by (apply Qmult_le_l; lra).
  assert (X3 : (1 - ulp) * ((1 - ulp) * ((1 - ulp) * y) - eta) <= (1 - ulp) * x) by (apply Qmult_le_l; lra). assert (X4 : (1 + ulp) * x <= (1 + ulp) * ((1 + ulp) * ((1 + ulp) * y) + eta)) by (apply Qmult_le_l; lra).
  assert (Ue : ulp * eta <= eta) by nra. assert (Ue0 : 0 <= ulp * eta) by nra. clearbody y x aw a. split; lra.
Qed.

Lemma dinv_add c k s size w : dinv k s -> (0 <= size)%Z -> is_double w -> dinv k (if hw_rate c then s else {| r_burst := r_burst s; r_time := r_time s; r_bytes := (r_bytes s + size)%Z; r_wait := rnd (r_wait s + rnd (rnd (inject_Z size) * w)); r_must := r_must s |}).
Proof.
  intros I N W. destruct (hw_rate c); [exact I|]. destruct I. constructor; cbn [r_burst r_time r_bytes r_wait r_must]; auto; [|lia]. apply (wadd_spec (r_wait s) size w); auto; now apply double_nonneg.
Qed.
Lemma empty_dinv k now s s' : dinv k s -> (k <= now)%Z -> update_send_time_emptyD now s = Some s' -> dinv now s' /\ r_burst s' = r_burst s /\ r_bytes s' = r_bytes s /\ r_wait s' = r_wait s /\ r_must s' = r_must s /\
  val (r_time s) <= val (r_time s') /\ inject_Z now <= val (r_time s') + r_wait s /\ (r_time s' = r_time s \/ val (r_time s') <= inject_Z now).
Proof.
  intros I L. apply (dinv_mono _ now) in I; [|exact L]. destruct I. unfold update_send_time_emptyD. destruct (ck (trunc (r_wait s))) as [x|] eqn:E1; [|discriminate]. cbn [bind]. destruct (ck (now - x)) as [y|] eqn:E2; [|discriminate]. cbn [bind]. intros [= <-].
  apply ck_spec in E1. apply ck_spec in E2. subst x y. cbn [r_burst r_time r_bytes r_wait r_must]. pose proof (double_nonneg _ d_w0) as P. destruct (trunc_bound _ P) as (T1 & T2 & T3). pose proof (dnorm_norm _ d_nt0) as Nt. destruct (pmax_ge (r_time s) (of_coarse (now - trunc (r_wait s))) Nt (norm_of _)) as (G1 & G2 & G3).
  pose proof (val_of (now - trunc (r_wait s))) as Vn. unfold Z.sub in Vn at 2. rewrite inject_Z_plus, inject_Z_opp in Vn.
  assert (Dm : dnorm (pmax (r_time s) (of_coarse (now - trunc (r_wait s))))).
  { destruct (pmax_is (r_time s) (of_coarse (now - trunc (r_wait s)))) as [->|X]; [assumption|]. destruct (Z_le_gt_dec 0 (now - trunc (r_wait s))) as [G|G]; [rewrite X; now apply dnorm_of|]. exfalso. rewrite X in G1. destruct d_nt0 as (D1 & D2 & D3).
    pose proof (coarse_mono _ _ Nt (norm_of _) G1) as Y. cbn in Y. lia. }
  split; [constructor; cbn [r_burst r_time r_bytes r_wait r_must]; auto|].
  - destruct (pmax_is (r_time s) (of_coarse (now - trunc (r_wait s)))) as [-> | ->]; [exact d_t0|]. cbn. lia.
  - repeat split; auto; [lra|]. destruct (pmax_is (r_time s) (of_coarse (now - trunc (r_wait s)))) as [-> | ->]; [now left|right; rewrite Vn]. apply injZ_le in T3. change (inject_Z 0) with 0 in T3. lra.
Qed.
Lemma steps_dinv c p tr q : 1 <= burst_ratio c -> stepsD c p tr q -> dinv (fst p) (snd p) -> dinv (fst q) (snd q) /\ (fst p <= fst q)%Z.
Proof.
  intros R. induction 1; intro I; cbn [fst snd] in *; [split; [exact I|lia]| | | |]; destruct (IHstepsD I) as [J K].
  - split; [|lia]. now destruct (empty_dinv k now s s' J H0 H1) as (? & _).
  - split; [|lia]. apply (dinv_mono _ now) in J; [|assumption]. destruct J. constructor; cbn [on_timer r_burst r_time r_bytes r_wait r_must]; auto.
  - split; [|lia]. destruct (get_casesD c k now1 now2 pk s r s' R J H0 H1) as [(-> & -> & _)|(s1 & _ & _ & E1 & E2 & [(-> & P & _)|[(-> & -> & P)|(-> & _)]])]; auto; [|congruence]. eapply dinv_mono; [exact J|lia].
  - split; [|lia]. destruct (get_casesD c k now1 now2 _ s _ s' R J H0 H3) as [[E _]|(s1 & _ & _ & E1 & E2 & [(E & _)|[(E & _)|(_ & P & _ & _ & size' & w' & [= -> ->] & ->)]])]; try discriminate. now apply dinv_add.
Qed.
Lemma init_dinv k : (0 <= k)%Z -> dinv k r_init.
Proof. intro H. constructor; cbn [r_init r_burst r_time r_bytes r_wait r_must]; try (apply dnorm_of; lia); try apply double_0; try lia; cbn; try lia. Qed.
Lemma checkedD_cases c k now s s1 : 1 <= burst_ratio c -> dinv k s -> (k <= now)%Z -> (r_must s = true -> p_coarse (r_burst s) <= now)%Z -> checkedD c now s = Some s1 ->
  (burst_size c <= r_bytes s)%Z /\ r_bytes s1 = 0%Z /\ r_wait s1 = 0 /\ adv 1 (val (r_time s)) (val (r_time s1)) (r_wait s) /\
     (exists V, adv (burst_ratio c) (val (r_burst s)) V (r_wait s) /\ V <= val (r_burst s1) /\ inject_Z now <= val (r_burst s1) /\ val (r_time s1) <= val (r_burst s1) /\
        (val (r_burst s1) <= V \/ val (r_burst s1) <= inject_Z now \/ val (r_burst s1) <= val (r_time s1)))
  \/ (r_bytes s < burst_size c)%Z /\ s1 = awake s.
Proof.
  intros R I L M. unfold checkedD. destruct (Z.leb_spec (burst_size c) (r_bytes s)) as [B|B]; [left|right; split; [exact B|congruence]]. split; [exact B|].
  assert (Ia : dinv now (awake s)). { apply (dinv_mono _ now) in I; [|exact L]. destruct I. constructor; auto. intros _. cbn [awake r_burst]. destruct (r_must s); auto. }
  destruct (update_send_timesD c now (awake s)) as [[target s2]|] eqn:EU; [|discriminate]. cbn [bind snd] in H. injection H as <-.
  destruct (updateD_dinv c now now (awake s) target s2 R Ia ltac:(lia) eq_refl EU) as (_ & U1 & U2 & _ & U3 & U4). auto.
Qed.
