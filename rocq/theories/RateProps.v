(** C46: the rate limiter bounds the rate. *)
From Coq Require Import ZArith QArith Qround List Bool Lia Lqa.
From Verif Require Import RateModel RateSpec.
Import ListNotations.
Open Scope Q_scope.

Definition val (t : ptime) : Q := inject_Z (p_coarse t) + p_corr t.
Definition norm (t : ptime) : Prop := 0 <= p_corr t /\ p_corr t < 1.

Lemma Qlt_b_spec a b : if Qlt_b a b then a < b else b <= a.
Proof. unfold Qlt_b. destruct (Qle_bool b a) eqn:E; cbn [negb]; [now apply Qle_bool_iff|]. apply Qnot_le_lt. intro H. apply Qle_bool_iff in H. congruence. Qed.
Lemma injZ_le a b : (a <= b)%Z -> inject_Z a <= inject_Z b. Proof. intro H. now rewrite <- Zle_Qle. Qed.
Lemma injZ_lt a b : (a < b)%Z -> inject_Z a < inject_Z b. Proof. intro H. now rewrite <- Zlt_Qlt. Qed.
Lemma injZ_lt1 a b : (a < b)%Z -> inject_Z a + 1 <= inject_Z b.
Proof. intro H. change 1 with (inject_Z 1). rewrite <- inject_Z_plus. apply injZ_le. lia. Qed.

Lemma normalize_val t : val (normalize t) == val t.
Proof. unfold val, normalize. cbn [p_coarse p_corr]. rewrite inject_Z_plus. ring. Qed.
Lemma trunc_bound q : 0 <= q -> inject_Z (trunc q) <= q /\ q < inject_Z (trunc q) + 1 /\ (0 <= trunc q)%Z.
Proof.
  intro H. unfold trunc. destruct (Qle_bool 0 q) eqn:E; [|apply Qle_bool_iff in H; congruence]. split; [apply Qfloor_le|]. split; [pose proof (Qlt_floor q) as L; rewrite inject_Z_plus in L; exact L|].
  apply (Qfloor_resp_le 0 q) in H. exact H.
Qed.
Lemma normalize_norm t : norm (normalize t).
Proof.
  unfold normalize, norm. cbn [p_corr]. unfold trunc. pose proof (Qlt_b_spec (p_corr t)) as B. destruct (Qle_bool 0 (p_corr t)) eqn:E.
  - pose proof (Qfloor_le (p_corr t)) as L1. pose proof (Qlt_floor (p_corr t)) as L2. rewrite inject_Z_plus in L2. specialize (B (inject_Z (Qfloor (p_corr t)))). destruct (Qlt_b _ _); [lra|]. change (inject_Z 1) with 1 in L2. lra.
  - pose proof (Qfloor_le (- p_corr t)) as L1. pose proof (Qlt_floor (- p_corr t)) as L2. rewrite inject_Z_plus in L2. change (inject_Z 1) with 1 in L2. specialize (B (inject_Z (- Qfloor (- p_corr t)))). 
    destruct (Qlt_b _ _); unfold Z.sub; rewrite ?inject_Z_plus, ?inject_Z_opp in *; change (inject_Z 1) with 1; lra.
Qed.
Lemma padd_val t d : val (padd t d) == val t + d.
Proof. unfold padd. rewrite normalize_val. unfold val. cbn [p_coarse p_corr]. ring. Qed.
Lemma padd_norm t d : norm (padd t d). Proof. apply normalize_norm. Qed.
Lemma plt_spec a b : norm a -> norm b -> if plt a b then val a < val b else val b <= val a.
Proof.
  intros [A1 A2] [B1 B2]. unfold plt, val. pose proof (Qlt_b_spec (p_corr a) (p_corr b)) as S. destruct (Z.ltb_spec (p_coarse a) (p_coarse b)) as [C|C]; cbn [orb].
  - apply injZ_lt1 in C. lra.
  - destruct (Z.ltb_spec (p_coarse b) (p_coarse a)) as [D|D]; cbn [negb andb]; [apply injZ_lt1 in D; lra|]. assert (E : p_coarse a = p_coarse b) by lia. rewrite E. destruct (Qlt_b _ _); lra.
Qed.
Lemma pmax_ge a b : norm a -> norm b -> val a <= val (pmax a b) /\ val b <= val (pmax a b) /\ norm (pmax a b).
Proof. intros A B. unfold pmax. pose proof (plt_spec a b A B) as S. destruct (plt a b); repeat split; try lra; try apply A; try apply B. Qed.
Lemma pmax_is a b : pmax a b = a \/ pmax a b = b. Proof. unfold pmax. destruct (plt a b); auto. Qed.
Lemma coarse_mono a b : norm a -> norm b -> val a <= val b -> (p_coarse a <= p_coarse b)%Z.
Proof. intros [A1 A2] [B1 B2] L. unfold val in L. destruct (Z_le_gt_dec (p_coarse a) (p_coarse b)) as [|G]; [assumption|]. assert (C : (p_coarse b < p_coarse a)%Z) by lia. apply injZ_lt1 in C. lra. Qed.
Lemma norm_of c : norm (of_coarse c). Proof. split; cbn; lra. Qed.
Lemma val_lt t k : norm t -> (p_coarse t <= k)%Z -> val t < inject_Z k + 1.
Proof. intros [A1 A2] L. unfold val. apply injZ_le in L. lra. Qed.
Lemma coarse_le_of t k : norm t -> val t <= inject_Z k -> (p_coarse t <= k)%Z.
Proof. intros N L. apply (coarse_mono t (of_coarse k) N (norm_of k)). unfold val at 2, of_coarse. cbn. lra. Qed.

Lemma val_of k : val (of_coarse k) == inject_Z k. Proof. unfold val, of_coarse. cbn [p_coarse p_corr]. ring. Qed.

(** *** Invariant: the times are normalised; unless the limiter sleeps, the send
    times have been reached. *)
Record rinv (k : Z) (s : rst) : Prop := {
  i_nb : norm (r_burst s); i_nt : norm (r_time s); i_w : 0 <= r_wait s; i_b : (0 <= r_bytes s)%Z;
  i_t : (p_coarse (r_time s) <= Z.max k (p_coarse (r_burst s)))%Z;
  i_awake : r_must s = false -> (p_coarse (r_burst s) <= k)%Z }.

Definition awake (s : rst) : rst := {| r_burst := r_burst s; r_time := r_time s; r_bytes := r_bytes s; r_wait := r_wait s; r_must := false |}.
Definition checked (c : config) (now : Z) (s : rst) : rst := if (burst_size c <=? r_bytes s)%Z then snd (update_send_times c now (awake s)) else awake s.

Lemma rinv_mono k k' s : rinv k s -> (k <= k')%Z -> rinv k' s.
Proof. intros [] L. constructor; auto; [lia|]. intro H. specialize (i_awake0 H). lia. Qed.
Lemma update_rinv c k now s : 0 < burst_ratio c -> rinv k s -> (k <= now)%Z -> r_must s = false -> rinv now {| r_burst := r_burst (snd (update_send_times c now s)); r_time := r_time (snd (update_send_times c now s)); r_bytes := 0; r_wait := 0; r_must := (now <? fst (update_send_times c now s))%Z |}
  /\ val (r_time (snd (update_send_times c now s))) == val (r_time s) + r_wait s /\ val (r_burst s) + r_wait s / burst_ratio c <= val (r_burst (snd (update_send_times c now s))) /\ inject_Z now <= val (r_burst (snd (update_send_times c now s))).
Proof.
  intros R [] L M. unfold update_send_times. cbn [fst snd r_burst r_time]. set (b := padd (r_burst s) (r_wait s / burst_ratio c)). set (t := padd (r_time s) (r_wait s)).
  assert (Nb : norm b) by apply padd_norm. assert (Nt : norm t) by apply padd_norm. destruct (pmax_ge b t Nb Nt) as (G1 & G2 & G3). destruct (pmax_ge (of_coarse now) (pmax b t) (norm_of now) G3) as (H1 & H2 & H3).
  assert (Vb : val b == val (r_burst s) + r_wait s / burst_ratio c) by apply padd_val. assert (Vt : val t == val (r_time s) + r_wait s) by apply padd_val.
  assert (Vn : val (of_coarse now) == inject_Z now) by (unfold val, of_coarse; cbn [p_coarse p_corr]; ring).
  split; [constructor; cbn [r_burst r_time r_bytes r_wait r_must]; auto; try lra; try lia|].
  - apply Z.le_trans with (p_coarse (pmax (of_coarse now) (pmax b t))); [|lia]. apply coarse_mono; auto. lra.
  - intro H. apply Z.ltb_ge in H. destruct (pmax_is (of_coarse now) (pmax b t)) as [->| ->]; [cbn; lia|exact H].
  - split; [exact Vt|]. split; lra.
Qed.

(** What one call of get_packet does. *)
Lemma get_cases c k now1 now2 pk s r s' : 0 < burst_ratio c -> rinv k s -> (k <= now1 <= now2)%Z -> get_packet c now1 now2 pk s = (r, s') ->
  (r = SLEEP /\ s' = s \/
   exists s1, s1 = checked c now2 s /\ (r_must s = true -> p_coarse (r_burst s) <= now2)%Z /\ r_time s' = r_time s1 /\ r_burst s' = r_burst s1 /\
     (r = SLEEP /\ rinv now2 s' /\ r_bytes s' = r_bytes s1 /\ r_wait s' = r_wait s1 \/
      r = EMPTY /\ s' = s1 /\ rinv now2 s1 \/
      r = SUCCESS /\ rinv now2 s1 /\ r_must s1 = false /\ (r_bytes s1 <= Z.max 0 (burst_size c))%Z /\
        exists size w, pk = Some (size, w) /\ s' = if hw_rate c then s1 else {| r_burst := r_burst s1; r_time := r_time s1; r_bytes := (r_bytes s1 + size)%Z; r_wait := r_wait s1 + inject_Z size * w; r_must := r_must s1 |})).
Proof.
  intros R I L. unfold get_packet. destruct (r_must s && (now1 <? p_coarse (r_burst s))%Z) eqn:EM; [intros [= <- <-]; now left|].
  assert (MB : (r_must s = true -> p_coarse (r_burst s) <= now2)%Z) by (intro X; rewrite X in EM; cbn [andb] in EM; apply Z.ltb_ge in EM; lia).
  fold (awake s). cbn [awake r_bytes]. assert (Ia : rinv now2 (awake s)).
  { pose proof (rinv_mono _ now2 _ I ltac:(lia)) as []. constructor; auto. intros _. cbn [awake r_burst]. destruct (r_must s); [cbn [andb] in EM; apply Z.ltb_ge in EM; lia|]. now apply i_awake0. }
  unfold checked. destruct (Z.leb_spec (burst_size c) (r_bytes s)) as [B|B].
  - destruct (update_rinv c now2 now2 (awake s) R Ia ltac:(lia) eq_refl) as (U & _). destruct (update_send_times c now2 (awake s)) as [target s1] eqn:EU. cbn [fst snd] in *.
    assert (E1 : s1 = {| r_burst := r_burst s1; r_time := r_time s1; r_bytes := 0; r_wait := 0; r_must := false |}) by (unfold update_send_times in EU; injection EU as _ <-; reflexivity).
    assert (Ew : r_wait s1 = 0 /\ r_bytes s1 = 0%Z /\ r_must s1 = false) by (rewrite E1; auto). destruct Ew as (E2 & E3 & E4).
    destruct (now2 <? target)%Z eqn:ET.
    + intros [= <- <-]. right. exists s1. cbn [r_burst r_time r_bytes r_wait]. split; [reflexivity|]. split; [exact MB|]. split; [reflexivity|]. split; [reflexivity|]. left. split; [reflexivity|]. split; [|auto]. rewrite E2, E3. exact U.
    + assert (Us : rinv now2 s1) by (rewrite E1; exact U). destruct pk as [[size w]|]; intros [= <- <-]; right; exists s1; (split; [reflexivity|]; split; [exact MB|]).
      * split; [destruct (hw_rate c); reflexivity|]. split; [destruct (hw_rate c); reflexivity|]. right; right. split; [reflexivity|]. split; [exact Us|]. split; [exact E4|]. split; [lia|]. eauto.
      * split; [reflexivity|]. split; [reflexivity|]. right; left. auto.
  - destruct (Z.ltb_spec now2 now2); [lia|]. destruct pk as [[size w]|]; intros [= <- <-]; right; exists (awake s); (split; [reflexivity|]; split; [exact MB|]).
    + split; [destruct (hw_rate c); reflexivity|]. split; [destruct (hw_rate c); reflexivity|]. right; right. split; [reflexivity|]. split; [exact Ia|]. split; [reflexivity|]. split; [cbn [awake r_bytes]; lia|]. eauto.
    + split; [reflexivity|]. split; [reflexivity|]. right; left. auto.
Qed.

Lemma rinv_add c k s size w : rinv k s -> (0 <= size)%Z -> 0 <= w -> rinv k (if hw_rate c then s else {| r_burst := r_burst s; r_time := r_time s; r_bytes := (r_bytes s + size)%Z; r_wait := r_wait s + inject_Z size * w; r_must := r_must s |}).
Proof.
  intros I S W. destruct (hw_rate c); [exact I|]. destruct I. constructor; cbn [r_burst r_time r_bytes r_wait r_must]; auto; [|lia]. apply injZ_le in S. change (inject_Z 0) with 0 in S. pose proof (Qmult_le_0_compat _ _ S W). lra.
Qed.
Lemma empty_rinv k now s : rinv k s -> (k <= now)%Z -> rinv now (update_send_time_empty now s).
Proof.
  intros I L. apply (rinv_mono _ now) in I; [|exact L]. destruct I. constructor; cbn [update_send_time_empty r_burst r_time r_bytes r_wait r_must]; auto.
  - apply pmax_ge; [exact i_nt0|apply norm_of].
  - destruct (pmax_is (r_time s) (of_coarse (now - trunc (r_wait s)))) as [->| ->]; [exact i_t0|]. cbn. destruct (trunc_bound _ i_w0) as (_ & _ & P). lia.
Qed.
Lemma steps_rinv c p tr q : 0 < burst_ratio c -> steps c p tr q -> rinv (fst p) (snd p) -> rinv (fst q) (snd q) /\ (fst p <= fst q)%Z.
Proof.
  intros R. induction 1; intro I; cbn [fst snd] in *; [split; [exact I|lia]| | | |]; destruct (IHsteps I) as [J K].
  - split; [now apply empty_rinv with k|lia].
  - split; [|lia]. apply (rinv_mono _ now) in J; [|assumption]. destruct J. constructor; cbn [on_timer r_burst r_time r_bytes r_wait r_must]; auto.
  - split; [|lia]. destruct (get_cases c k now1 now2 pk s r s' R J H0 H1) as [[-> ->]|(s1 & _ & _ & E1 & E2 & [(-> & P & _)|[(-> & -> & P)|(-> & _)]])]; auto; [|congruence]. eapply rinv_mono; [exact J|lia].
  - split; [|lia]. destruct (get_cases c k now1 now2 _ s _ s' R J H0 H3) as [[E _]|(s1 & _ & _ & E1 & E2 & [(E & _)|[(E & _)|(_ & P & _ & _ & size' & w' & [= -> ->] & ->)]])]; try discriminate. now apply rinv_add.
Qed.
Lemma init_rinv k : (0 <= k)%Z -> rinv k r_init.
Proof. intro H. constructor; cbn; try apply norm_of; try lra; try lia. Qed.

Lemma bytes_app a b : bytes (a ++ b) = (bytes a + bytes b)%Z. Proof. unfold bytes. induction a; cbn [app fold_right]; [lia|]. rewrite IHa. lia. Qed.
Lemma duration_app a b : duration (a ++ b) == duration a + duration b. Proof. unfold duration. induction a; cbn [app fold_right]; [lra|]. rewrite IHa. lra. Qed.
Lemma duration_1 n w : duration [(n, w)] == inject_Z n * w. Proof. unfold duration. cbn [fold_right fst snd]. lra. Qed.
Lemma checked_cases c k now s : 0 < burst_ratio c -> rinv k s -> (k <= now)%Z -> (r_must s = true -> p_coarse (r_burst s) <= now)%Z ->
  (burst_size c <= r_bytes s)%Z /\ r_bytes (checked c now s) = 0%Z /\ r_wait (checked c now s) = 0 /\ val (r_time (checked c now s)) == val (r_time s) + r_wait s /\
     val (r_burst s) + r_wait s / burst_ratio c <= val (r_burst (checked c now s)) /\ inject_Z now <= val (r_burst (checked c now s))
  \/ (r_bytes s < burst_size c)%Z /\ checked c now s = awake s.
Proof.
  intros R I L M. unfold checked. destruct (Z.leb_spec (burst_size c) (r_bytes s)) as [B|B]; [left|right; auto]. split; [exact B|].
  assert (Ia : rinv now (awake s)). { apply (rinv_mono _ now) in I; [|exact L]. destruct I. constructor; auto. intros _. cbn [awake r_burst]. destruct (r_must s); auto. }
  destruct (update_rinv c now now (awake s) R Ia ltac:(lia) eq_refl) as (_ & U1 & U2 & U3). split; [reflexivity|]. split; [reflexivity|]. auto.
Qed.

(** The releases that are not yet in the send times *)
Definition pend (tr : list release) (s : rst) : Prop :=
  (exists a b, tr = a ++ b /\ bytes b = r_bytes s /\ duration b == r_wait s) \/ (bytes tr <= r_bytes s)%Z.
Lemma pend_reset tr s : r_bytes s = 0%Z -> r_wait s = 0 -> pend tr s.
Proof. intros E1 E2. left. exists tr, []. rewrite app_nil_r, E1, E2. repeat split; cbn; lra. Qed.
Lemma pend_same tr s s' : r_bytes s' = r_bytes s -> r_wait s' = r_wait s -> pend tr s -> pend tr s'.
Proof. intros E1 E2. unfold pend. now rewrite E1, E2. Qed.
Lemma pend_add tr s s' n w : r_bytes s' = (r_bytes s + n)%Z -> r_wait s' = r_wait s + inject_Z n * w -> pend tr s -> pend (tr ++ [(n, w)]) s'.
Proof.
  intros E1 E2 [(a & b & -> & B & D)|B].
  - left. exists a, (b ++ [(n, w)]). rewrite app_assoc, bytes_app, duration_app, duration_1, E1, E2, D, B. repeat split; try lra. cbn. lia.
  - right. rewrite bytes_app, E1. cbn. lia.
Qed.

Definition avg (e : Z) (tr : list release) (s : rst) : Prop := inject_Z e + duration tr <= val (r_time s) + r_wait s /\ pend tr s.
Lemma avg_checked c e k now tr s : 0 < burst_ratio c -> rinv k s -> (k <= now)%Z -> (r_must s = true -> p_coarse (r_burst s) <= now)%Z -> avg e tr s -> avg e tr (checked c now s).
Proof.
  intros R I L M [A P]. destruct (checked_cases c k now s R I L M) as [(_ & B1 & B2 & B3 & _)|(_ & ->)]; [|split; [exact A|exact P]].
  split; [rewrite B2, B3; lra|]. now apply pend_reset.
Qed.
Lemma avg_steps c e p tr q : 0 < burst_ratio c -> hw_rate c = false -> rinv (fst p) (snd p) -> avg e [] (snd p) -> steps c p tr q -> avg e tr (snd q).
Proof.
  intros R HW I A S. assert (I' : forall tr q, steps c p tr q -> rinv (fst q) (snd q)) by (intros tr' q' S'; apply (steps_rinv c p tr' q' R S' I)).
  induction S; cbn [snd] in *; auto.
  - destruct (IHS I A I') as [B P]. pose proof (I' _ _ S) as []. cbn [fst snd] in *. split; [|exact P]. cbn [update_send_time_empty r_time r_wait]. destruct (pmax_ge (r_time s) (of_coarse (now - trunc (r_wait s))) i_nt0 (norm_of _)) as (G & _). lra.
  - destruct (get_cases c k now1 now2 pk s r s' R (I' _ _ S) H H0) as [[-> ->]|(s1 & E0 & M & E1 & E2 & [(-> & _ & F1 & F2)|[(-> & -> & _)|(-> & _)]])]; auto; [| |congruence];
      pose proof (avg_checked c e k now2 tr s R (I' _ _ S) ltac:(lia) M (IHS I A I')) as X; rewrite <- E0 in X; [|exact X]. destruct X as [B P]. split; [rewrite E1, F2; exact B|]. now apply (pend_same tr s1).
  - destruct (get_cases c k now1 now2 _ s _ s' R (I' _ _ S) H H2) as [[E _]|(s1 & E0 & M & E1 & E2 & [(E & _)|[(E & _)|(_ & _ & _ & _ & size' & w' & [= <- <-] & ->)]])]; try discriminate.
    pose proof (avg_checked c e k now2 tr s R (I' _ _ S) ltac:(lia) M (IHS I A I')) as [B P]. rewrite <- E0 in B, P. rewrite HW. split; [cbn [r_time r_wait]; rewrite duration_app, duration_1; lra|]. eapply pend_add; [| |exact P]; reflexivity.
Qed.

(** Average rate.  Consider the moment [e] at which the stream got work after it
    had been empty (the first heap is such a moment), and a packet let through at
    [now2].  The packets before it are those in [b], no more than a burst, and
    others that at their rate take no longer than the time since [e], up to a tick. *)
Theorem C46_average_partial c t0 tr0 k s1 e tr k2 s2 now1 now2 size w s3 : 0 < burst_ratio c -> hw_rate c = false -> (0 <= t0)%Z ->
  steps c (t0, r_init) tr0 (k, s1) -> (k <= e)%Z -> steps c (e, update_send_time_empty e s1) tr (k2, s2) ->
  (k2 <= now1 <= now2)%Z -> get_packet c now1 now2 (Some (size, w)) s2 = (SUCCESS, s3) ->
  exists a b, tr = a ++ b /\ (bytes b <= Z.max 0 (burst_size c))%Z /\ duration a < inject_Z (now2 - e) + 1.
Proof.
  intros R HW T0 S0 Ke S L G. destruct (steps_rinv c _ _ _ R S0 (init_rinv t0 T0)) as [I1 _]. cbn [fst snd] in I1. pose proof (empty_rinv k e s1 I1 Ke) as Ie.
  assert (A0 : avg e [] (update_send_time_empty e s1)).
  { split; [|right; cbn [bytes fold_right]; apply (i_b _ _ Ie)]. destruct I1. cbn [update_send_time_empty r_time r_wait duration fold_right]. destruct (pmax_ge (r_time s1) (of_coarse (e - trunc (r_wait s1))) i_nt0 (norm_of _)) as (_ & V & _).
    rewrite val_of in V. destruct (trunc_bound _ i_w0) as (T & _). set (V' := val (pmax _ _)) in *. clearbody V'. unfold Z.sub in V. rewrite inject_Z_plus, inject_Z_opp in V. lra. }
  destruct (steps_rinv c _ _ _ R S Ie) as [I2 Le]. cbn [fst snd] in I2, Le. pose proof (avg_steps c e (e, update_send_time_empty e s1) tr (k2, s2) R HW Ie A0 S) as A2. cbn [snd] in A2.
  destruct (get_cases c k2 now1 now2 _ s2 _ s3 R I2 L G) as [[E _]|(s' & E0 & M & E1 & E2 & [(E & _)|[(E & _)|(_ & I' & NM & BB & _)]])]; try discriminate.
  pose proof (avg_checked c e k2 now2 tr s2 R I2 ltac:(lia) M A2) as [B P]. rewrite <- E0 in B, P. destruct I'. specialize (i_awake0 NM). assert (VT : val (r_time s') < inject_Z now2 + 1) by (apply val_lt; [assumption|lia]).
  assert (LE : 0 <= inject_Z (now2 - e)) by (apply (injZ_le 0); lia). unfold Z.sub in *. rewrite inject_Z_plus, inject_Z_opp in *. destruct P as [(a & b & -> & P1 & P2)|P].
  - exists a, b. split; [reflexivity|]. split; [lia|]. rewrite duration_app in B. lra.
  - exists [], tr. split; [reflexivity|]. split; [lia|]. cbn [duration fold_right]. lra.
Qed.
(** With one rate for all packets, in bytes. *)
Corollary C46_average_bytes_partial c t0 tr0 k s1 e tr k2 s2 now1 now2 size w s3 wpb : 0 < burst_ratio c -> hw_rate c = false -> (0 <= t0)%Z -> 0 <= wpb -> Forall (fun r => snd r == wpb) tr ->
  steps c (t0, r_init) tr0 (k, s1) -> (k <= e)%Z -> steps c (e, update_send_time_empty e s1) tr (k2, s2) ->
  (k2 <= now1 <= now2)%Z -> get_packet c now1 now2 (Some (size, w)) s2 = (SUCCESS, s3) ->
  inject_Z (bytes tr) * wpb < inject_Z (now2 - e) + 1 + inject_Z (Z.max 0 (burst_size c)) * wpb.
Proof.
  intros R HW T0 W F S0 Ke S L G. destruct (C46_average_partial c t0 tr0 k s1 e tr k2 s2 now1 now2 size w s3 R HW T0 S0 Ke S L G) as (a & b & -> & B & D).
  assert (DB : forall l, Forall (fun r => snd r == wpb) l -> duration l == inject_Z (bytes l) * wpb).
  { induction 1 as [|r l E _ IH]; unfold duration, bytes in *; cbn [fold_right]; [unfold inject_Z; lra|]. rewrite inject_Z_plus, IH, E. ring. }
  apply Forall_app in F as [F1 F2]. rewrite (DB a F1) in D. rewrite bytes_app, inject_Z_plus. apply injZ_le in B. pose proof (Qmult_le_compat_r _ _ _ B W) as X. lra.
Qed.

(** *** Bursts *)
Definition front (c : config) (a : list release) : Prop := forall a' x, a = a' ++ [x] -> (bytes a' <= Z.max 0 (burst_size c))%Z.
Definition win (c : config) (t0 : Z) (tr : list release) (s : rst) : Prop := exists a m, tr = a ++ m /\ front c a /\
  (m = [] /\ (bytes a <= r_bytes s)%Z \/ inject_Z t0 + duration m / burst_ratio c <= val (r_burst s) + r_wait s / burst_ratio c /\ pend m s).
Lemma win_checked c t0 k now tr s : 0 < burst_ratio c -> rinv k s -> (t0 <= now)%Z -> (k <= now)%Z -> (r_must s = true -> p_coarse (r_burst s) <= now)%Z -> win c t0 tr s -> win c t0 tr (checked c now s).
Proof.
  intros R I T L M (a & m & -> & F & W). destruct (checked_cases c k now s R I L M) as [(_ & B1 & B2 & _ & B4 & B5)|(_ & ->)]; [|exists a, m; auto].
  exists a, m. split; [reflexivity|]. split; [exact F|]. right. split; [|now apply pend_reset]. rewrite B2. assert (Z0 : 0 / burst_ratio c == 0) by (unfold Qdiv; ring). rewrite Z0. apply injZ_le in T. destruct W as [[-> _]|[W _]]; [|lra].
  cbn [duration fold_right]. rewrite Z0. lra.
Qed.
Lemma win_steps c t0 s0 tr q : 0 < burst_ratio c -> hw_rate c = false -> rinv t0 s0 -> steps c (t0, s0) tr q -> win c t0 tr (snd q).
Proof.
  intros R HW I S. assert (I' : forall tr q, steps c (t0, s0) tr q -> rinv (fst q) (snd q) /\ (t0 <= fst q)%Z) by (intros tr' q' S'; apply (steps_rinv c (t0, s0) tr' q' R S' I)).
  remember (t0, s0) as p eqn:Ep. induction S; subst; cbn [snd] in *.
  - exists [], []. split; [reflexivity|]. split; [intros a' x X; now apply app_cons_not_nil in X|]. left. split; [reflexivity|]. apply (i_b _ _ I).
  - destruct (IHS eq_refl I') as (a & m & -> & F & W). exists a, m. auto.
  - destruct (IHS eq_refl I') as (a & m & -> & F & W). exists a, m. auto.
  - destruct (I' _ _ S) as [J T]. cbn [fst snd] in *. destruct (get_cases c k now1 now2 pk s r s' R J H H0) as [[-> ->]|(s1 & E0 & M & E1 & E2 & [(-> & _ & F1 & F2)|[(-> & -> & _)|(-> & _)]])]; auto; [| |congruence];
      pose proof (win_checked c t0 k now2 tr s R J ltac:(lia) ltac:(lia) M (IHS eq_refl I')) as X; rewrite <- E0 in X; [|exact X]. destruct X as (a & m & -> & F & W). exists a, m. rewrite E2, F1, F2. split; [reflexivity|]. split; [exact F|].
    destruct W as [W|[W P]]; [left; exact W|right; split; [exact W|now apply (pend_same m s1)]].
  - destruct (I' _ _ S) as [J T]. cbn [fst snd] in *. destruct (get_cases c k now1 now2 _ s _ s' R J H H2) as [[E _]|(s1 & E0 & M & E1 & E2 & [(E & _)|[(E & _)|(_ & _ & _ & BB & size' & w' & [= <- <-] & ->)]])]; try discriminate.
    pose proof (win_checked c t0 k now2 tr s R J ltac:(lia) ltac:(lia) M (IHS eq_refl I')) as (a & m & -> & F & W). rewrite <- E0 in W. rewrite HW. destruct W as [[-> W]|[W P]].
    + exists (a ++ [(size, w)]), []. rewrite !app_nil_r. split; [reflexivity|]. split; [intros a' x X; apply app_inj_tail in X as [<- _]; lia|]. left. split; [reflexivity|]. cbn [r_bytes]. rewrite bytes_app. cbn. lia.
    + exists a, (m ++ [(size, w)]). rewrite app_assoc. split; [reflexivity|]. split; [exact F|]. right. cbn [r_burst r_wait]. split; [|eapply pend_add; [| |exact P]; reflexivity].
      rewrite duration_app, duration_1. unfold Qdiv in *. rewrite !Qmult_plus_distr_l. lra.
Qed.
(** Peak rate.  From any moment [t0] of a run to a packet let through at [now2]:
    the packets before it are one burst and a packet, another burst, and others
    that at their burst rate take no longer than the time since [t0], up to a tick. *)
Theorem C46_burst_partial c z tr0 t0 s1 tr k2 s2 now1 now2 size w s3 : 0 < burst_ratio c -> hw_rate c = false -> (0 <= z)%Z ->
  steps c (z, r_init) tr0 (t0, s1) -> steps c (t0, s1) tr (k2, s2) ->
  (k2 <= now1 <= now2)%Z -> get_packet c now1 now2 (Some (size, w)) s2 = (SUCCESS, s3) ->
  exists a m b, tr = a ++ m ++ b /\ front c a /\ (bytes b <= Z.max 0 (burst_size c))%Z /\ duration m / burst_ratio c < inject_Z (now2 - t0) + 1.
Proof.
  intros R HW Z0 S0 S L G. destruct (steps_rinv c _ _ _ R S0 (init_rinv z Z0)) as [I1 _]. cbn [fst snd] in I1. destruct (steps_rinv c _ _ _ R S I1) as [I2 Le]. cbn [fst snd] in I2, Le.
  pose proof (win_steps c t0 s1 tr (k2, s2) R HW I1 S) as W2. cbn [snd] in W2. destruct (get_cases c k2 now1 now2 _ s2 _ s3 R I2 L G) as [[E _]|(s' & E0 & M & E1 & E2 & [(E & _)|[(E & _)|(_ & I' & NM & BB & _)]])]; try discriminate.
  destruct (win_checked c t0 k2 now2 tr s2 R I2 ltac:(lia) ltac:(lia) M W2) as (a & m & -> & F & W). rewrite <- E0 in W. assert (LE : 0 <= inject_Z (now2 - t0)) by (apply (injZ_le 0); lia).
  assert (Z1 : 0 / burst_ratio c == 0) by (unfold Qdiv; ring). destruct W as [[-> W]|[W P]].
  - exists a, [], []. split; [reflexivity|]. split; [exact F|]. split; [cbn; lia|]. cbn [duration fold_right]. rewrite Z1. lra.
  - destruct I'. specialize (i_awake0 NM). assert (VT : val (r_burst s') < inject_Z now2 + 1) by (apply val_lt; assumption). unfold Z.sub in *. rewrite inject_Z_plus, inject_Z_opp in *. destruct P as [(x & b & -> & P1 & P2)|P].
    + exists a, x, b. split; [reflexivity|]. split; [exact F|]. split; [lia|]. rewrite duration_app, P2 in W. unfold Qdiv in *. rewrite Qmult_plus_distr_l in W. lra.
    + exists a, [], m. split; [reflexivity|]. split; [exact F|]. split; [lia|]. cbn [duration fold_right]. rewrite Z1. lra.
Qed.

(** The limiter does not starve: asked at or after the time it said it would wait
    for, it does not say so again. *)
Lemma get_must c now1 now2 pk s r s' : get_packet c now1 now2 pk s = (r, s') -> r_must s' = true -> s' = s \/ r_bytes s' = 0%Z /\ r_wait s' = 0.
Proof.
  unfold get_packet. intros G M. destruct (r_must s && (now1 <? p_coarse (r_burst s))%Z); [injection G as _ <-; now left|]. cbn [r_bytes] in G. destruct (burst_size c <=? r_bytes s)%Z.
  - unfold update_send_times in G. cbn [r_burst r_time r_bytes r_wait r_must] in G. match type of G with context [(now2 <? ?x)%Z] => destruct (now2 <? x)%Z end; [injection G as _ <-; now right|].
    destruct pk as [[? ?]|]; injection G as _ <-; [destruct (hw_rate c)|]; cbn in M; discriminate.
  - destruct (Z.ltb_spec now2 now2); [lia|]. destruct pk as [[? ?]|]; injection G as _ <-; [destruct (hw_rate c)|]; cbn in M; discriminate.
Qed.
Lemma sleep_inv c p tr q : steps c p tr q -> (r_must (snd p) = true -> r_bytes (snd p) = 0%Z /\ r_wait (snd p) = 0) -> r_must (snd q) = true -> r_bytes (snd q) = 0%Z /\ r_wait (snd q) = 0.
Proof.
  intros S H0. induction S; cbn [snd] in *; auto; intro X; try discriminate X.
  - destruct (get_must _ _ _ _ _ _ _ H1 X) as [->|]; auto.
  - destruct (get_must _ _ _ _ _ _ _ H3 X) as [->|]; auto.
Qed.
Theorem C46_wakes c z tr0 k s now1 now2 pk s' r : 0 < burst_ratio c -> (0 <= z)%Z -> steps c (z, r_init) tr0 (k, s) -> r_must s = true -> (k <= now1 <= now2)%Z -> (p_coarse (r_burst s) <= now1)%Z ->
  get_packet c now1 now2 pk s = (r, s') -> r <> SLEEP.
Proof.
  intros R Z0 S M L B G. destruct (steps_rinv c _ _ _ R S (init_rinv z Z0)) as [I _]. cbn [fst snd] in I. destruct (sleep_inv c _ _ _ S) as [B0 W0]; [discriminate|exact M|]. cbn [snd] in B0, W0.
  unfold get_packet in G. rewrite M in G. cbn [andb] in G. destruct (Z.ltb_spec now1 (p_coarse (r_burst s))); [lia|]. cbn [r_bytes] in G. destruct I.
  destruct (burst_size c <=? r_bytes s)%Z; [|destruct (Z.ltb_spec now2 now2); [lia|]; destruct pk as [[? ?]|]; injection G as <- <-; discriminate].
  unfold update_send_times in G. cbn [r_burst r_time r_wait] in G. rewrite W0 in G. set (b := padd (r_burst s) (0 / burst_ratio c)) in G. set (t := padd (r_time s) 0) in G.
  assert (Nb : norm b) by apply padd_norm. assert (Nt : norm t) by apply padd_norm. assert (Vb : val b == val (r_burst s)) by (unfold b; rewrite padd_val; unfold Qdiv; ring). assert (Vt : val t == val (r_time s)) by (unfold t; rewrite padd_val; ring).
  assert (Cb : (p_coarse b <= p_coarse (r_burst s))%Z) by (apply coarse_mono; auto; lra). assert (Ct : (p_coarse t <= p_coarse (r_time s))%Z) by (apply coarse_mono; auto; lra).
  assert (P : (p_coarse (pmax b t) <= now2)%Z) by (destruct (pmax_is b t) as [->| ->]; lia). destruct (Z.ltb_spec now2 (p_coarse (pmax b t))); [lia|]. destruct pk as [[? ?]|]; injection G as <- <-; discriminate.
Qed.

(** *** Examples: 1/8 tick per byte, bursts of 1000 bytes, ratio 2. *)
Definition ex_c : config := {| burst_size := 1000; burst_ratio := 2; hw_rate := false |}.
Definition ex_1 : rst := snd (get_packet ex_c 5000 5000 (Some (800%Z, 1 # 8)) (update_send_time_empty 5000 r_init)).
Definition ex_2 : rst := snd (get_packet ex_c 5000 5001 (Some (800%Z, 1 # 8)) ex_1).
Definition ex_3 : rst := snd (get_packet ex_c 5002 5002 (Some (800%Z, 1 # 8)) ex_2).
Definition ex_4 : rst := snd (get_packet ex_c 5207 5207 (Some (800%Z, 1 # 8)) (on_timer ex_3)).
(** Two packets go at once, the third one 200 ticks after the start. *)
Example C46_ex : steps ex_c (5000, update_send_time_empty 5000 r_init)%Z [(800%Z, 1 # 8); (800%Z, 1 # 8); (800%Z, 1 # 8)] (5207%Z, ex_4) /\ fst (get_packet ex_c 5002 5002 (Some (800%Z, 1 # 8)) ex_2) = SLEEP /\ p_coarse (r_burst ex_3) = 5200%Z.
Proof.
  split; [|split; vm_compute; reflexivity].
  change [(800%Z, 1 # 8); (800%Z, 1 # 8); (800%Z, 1 # 8)] with ((([] ++ [(800%Z, 1 # 8)]) ++ [(800%Z, 1 # 8)]) ++ [(800%Z, 1 # 8)]).
  apply (steps_get _ _ _ 5206%Z (on_timer ex_3) 5207%Z 5207%Z); [|lia|lia|lra|vm_compute; reflexivity]. apply (steps_timer _ _ _ 5002%Z); [|lia|vm_compute; discriminate].
  apply (steps_wait _ _ _ 5001%Z ex_2 5002%Z 5002%Z (Some (800%Z, 1 # 8)) SLEEP); [|lia|vm_compute; reflexivity|discriminate].
  apply (steps_get _ _ _ 5000%Z ex_1 5000%Z 5001%Z); [|lia|lia|lra|vm_compute; reflexivity].
  apply (steps_get _ _ _ 5000%Z (update_send_time_empty 5000 r_init) 5000%Z 5000%Z); [|lia|lia|lra|vm_compute; reflexivity]. apply steps0.
Qed.

Print Assumptions C46_average_partial.
Print Assumptions C46_average_bytes_partial.
Print Assumptions C46_burst_partial.
Print Assumptions C46_wakes.
