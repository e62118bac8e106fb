From Coq Require Import List Lia Bool Arith.
From Verif Require Import ConcBase PoolModel PoolSpec.
Import ListNotations.

Definition busy1 (x : wk) : nat := match x with WBusy _ => 1 | _ => 0 end.
Definition alive1 (x : wk) : nat := match x with WIdle | WBusy _ => 1 | _ => 0 end.
Definition phase_ok (n : nat) (p : pool) (es : list pev) : Prop :=
  match p_ph p with
  | PBuild k => length (p_ws p) + k = n /\ 0 < k /\ p_q p = [] /\ p_stopped p = false /\ es = [] /\ Forall (fun x => x = WIdle) (p_ws p)
  | PUnwind i => i = 0 /\ p_q p = [] /\ p_stopped p = false /\ es = [] /\ Forall (fun x => x = WIdle) (p_ws p)
  | PThrown => p_ws p = [] /\ es = []
  | PLive => True
  | PJoin i by_ _ => p_stopped p = true /\ (forall j, j < i -> nth_error (p_ws p) j = Some WGot) /\ match by_ with Some w => exists h, nth_error (p_ws p) w = Some (WBusy h) | None => True end
  | PGone => p_ws p = [] /\ p_stopped p = true
  end.
Record pinv (n : nat) (p : pool) (es : list pev) : Prop := {
  i_next : posts es = seq 0 (p_next p);
  i_fifo : posts es = starts es ++ p_q p;
  i_busy : length (starts es) = nends es + sumw busy1 (p_ws p);
  i_ph : phase_ok n p es;
  i_live : p_stopped p = false -> p_ph p = PLive -> length (p_ws p) = n /\ sumw alive1 (p_ws p) + throws es = n;
  i_over : In VStopped es -> p_ws p = [] /\ p_stopped p = true;
  i_quiet : forall es1 es2, es = es1 ++ VStopped :: es2 -> starts es2 = [] /\ nends es2 = 0 /\ length (starts es1) = nends es1 }.

Lemma posts_app a b : posts (a ++ b) = posts a ++ posts b.
Proof. apply flat_map_app. Qed.
Lemma starts_app a b : starts (a ++ b) = starts a ++ starts b.
Proof. apply flat_map_app. Qed.
Lemma nends_app a b : nends (a ++ b) = nends a + nends b.
Proof. apply sumw_app. Qed.
Lemma throws_app a b : throws (a ++ b) = throws a + throws b.
Proof. apply sumw_app. Qed.

Lemma pinv_new n : pinv n (pool_new n) [].
Proof.
  unfold pool_new. constructor; cbn [p_next p_q p_ws p_ph p_stopped]; try reflexivity.
  - unfold phase_ok. cbn [p_ph p_ws p_q p_stopped length]. destruct (Nat.ltb_spec n 1); [auto|]. repeat split; try lia. constructor.
  - destruct (n <? 1); discriminate.
  - intros [].
  - intros es1 es2 E. destruct es1; discriminate.
Qed.

Lemma quiet_step n p es e : pinv n p es -> (forall x, e = [x] -> x <> VStopped -> (In VStopped es -> starts [x] = [] /\ nends [x] = 0)) -> (e = [] \/ exists x, e = [x]) ->
  (In VStopped e -> sumw busy1 (p_ws p) = 0) ->
  forall es1 es2, es ++ e = es1 ++ VStopped :: es2 -> starts es2 = [] /\ nends es2 = 0 /\ length (starts es1) = nends es1.
Proof.
  intros I H [-> |(x & ->)] B es1 es2 E; [rewrite app_nil_r in E; exact (i_quiet _ _ _ I _ _ E)|].
  destruct es2 as [|y es2 _] using rev_ind.
  - apply app_inj_tail in E as [<- ->]. pose proof (i_busy _ _ _ I). specialize (B (or_introl eq_refl)). repeat split. lia.
  - rewrite app_comm_cons, app_assoc in E. apply app_inj_tail in E as [E <-]. destruct (i_quiet _ _ _ I _ _ E) as (A1 & A2 & A3).
    assert (V : In VStopped es) by (rewrite E; apply in_or_app; right; now left). rewrite starts_app, nends_app, A1, A2.
    assert (X : starts [x] = [] /\ nends [x] = 0). { destruct x; try (cbn; auto; fail); apply (H _ eq_refl ltac:(discriminate) V). }
    destruct X as [-> ->]. auto.
Qed.

Lemma idle_upd n p es w x : pinv n p es -> nth_error (p_ws p) w = Some x -> x <> WIdle -> match p_ph p with PBuild _ | PUnwind _ | PThrown | PGone => False | _ => True end.
Proof.
  intros I E N. pose proof (i_ph _ _ _ I) as P. unfold phase_ok in P. destruct (p_ph p); auto.
  - destruct P as (_ & _ & _ & _ & _ & F). apply N. rewrite Forall_forall in F. apply F. eapply nth_error_In; eauto.
  - destruct P as (_ & _ & _ & _ & F). apply N. rewrite Forall_forall in F. apply F. eapply nth_error_In; eauto.
  - destruct P as [P _]. rewrite P in E. destruct w; discriminate.
  - destruct P as [P _]. rewrite P in E. destruct w; discriminate.
Qed.

Lemma pinv_step n p es l p' e : pinv n p es -> pstep p l = Ok p' e -> pinv n p' (es ++ e).
Proof.
  intros I S. pose proof I as I0. destruct I as [I1 I2 I3 I4 I5 I6 I7]. unfold pstep in S. destruct l as [ok| | |w|w o|w|by_| |].
  - (* LSpawn *)
    destruct (p_ph p) as [[|k]| | | | |] eqn:P; try discriminate. pose proof I4 as J. unfold phase_ok in J. rewrite P in J. destruct J as (J1 & J2 & J3 & J4 & J5 & J6).
    destruct ok; injection S as <- <-; rewrite app_nil_r; subst es.
    + constructor; cbn [p_next p_q p_ws p_ph p_stopped]; auto.
      * rewrite sumw_app. cbn in I3 |- *. lia.
      * unfold phase_ok. destruct k; cbn [p_ph p_ws p_q p_stopped]; [exact Logic.I|]. rewrite app_length. cbn [length]. repeat split; auto; try lia. apply Forall_app. auto.
      * intros _ E. destruct k; [|discriminate]. rewrite app_length, sumw_app. cbn. split; [lia|]. assert (X : sumw alive1 (p_ws p) = length (p_ws p)); [|lia].
        clear -J6. induction J6 as [|x l -> _ IH]; [reflexivity|]. cbn. now rewrite IH.
      * intros [].
    + constructor; cbn [p_next p_q p_ws p_ph p_stopped set_ph]; auto; try discriminate. unfold phase_ok. cbn [p_ph p_ws p_q p_stopped set_ph]. auto.
  - (* LUnwind *)
    destruct (p_ph p) as [|i| | | |] eqn:P; try discriminate. pose proof I4 as J. unfold phase_ok in J. rewrite P in J. destruct J as (J1 & J2 & J3 & J4 & J5). subst i es.
    destruct (nth_error (p_ws p) 0) as [x|] eqn:E0.
    + assert (x = WIdle) by (rewrite Forall_forall in J5; apply J5; eapply nth_error_In; eauto). subst x. discriminate.
    + assert (W : p_ws p = []) by (destruct (p_ws p); [reflexivity|discriminate]). injection S as <- <-.
      constructor; cbn [p_next p_q p_ws p_ph p_stopped set_ph app]; auto; try discriminate. unfold phase_ok. cbn [p_ph p_ws set_ph]. auto.
  - (* LPost *)
    destruct (shared p) eqn:Sh; [|discriminate]. injection S as <- <-. constructor; cbn [p_next p_q p_ws p_ph p_stopped].
    + rewrite posts_app, I1, seq_S. reflexivity.
    + rewrite posts_app, starts_app, I2. cbn. now rewrite app_nil_r, app_assoc.
    + rewrite starts_app, nends_app. cbn. rewrite app_nil_r. lia.
    + unfold phase_ok, shared in *. cbn [p_ph p_ws p_stopped]. destruct (p_ph p); try discriminate; auto.
    + intros A B. rewrite throws_app. cbn. rewrite Nat.add_0_r. auto.
    + intro V. apply in_app_iff in V as [V|[V|[]]]; [auto|discriminate].
    + eapply quiet_step; eauto; [intros x [= <-] _ _; auto|intros [|[]]; discriminate].
  - (* LStart *)
    destruct (nth_error (p_ws p) w) as [[| | |]|] eqn:W; try discriminate. destruct (p_q p) as [|h r] eqn:Q; try discriminate. destruct (p_stopped p) eqn:St; try discriminate. injection S as <- <-.
    pose proof (sumw_upd busy1 _ _ _ (WBusy h) W) as U1. pose proof (sumw_upd alive1 _ _ _ (WBusy h) W) as U2. cbn [busy1 alive1] in U1, U2.
    constructor; cbn [p_next p_q p_ws p_ph p_stopped].
    + rewrite posts_app. cbn. now rewrite app_nil_r.
    + rewrite posts_app, starts_app, I2. cbn. now rewrite app_nil_r, <- app_assoc.
    + rewrite starts_app, nends_app, app_length. cbn. lia.
    + unfold phase_ok in *. cbn [p_ph p_ws p_stopped p_q]. destruct (p_ph p) eqn:P; auto.
      * destruct I4 as (_ & _ & X & _). rewrite Q in X. discriminate.
      * destruct I4 as (_ & X & _). rewrite Q in X. discriminate.
      * destruct I4 as [X _]. rewrite X in W. destruct w; discriminate.
      * destruct I4 as [X _]. congruence.
      * destruct I4 as [X _]. rewrite X in W. destruct w; discriminate.
    + intros A B. rewrite upd_length, throws_app. cbn. destruct (I5 eq_refl B). split; [auto|lia].
    + intro V. apply in_app_iff in V as [V|[V|[]]]; [|discriminate]. destruct (I6 V). congruence.
    + eapply quiet_step; eauto; [|intros [|[]]; discriminate]. intros x _ _ V. destruct (i_over _ _ _ I0 V). congruence.
  - (* LFinish *)
    destruct (nth_error (p_ws p) w) as [[|h| |]|] eqn:W; try discriminate. destruct (in_stop p w) eqn:Si; try discriminate. injection S as <- <-.
    pose proof (idle_upd n p es w _ I0 W ltac:(discriminate)) as G. set (x := match o with HReturn => WIdle | _ => WEnd o end).
    pose proof (sumw_upd busy1 _ _ _ x W) as U1. pose proof (sumw_upd alive1 _ _ _ x W) as U2. cbn [busy1 alive1] in U1, U2.
    assert (X1 : busy1 x = 0) by (destruct o; reflexivity). assert (X2 : alive1 x + throws [VEnd w h o] = 1) by (destruct o; reflexivity).
    constructor; unfold set_wk; cbn [p_next p_q p_ws p_ph p_stopped].
    + rewrite posts_app. cbn. now rewrite app_nil_r.
    + rewrite posts_app, starts_app. cbn. rewrite !app_nil_r. exact I2.
    + rewrite starts_app, nends_app, app_length. cbn. lia.
    + unfold phase_ok in *. cbn [p_ph p_ws p_stopped p_q]. unfold in_stop in Si. destruct (p_ph p) as [| | | |i by_ d|] eqn:P; try (now elim G); auto. destruct I4 as (A & Lo & B). split; [exact A|]. split; [intros j Hj; rewrite upd_other; [auto|]; intros ->; specialize (Lo _ Hj); congruence|]. destruct by_ as [w'|]; [|exact Logic.I].
      destruct B as (h' & B). exists h'. apply Nat.eqb_neq in Si. rewrite upd_other by auto. exact B.
    + intros A B. rewrite upd_length, throws_app. destruct (I5 A B). split; [auto|lia].
    + intro V. apply in_app_iff in V as [V|[V|[]]]; [|discriminate]. destruct (I6 V) as [X _]. rewrite X in W. destruct w; discriminate.
    + eapply quiet_step; eauto; [|intros [|[]]; discriminate]. intros y _ _ V. destruct (i_over _ _ _ I0 V) as [X _]. rewrite X in W. destruct w; discriminate.
  - (* LLeave *)
    destruct (nth_error (p_ws p) w) as [[|h| |]|] eqn:W; try discriminate. destruct (p_stopped p) eqn:St; try discriminate. injection S as <- <-. rewrite app_nil_r.
    pose proof (sumw_upd busy1 _ _ _ (WEnd HReturn) W) as U1. cbn [busy1] in U1.
    constructor; unfold set_wk; cbn [p_next p_q p_ws p_ph p_stopped]; auto; try lia; try congruence.
    + unfold phase_ok in *. cbn [p_ph p_ws p_stopped p_q]. destruct (p_ph p) as [| | | |i by_ d|] eqn:P; auto.
      * destruct I4 as (_ & _ & _ & X & _). congruence.
      * destruct I4 as (_ & _ & X & _). congruence.
      * destruct I4 as [X _]. rewrite X in W. destruct w; discriminate.
      * destruct I4 as (A & Lo & B). split; [exact St|]. split; [intros j Hj; rewrite upd_other; [auto|]; intros ->; specialize (Lo _ Hj); congruence|]. destruct by_ as [w'|]; [|exact Logic.I]. destruct B as (h' & B). exists h'. rewrite upd_other; [exact B|]. intros ->. congruence.
      * destruct I4 as [X _]. rewrite X in W. destruct w; discriminate.
    + intro V. destruct (I6 V) as [X _]. rewrite X in W. destruct w; discriminate.
  - (* LStop *)
    destruct (p_ph p) eqn:P; try discriminate. destruct (match by_ with Some w => is_busy p w | None => true end) eqn:B; try discriminate. injection S as <- <-. rewrite app_nil_r.
    constructor; unfold begin_stop; cbn [p_next p_q p_ws p_ph p_stopped]; auto; try discriminate.
    + unfold phase_ok. cbn [p_ph p_ws p_stopped]. split; [reflexivity|]. split; [intros j Hj; lia|]. destruct by_ as [w|]; [|exact Logic.I]. unfold is_busy in B. destruct (nth_error (p_ws p) w) as [[| | |]|]; try discriminate. eauto.
    + intro V. destruct (I6 V). auto.
  - (* LDestroy *)
    destruct (p_ph p) eqn:P; try discriminate. injection S as <- <-. rewrite app_nil_r.
    constructor; unfold begin_stop; cbn [p_next p_q p_ws p_ph p_stopped]; auto; try discriminate.
    + unfold phase_ok. cbn [p_ph p_ws p_stopped]. repeat split. intros j Hj; lia.
    + intro V. destruct (I6 V). auto.
  - (* LJoin *)
    destruct (p_ph p) as [| | | |i by_ d|] eqn:P; try discriminate. pose proof I4 as J. unfold phase_ok in J. rewrite P in J. destruct J as (St & Lo & By).
    assert (G : forall o ph', nth_error (p_ws p) i = Some (WEnd o) -> (ph' = PLive \/ ph' = PJoin (Datatypes.S i) by_ d) -> forall e, (e = [] \/ e = [VThrew]) -> pinv n (set_ph (set_wk p i WGot) ph') (es ++ e)).
    { intros o ph' W Hph e0 He. pose proof (sumw_upd busy1 _ _ _ WGot W) as U1. cbn [busy1] in U1.
      assert (E0 : posts e0 = [] /\ starts e0 = [] /\ nends e0 = 0 /\ ~ In VStopped e0) by (destruct He as [-> | ->]; cbn; repeat split; auto; intros [|[]]; discriminate). destruct E0 as (E1 & E2 & E3 & E4).
      constructor; unfold set_ph, set_wk; cbn [p_next p_q p_ws p_ph p_stopped]; try congruence.
      - rewrite posts_app, E1, app_nil_r. exact I1.
      - rewrite posts_app, starts_app, E1, E2, !app_nil_r. exact I2.
      - rewrite starts_app, nends_app, E2, E3, app_nil_r. lia.
      - unfold phase_ok. cbn [p_ph p_ws p_stopped]. destruct Hph as [-> | ->]; [exact Logic.I|]. split; [exact St|]. split; [intros j Hj; destruct (Nat.eq_dec j i) as [-> |]; [apply upd_same, nth_error_Some; congruence|rewrite upd_other by auto; apply Lo; lia]|]. destruct by_ as [w'|]; [|exact Logic.I]. destruct By as (h' & B). exists h'. rewrite upd_other; [exact B|]. intros ->. congruence.
      - intro V. apply in_app_iff in V as [V|V]; [|tauto]. destruct (I6 V) as [X _]. rewrite X in W. destruct i; discriminate.
      - eapply quiet_step; eauto; [|destruct He as [-> | ->]; eauto|tauto]. intros x -> _ _. destruct He as [|[= ->]]; [discriminate|]. auto. }
    destruct (nth_error (p_ws p) i) as [[| |[| |]|]|] eqn:W; try discriminate.
    + injection S as <- <-. eapply G; eauto.
    + injection S as <- <-. eapply G; eauto.
    + destruct d; [discriminate|]. injection S as <- <-. eapply G; eauto.
    + injection S as <- <-. assert (NB : sumw busy1 (p_ws p) = 0).
      { apply sumw_zero. intros j x Hj. apply nth_error_None in W. assert (j < i) by (assert (j < length (p_ws p)) by (apply nth_error_Some; congruence); lia). rewrite Lo in Hj by auto. now injection Hj as <-. }
      constructor; cbn [p_next p_q p_ws p_ph p_stopped]; try congruence.
      * rewrite posts_app. cbn. now rewrite app_nil_r.
      * rewrite posts_app, starts_app. cbn. now rewrite !app_nil_r.
      * rewrite starts_app, nends_app. cbn. rewrite app_nil_r. lia.
      * unfold phase_ok. cbn [p_ph p_ws p_stopped]. destruct d; auto.
      * auto.
      * eapply quiet_step; eauto. intros x [= <-] N. congruence.
Qed.

Lemma prun_snoc ls : forall p l es, prun p (ls ++ [l]) es = match prun p ls es with Ok p' es' => match pstep p' l with Ok p2 e => Ok p2 (es' ++ e) | r => r end | r => r end.
Proof.
  induction ls as [|a ls IH]; intros p l es; cbn [app prun]; [destruct (pstep p l); reflexivity|]. destruct (pstep p a); auto.
Qed.
Lemma prun_app ls : forall p ls2 es, prun p (ls ++ ls2) es = match prun p ls es with Ok p' es' => prun p' ls2 es' | r => r end.
Proof. induction ls as [|a ls IH]; intros p ls2 es; cbn [app prun]; [reflexivity|]. destruct (pstep p a); auto. Qed.
Lemma prun_inv n ls : forall p es p' es', pinv n p es -> prun p ls es = Ok p' es' -> pinv n p' es'.
Proof.
  induction ls as [|l ls IH]; intros p es p' es' I E; cbn [prun] in E; [now injection E as <- <-|]. destruct (pstep p l) as [| | |p1 e] eqn:S; try discriminate. eapply IH; [|exact E]. eapply pinv_step; eauto.
Qed.
Lemma prun_events ls : forall p es p' es', prun p ls es = Ok p' es' -> exists new, es' = es ++ new.
Proof.
  induction ls as [|l ls IH]; intros p es p' es' E; cbn [prun] in E; [injection E as <- <-; exists []; now rewrite app_nil_r|]. destruct (pstep p l) as [| | |p1 e]; try discriminate. apply IH in E as (new & ->). exists (e ++ new). now rewrite app_assoc.
Qed.

(** Without exceptions of other kinds no future fails. *)
Definition tame (p : pool) : Prop :=
  (forall j, nth_error (p_ws p) j <> Some (WEnd HOther)) /\
  (forall j, nth_error (p_ws p) j = Some WGot -> match p_ph p with PJoin i _ _ => j < i | _ => False end).
Lemma tame_step n p es l : pinv n p es -> tame p -> (forall w, l <> LFinish w HOther) ->
  pstep p l <> Ub /\ pstep p l <> Term /\ (forall p' e, pstep p l = Ok p' e -> tame p' /\ ~ In VThrew e).
Proof.
  intros I [T1 T2] N. unfold pstep. destruct l as [ok| | |w|w o|w|by_| |].
  - destruct (p_ph p) as [[|k]| | | | |] eqn:P; try (repeat split; discriminate). destruct ok.
    + split; [discriminate|split; [discriminate|intros p' e [= <- <-]; split]]; [|auto]. split; cbn [p_ws p_ph]; intros j.
      * intro E. destruct (Nat.lt_ge_cases j (length (p_ws p))); [rewrite nth_error_app1 in E by auto; now apply T1 in E|]. rewrite nth_error_app2 in E by auto. destruct (j - _) as [|[|]]; discriminate.
      * intro E. exfalso. destruct (Nat.lt_ge_cases j (length (p_ws p))); [rewrite nth_error_app1 in E by auto; now apply T2 in E|]. rewrite nth_error_app2 in E by auto. destruct (j - _) as [|[|]]; discriminate.
    + split; [discriminate|split; [discriminate|intros p' e [= <- <-]; split]]; [|auto]. split; cbn [p_ws p_ph set_ph]; auto.
  - destruct (p_ph p) eqn:P; try (repeat split; discriminate). destruct (nth_error (p_ws p) i) as [[| |o|]|] eqn:W; try (repeat split; discriminate).
    + split; [discriminate|split; [discriminate|intros p' e [= <- <-]; split]]; [|auto]. split; cbn [p_ws p_ph set_ph]; auto.
    + split; [discriminate|split; [discriminate|intros p' e [= <- <-]; split]]; [|auto]. split; cbn [p_ws p_ph set_ph]; auto.
  - destruct (shared p); [|repeat split; discriminate]. split; [discriminate|split; [discriminate|intros p' e [= <- <-]; split]]; [|intros [|[]]; discriminate]. split; cbn [p_ws p_ph]; auto.
  - destruct (nth_error (p_ws p) w) as [[| | |]|] eqn:W; try (repeat split; discriminate). destruct (p_q p); try (repeat split; discriminate). destruct (p_stopped p); try (repeat split; discriminate).
    split; [discriminate|split; [discriminate|intros p' e [= <- <-]; split]]; [|intros [|[]]; discriminate]. split; cbn [p_ws p_ph]; intros j; rewrite nth_upd; repeat (match goal with |- context [if ?b then _ else _] => destruct b end); try discriminate; try (intro; discriminate); try exact (T2 j); auto.
  - destruct (nth_error (p_ws p) w) as [[| | |]|] eqn:W; try (repeat split; discriminate). destruct (in_stop p w); try (repeat split; discriminate).
    split; [discriminate|split; [discriminate|intros p' e [= <- <-]; split]]; [|intros [|[]]; discriminate]. assert (o <> HOther) by (intros ->; now apply (N w)). split; unfold set_wk; cbn [p_ws p_ph]; intros j; rewrite nth_upd; repeat (match goal with |- context [if ?b then _ else _] => destruct b end); try discriminate; try (intro; discriminate); try exact (T2 j); auto; destruct o; congruence.
  - destruct (nth_error (p_ws p) w) as [[| | |]|] eqn:W; try (repeat split; discriminate). destruct (p_stopped p); try (repeat split; discriminate).
    split; [discriminate|split; [discriminate|intros p' e [= <- <-]; split]]; [|auto]. split; unfold set_wk; cbn [p_ws p_ph]; intros j; rewrite nth_upd; repeat (match goal with |- context [if ?b then _ else _] => destruct b end); try discriminate; try (intro; discriminate); try exact (T2 j); auto.
  - destruct (p_ph p) eqn:P; try (repeat split; discriminate). destruct (match by_ with Some w => is_busy p w | None => true end); try (repeat split; discriminate).
    split; [discriminate|split; [discriminate|intros p' e [= <- <-]; split]]; [|auto]. split; unfold begin_stop; cbn [p_ws p_ph]; auto. intros j E. now apply T2 in E.
  - destruct (p_ph p) eqn:P; try (repeat split; discriminate). split; [discriminate|split; [discriminate|intros p' e [= <- <-]; split]]; [|auto]. split; unfold begin_stop; cbn [p_ws p_ph]; auto. intros j E. now apply T2 in E.
  - destruct (p_ph p) as [| | | |i by_ d|] eqn:P; try (repeat split; discriminate).
    assert (G : forall o, nth_error (p_ws p) i = Some (WEnd o) -> tame (set_ph (set_wk p i WGot) (PJoin (S i) by_ d))).
    { intros o W. split; unfold set_ph, set_wk; cbn [p_ws p_ph]; intros j; rewrite nth_upd; repeat (match goal with |- context [if ?b then _ else _] => destruct b eqn:? end); try discriminate; try (intro; discriminate); try exact (T2 j); auto.
      - intros _. match goal with H : (j =? i) = true |- _ => apply Nat.eqb_eq in H; lia end.
      - intros E. apply T2 in E. lia. }
    destruct (nth_error (p_ws p) i) as [[| |[| |]|]|] eqn:W; try (repeat split; discriminate).
    + split; [discriminate|split; [discriminate|intros p' e [= <- <-]; split]]; [|auto]. eapply G; eauto.
    + split; [discriminate|split; [discriminate|intros p' e [= <- <-]; split]]; [|auto]. eapply G; eauto.
    + now apply T1 in W.
    + apply T2 in W. lia.
    + split; [discriminate|split; [discriminate|intros p' e [= <- <-]; split]]; [|intros [|[]]; discriminate]. split; cbn [p_ws]; intros j; destruct j; discriminate.
Qed.
Lemma tame_new n : tame (pool_new n).
Proof. split; cbn [pool_new p_ws]; intros j; destruct j; discriminate. Qed.
Lemma tame_run n ls : forall p es, pinv n p es -> tame p -> std_only ls ->
  prun p ls es <> Ub /\ prun p ls es <> Term /\ (forall p' es', prun p ls es = Ok p' es' -> tame p' /\ (~ In VThrew es -> ~ In VThrew es')).
Proof.
  induction ls as [|l ls IH]; intros p es I T H; cbn [prun]; [split; [discriminate|split; [discriminate|intros p' es' [= <- <-]; auto]]|].
  assert (Hl : forall w, l <> LFinish w HOther) by (intros w ->; apply (H w); now left). assert (Hr : std_only ls) by (intros w X; apply (H w); now right).
  destruct (tame_step n p es l I T Hl) as (A & B & C). destruct (pstep p l) as [| | |p1 e] eqn:S; try (repeat split; congruence).
  destruct (C _ _ eq_refl) as [T1 V]. destruct (IH p1 (es ++ e) (pinv_step _ _ _ _ _ _ I S) T1 Hr) as (A' & B' & C'). split; [exact A'|]. split; [exact B'|]. intros p' es' E. destruct (C' _ _ E) as [X Y]. split; [exact X|].
  intro Z0. apply Y. rewrite in_app_iff. tauto.
Qed.
