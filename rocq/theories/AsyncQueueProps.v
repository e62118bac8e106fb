(** C64: asynchronous gets and puts are served in call order, each exactly once,
    and none is forgotten. *)
From Coq Require Import ZArith List Lia Bool Sorted.
From Verif Require Import ConcBase AsyncQueueModel AsyncQueueProofs.
Import ListNotations.

(** ** Specification *)
(** The values other threads put in the ring: pushes up to the first stop. *)
Fixpoint pushed (ls : list (alab unit genv)) : list Z :=
  match ls with
  | [] => []
  | AEnv (GPush v) :: r => v :: pushed r
  | AEnv GStop :: _ => []
  | _ :: r => pushed r
  end.
(** The values of the operations done, in order of time; the calls that did them. *)
Definition given (l : list aev) : list Z := flat_map (fun e => match e with EDo _ v => [v] | _ => [] end) l.
Definition served (l : list aev) : list nat := flat_map (fun e => match e with EDo t _ => [t] | _ => [] end) l.
Definition finished (l : list aev) : list nat := flat_map (fun e => match e with EEnd t _ => [t] | _ => [] end) l.
Definition get_start : sq getres unit := sq_init {| g_items := []; g_stopped := false |}.
Definition put_start (n : nat) : sq putres Z := sq_init {| p_space := n; p_stopped := false; p_away := [] |}.
(** What the loop does by itself: run a task that can go on, or the callback
    while the descriptor is readable. *)
Section Own.
Context {R op E : Type} (cb : R -> op -> R * out) (envf : E -> R -> R) (readable : R -> bool).
Inductive own : sq R op -> list (alab op E) -> sq R op -> Prop :=
| own_nil s : own s [] s
| own_resume s t s' e ls s'' : astep cb envf s (AResume t) = Some (s', e) -> own s' ls s'' -> own s (AResume t :: ls) s''
| own_ready s s' e ls s'' : readable (q_res s) = true -> astep cb envf s AReady = Some (s', e) -> own s' ls s'' -> own s (AReady :: ls) s''.
Definition at_rest (s : sq R op) : Prop :=
  (forall t, astep cb envf s (AResume t) = None) /\ (readable (q_res s) = true -> astep cb envf s AReady = None).
Definition over (k : task op) : Prop := exists r, k_st k = TOver r.
End Own.

(** ** The instances meet the assumptions *)
Definition st_get (r : getres) : bool := g_stopped r && negb (nonempty (g_items r)).
Definition st_put (r : putres) : bool := p_stopped r.
Lemma get_stop_st r o : snd (cb_get r o) = Stop -> st_get r = true.
Proof. unfold cb_get, st_get. destruct (g_items r); [|discriminate]. destruct (g_stopped r); [reflexivity|discriminate]. Qed.
Lemma get_st_stop r o : st_get r = true -> snd (cb_get r o) = Stop \/ snd (cb_get r o) = Bad.
Proof. unfold cb_get, st_get. destruct (g_items r); [|now rewrite andb_false_r]. cbn. rewrite andb_true_r. intros ->. now left. Qed.
Lemma get_st_cb r o : st_get r = true -> st_get (fst (cb_get r o)) = true.
Proof. unfold cb_get. intro H. destruct (g_items r) eqn:E; [exact H|]. unfold st_get in H. rewrite E in H. cbn in H. now rewrite andb_false_r in H. Qed.
Lemma get_st_env e r : st_get r = true -> st_get (env_get e r) = true.
Proof.
  unfold st_get. intro H. apply andb_true_iff in H as [H1 H2]. destruct e as [v|]; cbn [env_get]; [rewrite H1, ?H1, H2; reflexivity|]. exact H2.
Qed.
Lemma get_not_bad r o : snd (cb_get r o) <> Bad.
Proof. unfold cb_get. destruct (g_items r); [destruct (g_stopped r)|]; discriminate. Qed.
Lemma put_stop_st r o : snd (cb_put r o) = Stop -> st_put r = true.
Proof. unfold cb_put, st_put. destruct (existsb _ _); [discriminate|]. destruct (p_stopped r); [reflexivity|]. destruct (p_space r); discriminate. Qed.
Lemma put_st_stop r o : st_put r = true -> snd (cb_put r o) = Stop \/ snd (cb_put r o) = Bad.
Proof. unfold cb_put, st_put. destruct (existsb _ _); [auto|]. intros ->. auto. Qed.
Lemma put_st_cb r o : st_put r = true -> st_put (fst (cb_put r o)) = true.
Proof. unfold cb_put, st_put. intro H. destruct (existsb _ _); [exact H|]. rewrite H. exact H. Qed.
Lemma put_st_env e r : st_put r = true -> st_put (env_put e r) = true.
Proof. unfold st_put. destruct e; cbn; auto. Qed.

Lemma get_inv ls s log : arun cb_get env_get get_start ls = Some (s, log) -> sinv (E := genv) cb_get st_get ls s log.
Proof. intro H. apply (sinv_run cb_get env_get st_get get_stop_st get_st_stop get_st_cb get_st_env [] get_start [] ls s log (sinv_init _ _ _) H). Qed.
Lemma put_inv n ls s log : arun cb_put env_put (put_start n) ls = Some (s, log) -> sinv (E := penv) cb_put st_put ls s log.
Proof. intro H. apply (sinv_run cb_put env_put st_put put_stop_st put_st_stop put_st_cb put_st_env [] (put_start n) [] ls s log (sinv_init _ _ _) H). Qed.

(** ** Values go out in the order they went in *)
Lemma given_app a b : given (a ++ b) = given a ++ given b. Proof. apply flat_map_app. Qed.
Lemma clear_res {R op} (s s1 : sq R op) : clear_done s = Some s1 -> q_res s1 = q_res s.
Proof. unfold clear_done. destruct (_ && _); [discriminate|]. now intros [= <-]. Qed.

Lemma cb_get_given r o : given (match snd (cb_get r o) with Did v => [EDo 0 v] | _ => [] end) ++ g_items (fst (cb_get r o)) = g_items r
  /\ g_stopped (fst (cb_get r o)) = g_stopped r.
Proof. unfold cb_get. destruct (g_items r) as [|v l] eqn:E; [destruct (g_stopped r) eqn:Es|]; cbn; rewrite ?E, ?Es; auto. Qed.

Lemma step_given s l s' e : astep cb_get env_get s l = Some (s', e) -> (forall x, l <> AEnv x) ->
  given e ++ g_items (q_res s') = g_items (q_res s) /\ g_stopped (q_res s') = g_stopped (q_res s).
Proof.
  intros H Hl. destruct l as [o| |t|t|x]; cbn [astep] in H.
  - injection H as H. unfold call in H. destruct (clear_done s) as [s1|] eqn:Ec; [|injection H as <- <-; cbn; auto].
    apply clear_res in Ec. rewrite <- Ec. destruct (q_wait s1) as [|w ws]; [|injection H as <- <-; cbn; auto].
    pose proof (cb_get_given (q_res s1) o) as [G1 G2]. destruct (cb_get (q_res s1) o) as [r x]. destruct x; injection H as <- <-; cbn in *; auto.
  - destruct (q_listen s); [|discriminate]. injection H as H. unfold ready in H. destruct (clear_done s) as [s1|] eqn:Ec; [|injection H as <- <-; cbn; auto].
    apply clear_res in Ec. rewrite <- Ec. destruct (q_wait s1) as [|w ws]; [injection H as <- <-; cbn; auto|].
    destruct (nth_error (q_tasks s1) w) as [k|]; [|injection H as <- <-; cbn; auto].
    pose proof (cb_get_given (q_res s1) (k_op k)) as [G1 G2]. destruct (cb_get (q_res s1) (k_op k)) as [r x]. destruct x as [v| | |].
    + destruct (q_islist s1); injection H as <- <-; cbn in *; auto.
    + injection H as <- <-; cbn in *; auto.
    + destruct (stop_all _ _) as [ts ok]. destruct ok; injection H as <- <-; cbn in *; auto.
    + injection H as <- <-; cbn in *; auto.
  - destruct (nth_error (q_tasks s) t) as [k|]; [|discriminate]. destruct (resume_result k); [|discriminate]. injection H as <- <-. cbn; auto.
  - destruct (nth_error (q_tasks s) t) as [k|]; [|discriminate]. injection H as <- <-. cbn; auto.
  - now contradiction (Hl x).
Qed.

Lemma run_given_stopped ls : forall s s' log, g_stopped (q_res s) = true -> arun cb_get env_get s ls = Some (s', log) ->
  given log ++ g_items (q_res s') = g_items (q_res s).
Proof.
  induction ls as [|l ls IH]; intros s s' log Hs Hr; cbn [arun] in Hr; [injection Hr as <- <-; reflexivity|].
  destruct (astep cb_get env_get s l) as [[s1 e]|] eqn:Es; [|discriminate]. destruct (arun cb_get env_get s1 ls) as [[s2 es]|] eqn:Er; [|discriminate]. injection Hr as <- <-.
  rewrite given_app, <- app_assoc.
  assert (Hx : given e ++ g_items (q_res s1) = g_items (q_res s) /\ g_stopped (q_res s1) = true).
  { destruct l as [o| |t|t|[v|]]; try (destruct (step_given _ _ _ _ Es) as [G1 G2]; [discriminate|rewrite G2; auto]); cbn in Es; injection Es as <- <-; cbn; rewrite ?Hs; auto. }
  destruct Hx as [G1 G2]. rewrite (IH _ _ _ G2 Er). exact G1.
Qed.
Lemma run_given ls : forall s s' log, g_stopped (q_res s) = false -> arun cb_get env_get s ls = Some (s', log) ->
  given log ++ g_items (q_res s') = g_items (q_res s) ++ pushed ls.
Proof.
  induction ls as [|l ls IH]; intros s s' log Hs Hr; [cbn in Hr; injection Hr as <- <-; cbn; now rewrite app_nil_r|]. cbn [arun] in Hr.
  destruct (astep cb_get env_get s l) as [[s1 e]|] eqn:Es; [|discriminate]. destruct (arun cb_get env_get s1 ls) as [[s2 es]|] eqn:Er; [|discriminate]. injection Hr as <- <-.
  rewrite given_app, <- app_assoc.
  destruct l as [o| |t|t|[v|]]; cbn [pushed];
    try (destruct (step_given _ _ _ _ Es) as [G1 G2]; [discriminate|]; rewrite (IH _ _ _ (eq_trans G2 Hs) Er), app_assoc, G1; reflexivity).
  - cbn in Es. injection Es as <- <-. rewrite Hs in Er. cbn [given flat_map app]. pose proof (fun H => IH _ _ _ H Er) as G. rewrite (G eq_refl). cbn. now rewrite <- app_assoc.
  - cbn in Es. injection Es as <- <-. cbn [given flat_map app]. pose proof (fun H => run_given_stopped _ _ _ _ H Er) as G. rewrite (G eq_refl). cbn. now rewrite app_nil_r.
Qed.

(** Gets are served in the order they were called, and with the heaps in the
    order they entered the ring, none left out and none given twice. *)
Theorem C64_get_order : forall ls s log, arun cb_get env_get get_start ls = Some (s, log) ->
  StronglySorted lt (served log) /\ given log ++ g_items (q_res s) = pushed ls.
Proof.
  intros ls s log H. split; [apply (i_dos _ _ _ _ _ (get_inv _ _ _ H))|]. now rewrite (run_given ls get_start s log eq_refl H).
Qed.
Print Assumptions C64_get_order.

(** ** Every result is right *)
Section Results.
Context {R op E : Type} (cb : R -> op -> R * out) (envf : E -> R -> R) (st : R -> bool).
Lemma results ls s log : sinv (E := E) cb st ls s log ->
  NoDup (ends log) /\
  (forall t v, In (EEnd t (RVal v)) log -> In (EDo t v) log) /\
  (forall t v, In (EDo t v) log -> ~ In (ACancel t) ls -> In (EEnd t (RVal v)) log \/ exists s', astep cb envf s (AResume t) = Some (s', [EEnd t (RVal v)])) /\
  (forall t, In (EEnd t RCancelled) log -> In (ACancel t) ls) /\
  (forall t, In (EEnd t RStopped) log -> st (q_res s) = true /\ ~ In t (dos log)).
Proof.
  intro H. split; [now destruct H|].
  assert (Hend : forall t r, In (EEnd t r) log -> exists k, nth_error (q_tasks s) t = Some k /\ k_st k = TOver r).
  { intros t r Hr. assert (Hl : t < length (q_tasks s)) by (apply (i_endsr _ _ _ _ _ H); apply in_ends; eauto).
    destruct (nth_error (q_tasks s) t) as [k|] eqn:Ek; [|apply nth_error_None in Ek; lia]. exists k. split; [reflexivity|].
    destruct (i_task _ _ _ _ _ H t k Ek) as [_ Ht]. destruct (k_st k) as [v| |r0]; [now apply Ht in Hr|destruct Ht as [Ht _]; now apply Ht in Hr|].
    destruct Ht as [Ht _]. f_equal. pose proof (i_ends _ _ _ _ _ H) as Hn. revert Hr Ht Hn. clear. induction log as [|x l IH]; [intros []|].
    intros [->|Hr] [Ht|Ht] Hn; cbn [ends flat_map app] in Hn.
    - congruence.
    - inversion Hn as [|? ? Hn1 _]. exfalso. apply Hn1, in_ends. eauto.
    - subst x. cbn [app] in Hn. inversion Hn as [|? ? Hn1 _]. exfalso. apply Hn1, in_ends. eauto.
    - apply IH; auto. destruct x; cbn [app] in Hn; auto. now inversion Hn. }
  split; [|split; [|split]].
  - intros t v Hr. destruct (Hend t _ Hr) as (k & Ek & Es). destruct (i_task _ _ _ _ _ H t k Ek) as [_ Ht]. rewrite Es in Ht. tauto.
  - intros t v Hd Hc. assert (Hl : t < length (q_tasks s)) by (apply (i_dosr _ _ _ _ _ H); apply in_dos; eauto).
    destruct (nth_error (q_tasks s) t) as [k|] eqn:Ek; [|apply nth_error_None in Ek; lia].
    assert (Huniq : forall v', In (EDo t v') log -> v' = v).
    { intros v' Hv'. pose proof (i_dos _ _ _ _ _ H) as Hn. revert Hd Hv' Hn. clear. induction log as [|x l IH]; [intros []|].
      intros [->|Hr] [Ht|Ht] Hn; cbn [dos flat_map app] in Hn.
      - congruence.
      - inversion Hn as [|? ? _ Hn1]. rewrite Forall_forall in Hn1. specialize (Hn1 t ltac:(apply in_dos; eauto)). lia.
      - subst x. cbn [app] in Hn. inversion Hn as [|? ? _ Hn1]. rewrite Forall_forall in Hn1. specialize (Hn1 t ltac:(apply in_dos; eauto)). lia.
      - apply IH; auto. destruct x; cbn [app] in Hn; auto. now inversion Hn. }
    destruct (i_task _ _ _ _ _ H t k Ek) as [Hk Ht].
    assert (Hnk : k_kill k = false) by (destruct (k_kill k); [exfalso; auto|reflexivity]).
    cbn [astep]. rewrite Ek. unfold resume_result. destruct (k_st k) as [v'| |r] eqn:Es.
    + right. destruct Ht as (_ & _ & Hv & _). rewrite (Huniq _ Hv), Hnk. eexists. reflexivity.
    + destruct Ht as [_ Ht]. destruct (k_fut k) as [|v'| |].
      * exfalso. destruct Ht as [_ Ht]. now apply (Ht v).
      * right. destruct Ht as [_ Hv]. rewrite (Huniq _ Hv), Hnk. eexists. reflexivity.
      * exfalso. destruct Ht as (_ & Ht & _). now apply (Ht v).
      * exfalso. tauto.
    + left. destruct Ht as (Hr & _ & Ht). destruct r as [v'| | |].
      * now rewrite (Huniq _ Ht) in Hr.
      * exfalso. destruct Ht as [_ Ht]. now apply (Ht v).
      * tauto.
      * exfalso. now apply (Ht v).
  - intros t Hr. destruct (Hend t _ Hr) as (k & Ek & Es). destruct (i_task _ _ _ _ _ H t k Ek) as [_ Ht]. rewrite Es in Ht. tauto.
  - intros t Hr. destruct (Hend t _ Hr) as (k & Ek & Es). destruct (i_task _ _ _ _ _ H t k Ek) as [_ Ht]. rewrite Es in Ht.
    destruct Ht as (_ & _ & G1 & G2). split; [exact G1|]. rewrite in_dos. intros [v Hv]. now apply (G2 v).
Qed.
End Results.

(** A get ends at most once.  It ends with a heap only if that heap was taken for
    it, and if one was, and it is not cancelled, it ends with that heap or is
    about to.  It ends as cancelled only if it was cancelled.  It ends as stopped
    only when the ring is stopped and empty, and then no heap was taken for it.
    It never ends in another exception. *)
Theorem C64_get_results : forall ls s log, arun cb_get env_get get_start ls = Some (s, log) ->
  NoDup (finished log) /\
  (forall t v, In (EEnd t (RVal v)) log -> In (EDo t v) log) /\
  (forall t v, In (EDo t v) log -> ~ In (ACancel t) ls ->
     In (EEnd t (RVal v)) log \/ exists s', astep cb_get env_get s (AResume t) = Some (s', [EEnd t (RVal v)])) /\
  (forall t, In (EEnd t RCancelled) log -> In (ACancel t) ls) /\
  (forall t, In (EEnd t RStopped) log -> g_stopped (q_res s) = true /\ g_items (q_res s) = [] /\ ~ In t (served log)) /\
  (forall t, ~ In (EEnd t RError) log).
Proof.
  intros ls s log H. pose proof (get_inv _ _ _ H) as Hi. destruct (results cb_get env_get st_get ls s log Hi) as (H1 & H2 & H3 & H4 & H5).
  split; [exact H1|]. split; [exact H2|]. split; [exact H3|]. split; [exact H4|]. split; [|apply (i_err _ _ _ _ _ Hi get_not_bad)].
  intros t Ht. destruct (H5 t Ht) as [G1 G2]. unfold st_get in G1. apply andb_true_iff in G1 as [G1 G3]. split; [exact G1|]. split; [|exact G2].
  destruct (g_items (q_res s)); [reflexivity|discriminate].
Qed.
Print Assumptions C64_get_results.

(** The same for puts: a put that ends well has put its chunk, a put that ends as
    stopped has not, and a put that was not cancelled and put its chunk ends well. *)
Theorem C64_put_results : forall n ls s log, arun cb_put env_put (put_start n) ls = Some (s, log) ->
  StronglySorted lt (served log) /\ NoDup (finished log) /\
  (forall t v, In (EEnd t (RVal v)) log -> In (EDo t v) log) /\
  (forall t v, In (EDo t v) log -> ~ In (ACancel t) ls ->
     In (EEnd t (RVal v)) log \/ exists s', astep cb_put env_put s (AResume t) = Some (s', [EEnd t (RVal v)])) /\
  (forall t, In (EEnd t RCancelled) log -> In (ACancel t) ls) /\
  (forall t, In (EEnd t RStopped) log -> p_stopped (q_res s) = true /\ ~ In t (served log)).
Proof.
  intros n ls s log H. pose proof (put_inv _ _ _ _ H) as Hi. destruct (results cb_put env_put st_put ls s log Hi) as (H1 & H2 & H3 & H4 & H5).
  split; [apply (i_dos _ _ _ _ _ Hi)|]. auto.
Qed.
Print Assumptions C64_put_results.

(** ** Nobody is forgotten *)
Lemma rest_listen {R op E : Type} (cb : R -> op -> R * out) (envf : E -> R -> R) st (readable : R -> bool) ls s log :
  sinv (E := E) cb st ls s log -> at_rest cb envf readable s ->
  (readable (q_res s) = true -> Forall over (q_tasks s)) /\
  (forall t k, nth_error (q_tasks s) t = Some k -> ~ over k -> In t (q_wait s) /\ q_listen s = true).
Proof.
  intros H [Hr Hl].
  assert (Hw : forall t k, nth_error (q_tasks s) t = Some k -> ~ over k -> In t (q_wait s)).
  { intros t k Ek Ho. specialize (Hr t). cbn [astep] in Hr. rewrite Ek in Hr. unfold resume_result in Hr. destruct (i_task _ _ _ _ _ H t k Ek) as [_ Ht].
    destruct (k_st k) as [v| |r] eqn:Es; [destruct (k_kill k); discriminate| |exfalso; apply Ho; now exists r].
    destruct Ht as [_ Ht]. destruct (k_fut k) as [|v| |]; [tauto|destruct (k_kill k); discriminate|destruct (k_kill k); discriminate|discriminate]. }
  assert (Hli : forall t k, nth_error (q_tasks s) t = Some k -> ~ over k -> q_listen s = true).
  { intros t k Ek Ho. apply (i_listen _ _ _ _ _ H). intro E0. specialize (Hw t k Ek Ho). rewrite E0 in Hw. destruct Hw. }
  split; [|intros t k Ek Ho; split; eauto].
  intro Hrd. apply Forall_forall. intros k Hk. apply In_nth_error in Hk as [t Ek].
  destruct (k_st k) as [v| |r] eqn:Es; [| |now exists r]; exfalso.
  - assert (Ho : ~ over k) by (intros [r G]; congruence). specialize (Hli t k Ek Ho). specialize (Hl Hrd). cbn [astep] in Hl. rewrite Hli in Hl. discriminate.
  - assert (Ho : ~ over k) by (intros [r G]; congruence). specialize (Hli t k Ek Ho). specialize (Hl Hrd). cbn [astep] in Hl. rewrite Hli in Hl. discriminate.
Qed.

Lemma own_bound {R op E : Type} (cb : R -> op -> R * out) (envf : E -> R -> R) st (readable : R -> bool)
  (stop_st : forall r o, snd (cb r o) = Stop -> st r = true)
  (st_stop : forall r o, st r = true -> snd (cb r o) = Stop \/ snd (cb r o) = Bad)
  (st_cb : forall r o, st r = true -> st (fst (cb r o)) = true)
  (st_env : forall e r, st r = true -> st (envf e r) = true)
  (rd : forall r o, readable r = true -> snd (cb r o) <> Busy)
  (G : sq R op -> Prop)
  (Ggood : forall s, G s -> forall t k, In t (q_wait s) -> nth_error (q_tasks s) t = Some k -> snd (cb (q_res s) (k_op k)) <> Bad)
  (Gstep : forall s l s' e, G s -> (l = AReady \/ exists t, l = AResume t) -> astep cb envf s l = Some (s', e) -> G s') :
  forall s ls s', own cb envf readable s ls s' -> forall h log, sinv (E := E) cb st h s log -> G s -> length ls <= qwork s.
Proof.
  induction 1 as [s|s t s' e ls s'' Hs Ho IH|s s' e ls s'' Hr Hs Ho IH]; intros h log Hi HG; cbn [length]; [lia| |].
  - assert (IH' := IH _ _ (sinv_step cb envf st stop_st st_stop st_cb st_env _ _ _ _ _ _ Hi Hs) (Gstep _ _ _ _ HG (or_intror (ex_intro _ t eq_refl)) Hs)).
    cbn [astep] in Hs. destruct (nth_error (q_tasks s) t) as [k|] eqn:Ek; [|discriminate]. destruct (resume_result k) as [r|] eqn:Er; [|discriminate]. injection Hs as <- <-.
    pose proof (resume_progress s t k r Ek Er). lia.
  - assert (IH' := IH _ _ (sinv_step cb envf st stop_st st_stop st_cb st_env _ _ _ _ _ _ Hi Hs) (Gstep _ _ _ _ HG (or_introl eq_refl) Hs)).
    cbn [astep] in Hs. destruct (q_listen s) eqn:El; [|discriminate]. injection Hs as Hs.
    pose proof (ready_progress cb st _ _ _ _ _ Hi El Hs) as Hp. enough (qwork s' < qwork s) by lia. apply Hp.
    intros t k Ht Ek. split; [now apply rd|]. now apply (Ggood s HG t).
Qed.

Lemma qwork_le {R op} (s : sq R op) : qwork s <= 4 * length (q_tasks s) + 1.
Proof.
  unfold qwork. assert (sumw w_task (q_tasks s) <= 4 * length (q_tasks s)).
  { induction (q_tasks s) as [|k l IH]; cbn [sumw length]; [lia|]. assert (w_task k <= 4) by (unfold w_task; destruct (k_st k); [lia|destruct (fdone _); lia|lia]). lia. }
  destruct (q_listen s); lia.
Qed.

(** After at most four steps per call and one more, the loop is at rest; then, if
    there is a heap in the ring or the ring was stopped, every get has ended, and
    if not, each get that has not ended is queued and the loop listens for it. *)
Theorem C64_get_served : forall ls s log, arun cb_get env_get get_start ls = Some (s, log) ->
  (forall ls' s', own cb_get env_get g_readable s ls' s' -> length ls' <= 4 * length (q_tasks s) + 1) /\
  (at_rest cb_get env_get g_readable s ->
     (g_items (q_res s) <> [] \/ g_stopped (q_res s) = true -> Forall over (q_tasks s)) /\
     (forall t k, nth_error (q_tasks s) t = Some k -> ~ over k -> In t (q_wait s) /\ q_listen s = true)).
Proof.
  intros ls s log H. pose proof (get_inv _ _ _ H) as Hi. split.
  - intros ls' s' Ho. etransitivity; [|apply qwork_le].
    apply (own_bound cb_get env_get st_get g_readable get_stop_st get_st_stop get_st_cb get_st_env) with (G := fun _ => True) (s' := s') (h := ls) (log := log); auto.
    + intros r o Hr. unfold g_readable in Hr. unfold cb_get. destruct (g_items r); [|discriminate]. cbn in Hr. rewrite Hr. discriminate.
    + intros. apply get_not_bad.
  - intro Hr. destruct (rest_listen _ _ _ _ _ _ _ Hi Hr) as [H1 H2]. split; [|exact H2]. intro Hx. apply H1. unfold g_readable.
    destruct Hx as [Hx| ->]; [|apply orb_true_r]. destruct (g_items (q_res s)); [congruence|reflexivity].
Qed.
Print Assumptions C64_get_served.

(** No exception gets out into the event loop unless some get was cancelled. *)
Theorem C64_get_quiet : forall ls s log, arun cb_get env_get get_start ls = Some (s, log) ->
  (forall t, ~ In (ACancel t) ls) -> ~ In EEscape log.
Proof.
  intros ls s log H Hc He. destruct (i_esc _ _ _ _ _ (get_inv _ _ _ H) get_not_bad He) as [t Ht]. now apply Hc in Ht.
Qed.
Print Assumptions C64_get_quiet.

(** ** Puts *)
(** The chunk a call is about. *)
Definition chunk_of (s : sq putres Z) (t : nat) : option Z := option_map k_op (nth_error (q_tasks s) t).
(** No two queued puts are about the same chunk, and none is about a chunk that
    is in the ring or beyond it. *)
Definition fresh_puts (s : sq putres Z) : Prop :=
  NoDup (map (chunk_of s) (q_wait s)) /\ forall t c, In t (q_wait s) -> chunk_of s t = Some c -> ~ In c (p_away (q_res s)).

Lemma op_put_fut (ts : list (task Z)) t f x : option_map k_op (nth_error (put_fut ts t f) x) = option_map k_op (nth_error ts x).
Proof.
  unfold put_fut. destruct (nth_error ts t) as [k|] eqn:E; [|reflexivity]. rewrite nth_upd. destruct (Nat.eqb_spec x t) as [->|Hx]; [|reflexivity].
  assert (Hl : t < length ts) by (apply nth_error_Some; congruence). apply Nat.ltb_lt in Hl. rewrite Hl, E. reflexivity.
Qed.
Lemma op_stop_all (ts : list (task Z)) ws x : option_map k_op (nth_error (fst (stop_all ts ws)) x) = option_map k_op (nth_error ts x).
Proof.
  revert ts. induction ws as [|t ws IH]; intro ts; cbn [stop_all]; [reflexivity|]. destruct (is_done ts t); [reflexivity|]. rewrite IH. apply op_put_fut.
Qed.
Lemma existsb_in c l : existsb (Z.eqb c) l = true <-> In c l.
Proof. rewrite existsb_exists. split; [intros (x & H1 & H2); apply Z.eqb_eq in H2; now subst|intro H; exists c; split; [exact H|apply Z.eqb_refl]]. Qed.
Lemma NoDup_suffix {A} (pre l : list A) : NoDup (pre ++ l) -> NoDup l.
Proof. induction pre as [|x pre IH]; cbn [app]; [auto|]. intro H. inversion H. auto. Qed.

Lemma fresh_step s l s' e : fresh_puts s /\ (q_islist s = true -> q_wait s = []) -> (l = AReady \/ exists t, l = AResume t) -> astep cb_put env_put s l = Some (s', e) ->
  fresh_puts s' /\ (q_islist s' = true -> q_wait s' = []).
Proof.
  intros [[F1 F2] F3] Hl Hs. destruct Hl as [->|[t ->]]; cbn [astep] in Hs.
  - destruct (q_listen s); [|discriminate]. injection Hs as Hs. unfold ready in Hs. destruct (clear_done s) as [s1|] eqn:Ec; [|injection Hs as <- <-; split; [split; auto|exact F3]].
    assert (Hc : fresh_puts s1 /\ (q_islist s1 = true -> q_wait s1 = [])).
    { unfold clear_done in Ec. destruct (_ && _); [discriminate|]. injection Ec as <-. destruct (drop_done_suffix (q_tasks s) (q_wait s)) as (pre & G & _).
      unfold fresh_puts, chunk_of; cbn [q_wait q_tasks q_res q_islist]. split; [|intro Hi; now rewrite (F3 Hi)]. split.
      - rewrite G, map_app in F1. now apply NoDup_suffix in F1.
      - intros x c Hx. apply F2. rewrite G. apply in_app_iff. now right. }
    destruct Hc as [[C1 C2] C0]. clear Ec F1 F2 F3. destruct (q_wait s1) as [|t ws] eqn:Ew; [injection Hs as <- <-; split; [split; rewrite ?Ew; auto|rewrite ?Ew; auto]|].
    destruct (nth_error (q_tasks s1) t) as [k|] eqn:Ek; [|injection Hs as <- <-; split; [split; rewrite ?Ew; auto|rewrite ?Ew; auto]].
    assert (Hct : chunk_of s1 t = Some (k_op k)) by (unfold chunk_of; now rewrite Ek).
    unfold cb_put in Hs. destruct (existsb (Z.eqb (k_op k)) (p_away (q_res s1))) eqn:Ex; [injection Hs as <- <-; split; [split; cbn [q_wait q_res]; auto|cbn [q_wait q_islist]; auto]|].
    destruct (p_stopped (q_res s1)).
    { destruct (stop_all (q_tasks s1) (t :: ws)) as [ts ok] eqn:Ea. assert (Hop : forall x, option_map k_op (nth_error ts x) = chunk_of s1 x) by (intro x; replace ts with (fst (stop_all (q_tasks s1) (t :: ws))) by (rewrite Ea; reflexivity); apply op_stop_all).
      destruct ok; injection Hs as <- <-; unfold fresh_puts; cbn [q_wait q_res q_islist]; [split; [split; [constructor|intros ? ? []]|reflexivity]|].
      split; [|exact C0]. split.
      - erewrite map_ext; [exact C1|]. intro x. apply Hop.
      - intros x c Hx Hc. unfold chunk_of in Hc; cbn [q_tasks] in Hc. rewrite Hop in Hc. now apply (C2 x). }
    destruct (p_space (q_res s1)) as [|n]; [injection Hs as <- <-; split; [split; cbn [q_wait q_res]; auto|cbn [q_wait q_islist]; auto]|].
    assert (C3 : NoDup (map (chunk_of s1) ws) /\ forall x, In x ws -> chunk_of s1 x <> Some (k_op k)).
    { cbn [map] in C1. inversion C1 as [|? ? D1 D2]; subst. split; [exact D2|]. intros x Hx Hq. apply D1. rewrite Hct, <- Hq. now apply in_map. }
    destruct C3 as [C3 C4].
    destruct (q_islist s1) eqn:Ei; [discriminate (C0 eq_refl)|]. injection Hs as <- <-; unfold fresh_puts; cbn [q_wait q_res p_away q_islist].
    split; [|discriminate]. split.
      * erewrite map_ext; [exact C3|]. intro x. apply op_put_fut.
      * intros x c Hx Hc [Hq|Hq]; unfold chunk_of in Hc; cbn [q_tasks] in Hc; rewrite op_put_fut in Hc.
        -- subst c. now apply (C4 x).
        -- apply (C2 x c); [now right|exact Hc|exact Hq].
  - destruct (nth_error (q_tasks s) t) as [k|] eqn:Ek; [|discriminate]. destruct (resume_result k); [|discriminate]. injection Hs as <- <-.
    assert (Hop : forall x r, option_map k_op (nth_error (upd (q_tasks s) t (set_st k (TOver r))) x) = chunk_of s x).
    { intros x r. unfold chunk_of. rewrite nth_upd. destruct (Nat.eqb_spec x t) as [->|Hx]; [|reflexivity]. assert (Hl : t < length (q_tasks s)) by (apply nth_error_Some; congruence).
      apply Nat.ltb_lt in Hl. rewrite Hl, Ek. reflexivity. }
    unfold fresh_puts, with_tasks; cbn [q_wait q_res q_islist]. split; [|exact F3]. split.
    + erewrite map_ext; [exact F1|]. intro x. apply Hop.
    + intros x c Hx Hc. unfold chunk_of in Hc; cbn [q_tasks] in Hc. rewrite Hop in Hc. now apply (F2 x).
Qed.

(** The same for puts, provided that no chunk is put twice at once.  Missing: that
    proviso (see C64_put_twice_refuted). *)
Theorem C64_put_served_partial : forall n ls s log, arun cb_put env_put (put_start n) ls = Some (s, log) ->
  (fresh_puts s -> forall ls' s', own cb_put env_put p_readable s ls' s' -> length ls' <= 4 * length (q_tasks s) + 1) /\
  (at_rest cb_put env_put p_readable s ->
     (0 < p_space (q_res s) \/ p_stopped (q_res s) = true -> Forall over (q_tasks s)) /\
     (forall t k, nth_error (q_tasks s) t = Some k -> ~ over k -> In t (q_wait s) /\ q_listen s = true)).
Proof.
  intros n ls s log H. pose proof (put_inv _ _ _ _ H) as Hi. split.
  - intros Hf ls' s' Ho. etransitivity; [|apply qwork_le].
    apply (own_bound cb_put env_put st_put p_readable put_stop_st put_st_stop put_st_cb put_st_env)
      with (G := fun s => fresh_puts s /\ (q_islist s = true -> q_wait s = [])) (s' := s') (h := ls) (log := log); auto.
    + intros r o Hr. unfold p_readable in Hr. unfold cb_put. destruct (existsb _ _); [discriminate|]. destruct (p_stopped r); [discriminate|].
      destruct (p_space r); [discriminate Hr|discriminate].
    + intros s0 [[_ F] _] t k Ht Ek. unfold cb_put. destruct (existsb (Z.eqb (k_op k)) (p_away (q_res s0))) eqn:Ex.
      * exfalso. apply existsb_in in Ex. apply (F t (k_op k) Ht); [unfold chunk_of; now rewrite Ek|exact Ex].
      * destruct (p_stopped _); [discriminate|]. destruct (p_space _); discriminate.
    + exact fresh_step.
    + split; [exact Hf|]. intro G. apply (i_list _ _ _ _ _ Hi G).
  - intro Hr. destruct (rest_listen _ _ _ _ _ _ _ Hi Hr) as [H1 H2]. split; [|exact H2]. intro Hx. apply H1. unfold p_readable.
    destruct Hx as [Hx| ->]; [|apply orb_true_r]. destruct (p_space (q_res s)); [lia|reflexivity].
Qed.
Print Assumptions C64_put_served_partial.

(** ** What does not hold *)
(** "A get that is cancelled takes no heap": one cancelled after its heap was
    taken, whether by the quick path or by the callback, drops it. *)
Theorem C64_get_cancel_refuted :
  (exists ls s log, arun cb_get env_get get_start ls = Some (s, log) /\ pushed ls = [7%Z] /\
    In (EDo 0 7) log /\ In (EEnd 0 RCancelled) log /\ Forall over (q_tasks s) /\ g_items (q_res s) = [] /\ (forall t, ~ In (EEnd t (RVal 7)) log)
    /\ ls = [AEnv (GPush 7%Z); ACall tt; ACancel 0; AResume 0]) /\
  (exists ls s log, arun cb_get env_get get_start ls = Some (s, log) /\ pushed ls = [7%Z] /\
    In (EDo 0 7) log /\ In (EEnd 0 RCancelled) log /\ Forall over (q_tasks s) /\ g_items (q_res s) = [] /\ (forall t, ~ In (EEnd t (RVal 7)) log)
    /\ ls = [ACall tt; AEnv (GPush 7%Z); AReady; ACancel 0; AResume 0]).
Proof.
  split; do 3 eexists; (split; [shelve|]); (split; [shelve|]); (split; [shelve|]); (split; [shelve|]); (split; [shelve|]); (split; [shelve|]); (split; [shelve|]); reflexivity.
  Unshelve. all: try (vm_compute; reflexivity).
  all: cbn; try tauto.
  all: try (repeat constructor; now exists RCancelled).
  all: intros t [G|[G|[]]]; discriminate.
Qed.
Print Assumptions C64_get_cancel_refuted.

(** "When the ring stops, the callback raises nothing": with a cancelled get that
    is not the first in the queue, InvalidStateError gets out; the remaining gets
    are ended by the next call. *)
Theorem C64_stop_escape_refuted : exists s log, 
  arun cb_get env_get get_start [ACall tt; ACall tt; ACall tt; ACancel 1; AEnv GStop; AReady] = Some (s, log) /\
  In EEscape log /\ q_wait s = [0; 1; 2] /\
  exists s' log', arun cb_get env_get s [AReady; AResume 0; AResume 1; AResume 2] = Some (s', log') /\
    log' = [EEnd 0 RStopped; EEnd 1 RCancelled; EEnd 2 RStopped].
Proof. do 2 eexists. split; [vm_compute; reflexivity|]. split; [now left|]. split; [reflexivity|]. do 2 eexists. split; vm_compute; reflexivity. Qed.
Print Assumptions C64_stop_escape_refuted.

(** "A put is done once there is room": if a chunk is put twice at once, then once
    the second of these puts is at the head of the queue, no put is ever done
    again, with room in the ring, unless that put is cancelled or its chunk comes
    back; and the callback is called for ever. *)
Definition stuck (s : sq putres Z) : Prop :=
  exists ws k, q_wait s = 2 :: ws /\ nth_error (q_tasks s) 2 = Some k /\ k_op k = 5%Z /\ k_st k = TWait /\ k_fut k = FPend /\ q_listen s = true /\
    In 5%Z (p_away (q_res s)).
Lemma stuck_clear s : stuck s -> clear_done s = Some s.
Proof.
  intros (ws & k & Hw & Hk & _ & _ & Hf & Hl & _). unfold clear_done. rewrite Hw. cbn [drop_done]. unfold is_done. rewrite Hk, Hf. cbn [fdone nonempty]. rewrite andb_false_r, andb_true_r.
  rewrite <- Hw. destruct s; reflexivity.
Qed.
Lemma stuck_step s l s' e : stuck s -> astep cb_put env_put s l = Some (s', e) -> l <> ACancel 2 -> l <> AEnv (PBack 5%Z) ->
  stuck s' /\ (forall t v, ~ In (EDo t v) e) /\ astep cb_put env_put s AReady = Some (s, [EEscape]).
Proof.
  intros Hst Hs H1 H2. pose proof (stuck_clear s Hst) as Hc. destruct Hst as (ws & k & Hw & Hk & Ho & Hst & Hf & Hl & Ha).
  assert (Hr : ready cb_put s = (s, [EEscape])).
  { unfold ready. rewrite Hc, Hw, Hk, Ho. unfold cb_put. rewrite (proj2 (existsb_in 5%Z _) Ha). rewrite <- Hw. destruct s; reflexivity. }
  assert (Hst' : stuck s) by (exists ws, k; auto 10).
  assert (Hrd : astep cb_put env_put s AReady = Some (s, [EEscape])) by (cbn [astep]; now rewrite Hl, Hr).
  destruct l as [o| |t|t|x].
  - cbn [astep] in Hs. injection Hs as Hs. unfold call in Hs. rewrite Hc, Hw in Hs. injection Hs as <- <-. split; [|split; [intros t v []|exact Hrd]].
    exists (ws ++ [length (q_tasks s)]), k. unfold enqueue; cbn [q_wait q_tasks q_listen q_res]. rewrite Hw. cbn [app]. repeat split; auto. rewrite nth_error_app1; [exact Hk|]. apply nth_error_Some. congruence.
  - rewrite Hrd in Hs. injection Hs as <- <-. split; [exact Hst'|]. split; [|exact Hrd]. intros t v [G|[]]. discriminate.
  - cbn [astep] in Hs. destruct (nth_error (q_tasks s) t) as [k'|] eqn:Ek; [|discriminate]. destruct (resume_result k') as [r|] eqn:Er; [|discriminate]. injection Hs as <- <-.
    split; [|split; [intros x v [G|[]]; discriminate|exact Hrd]]. assert (t <> 2) by (intros ->; assert (k' = k) by congruence; subst k'; unfold resume_result in Er; rewrite Hst, Hf in Er; discriminate).
    exists ws, k. unfold with_tasks; cbn [q_wait q_tasks q_listen q_res]. rewrite upd_other by congruence. auto 10.
  - cbn [astep] in Hs. destruct (nth_error (q_tasks s) t) as [k'|] eqn:Ek; [|discriminate]. injection Hs as <- <-. split; [|split; [intros x v []|exact Hrd]].
    assert (t <> 2) by congruence. exists ws, k. unfold with_tasks; cbn [q_wait q_tasks q_listen q_res]. rewrite upd_other by congruence. auto 10.
  - cbn [astep] in Hs. injection Hs as <- <-. split; [|split; [intros y v []|exact Hrd]]. exists ws, k. unfold with_res; cbn [q_wait q_tasks q_listen q_res]. repeat split; auto.
    destruct x as [|c|]; cbn [env_put p_away]; auto. apply filter_In. split; [exact Ha|]. apply negb_true_iff. apply Z.eqb_neq. intros <-. now apply H2.
Qed.
Theorem C64_put_twice_refuted : exists ls s log, arun cb_put env_put (put_start 1) ls = Some (s, log) /\
  ls = [ACall 9%Z; ACall 5%Z; ACall 5%Z; ACall 6%Z; AEnv PFree; AReady; AEnv PFree] /\
  p_space (q_res s) = 1 /\ chunk_of s 3 = Some 6%Z /\ In 3 (q_wait s) /\
  forall ls' s' log', arun cb_put env_put s ls' = Some (s', log') -> (forall l, In l ls' -> l <> ACancel 2 /\ l <> AEnv (PBack 5%Z)) ->
    (forall t v, ~ In (EDo t v) log') /\ astep cb_put env_put s' AReady = Some (s', [EEscape]).
Proof.
  exists [ACall 9%Z; ACall 5%Z; ACall 5%Z; ACall 6%Z; AEnv PFree; AReady; AEnv PFree]. do 2 eexists.
  split; [vm_compute; reflexivity|]. split; [reflexivity|]. split; [reflexivity|]. split; [reflexivity|]. split; [now right; left|].
  match goal with |- forall ls' s' log', arun _ _ ?s0 ls' = _ -> _ => assert (Hst : stuck s0) by (do 2 eexists; repeat split; cbn; auto); generalize dependent s0 end.
  intros s Hst ls'. revert s Hst. induction ls' as [|l ls' IH]; intros s Hst s' log' Hr Hl; cbn [arun] in Hr.
  - injection Hr as <- <-. split; [intros t v []|]. destruct (stuck_step s (AEnv PFree) _ _ Hst eq_refl ltac:(discriminate) ltac:(discriminate)) as (_ & _ & G). exact G.
  - destruct (astep cb_put env_put s l) as [[s1 e]|] eqn:Es; [|discriminate]. destruct (arun cb_put env_put s1 ls') as [[s2 es]|] eqn:Er; [|discriminate]. injection Hr as <- <-.
    destruct (Hl l (or_introl eq_refl)) as [L1 L2]. destruct (stuck_step _ _ _ _ Hst Es L1 L2) as (G1 & G2 & _).
    destruct (IH s1 G1 s2 es Er) as [I1 I2]; [intros x Hx; apply Hl; now right|]. split; [|exact I2].
    intros t v Hi. apply in_app_iff in Hi as [Hi|Hi]; [now apply G2 in Hi|now apply I1 in Hi].
Qed.
Print Assumptions C64_put_twice_refuted.

(** ** Examples *)
(** Three gets wait; the second is cancelled; two heaps come and then a stop; a
    fourth get finds the ring stopped. *)
Definition ex_labs : list (alab unit genv) :=
  [ACall tt; ACall tt; ACall tt; ACancel 1; AEnv (GPush 10%Z); AReady; AEnv (GPush 11%Z); AResume 1; AReady; AEnv GStop; AEnv (GPush 12%Z);
   ACall tt; AResume 0; AResume 2].
Example C64_get_example : exists s, arun cb_get env_get get_start ex_labs =
  Some (s, [EDo 0 10; EEnd 1 RCancelled; EDo 2 11; EEnd 3 RStopped; EEnd 0 (RVal 10); EEnd 2 (RVal 11)]) /\
  pushed ex_labs = [10; 11]%Z /\ at_rest cb_get env_get g_readable s /\ g_stopped (q_res s) = true.
Proof.
  eexists. split; [vm_compute; reflexivity|]. split; [reflexivity|]. split; [|reflexivity]. split; [|reflexivity].
  intros [|[|[|[|[|t]]]]]; reflexivity.
Qed.
(** A put that waits for room, then is done; the loop's own steps. *)
Example C64_put_example : exists s log s', arun cb_put env_put (put_start 1) [ACall 1%Z; AResume 0; ACall 2%Z; ACall 3%Z; AEnv PFree] = Some (s, log) /\
  log = [EDo 0 1; EEnd 0 (RVal 1)] /\ fresh_puts s /\ own cb_put env_put p_readable s [AReady; AResume 1] s' /\ at_rest cb_put env_put p_readable s' /\ In 2 (q_wait s').
Proof.
  do 3 eexists. split; [vm_compute; reflexivity|]. split; [reflexivity|]. split; [|split; [|split]].
  - split; [repeat constructor; cbn; intuition congruence|]. intros t c [<-|[<-|[]]] [= <-]; cbn; intuition congruence.
  - eapply own_ready; [reflexivity|vm_compute; reflexivity|]. eapply own_resume; [vm_compute; reflexivity|]. constructor.
  - split; [|discriminate]. intros [|[|[|t]]]; try reflexivity. cbn. now destruct t.
  - now left.
Qed.
