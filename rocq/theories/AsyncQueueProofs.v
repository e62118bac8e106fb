(** Invariants of the asynchronous queue (AsyncQueueModel.v). *)
From Coq Require Import ZArith List Lia Bool Sorted.
From Verif Require Import ConcBase AsyncQueueModel.
Import ListNotations.

Definition dos (l : list aev) : list nat := flat_map (fun e => match e with EDo t _ => [t] | _ => [] end) l.
Definition ends (l : list aev) : list nat := flat_map (fun e => match e with EEnd t _ => [t] | _ => [] end) l.
Lemma dos_app l l' : dos (l ++ l') = dos l ++ dos l'. Proof. apply flat_map_app. Qed.
Lemma ends_app l l' : ends (l ++ l') = ends l ++ ends l'. Proof. apply flat_map_app. Qed.
Lemma in_dos l t : In t (dos l) <-> exists v, In (EDo t v) l.
Proof.
  unfold dos. rewrite in_flat_map. split.
  - intros ([t' v| |] & H & H'); cbn in H'; try tauto. destruct H' as [->|[]]. now exists v.
  - intros [v H]. exists (EDo t v). split; [exact H|now left].
Qed.
Lemma in_ends l t : In t (ends l) <-> exists r, In (EEnd t r) l.
Proof.
  unfold ends. rewrite in_flat_map. split.
  - intros ([|t' v|] & H & H'); cbn in H'; try tauto. destruct H' as [->|[]]. now exists v.
  - intros [v H]. exists (EEnd t v). split; [exact H|now left].
Qed.

Lemma sorted_snoc l x : StronglySorted lt l -> (forall y, In y l -> y < x) -> StronglySorted lt (l ++ [x]).
Proof.
  induction 1 as [|a l H IH F]; intro Hx; cbn [app]; constructor.
  - constructor. - constructor.
  - apply IH. intros y Hy. apply Hx. now right.
  - apply Forall_app. split; [exact F|]. constructor; [|constructor]. apply Hx. now left.
Qed.

Section Proofs.
Context {R op E : Type} (cb : R -> op -> R * out) (envf : E -> R -> R) (st : R -> bool).
Hypothesis stop_st : forall r o, snd (cb r o) = Stop -> st r = true.
Hypothesis st_stop : forall r o, st r = true -> snd (cb r o) = Stop \/ snd (cb r o) = Bad.
Hypothesis st_cb : forall r o, st r = true -> st (fst (cb r o)) = true.
Hypothesis st_env : forall e r, st r = true -> st (envf e r) = true.

Notation sq := (sq R op). Notation task := (task op). Notation alab := (alab op E).

(** What is known of one task: [D] values its operation had, [N] its ends, [W]
    in the deque, [S] the resource is stopped, [C] it was cancelled, [X] some
    task was cancelled or a callback raised. *)
Definition tok (D : Z -> Prop) (N : aresult -> Prop) (W S C X : Prop) (k : task) : Prop :=
  (k_kill k = true -> C) /\
  match k_st k with
  | TSleep v => k_fut k = FPend /\ ~ W /\ D v /\ (forall r, ~ N r)
  | TWait => (forall r, ~ N r) /\
    match k_fut k with
    | FPend => W /\ (forall v, ~ D v)
    | FVal v => ~ W /\ D v
    | FStop => S /\ (forall v, ~ D v) /\ (W -> X)
    | FCancelled => C /\ (forall v, ~ D v)
    end
  | TOver r => N r /\ (W -> (k_fut k = FCancelled /\ C \/ k_fut k = FStop /\ X)) /\
    match r with
    | RVal v => D v
    | RStopped => S /\ (forall v, ~ D v)
    | RCancelled => C
    | RError => forall v, ~ D v
    end
  end.

Lemma tok_mono (D D' : Z -> Prop) (N N' : aresult -> Prop) (W W' S S' C C' X X' : Prop) k :
  tok D N W S C X k -> (forall v, D v <-> D' v) -> (forall r, N r <-> N' r) ->
  (W' -> W) -> (W -> fdone (k_fut k) = false -> W') -> (S -> S') -> (C -> C') -> (X -> X') -> tok D' N' W' S' C' X' k.
Proof.
  unfold tok. intros [H1 H2] HD HN HW HW' HS HC HX. split; [tauto|].
  destruct (k_st k) as [v| |r].
  - destruct H2 as (A & B & C0 & F). repeat split; try tauto; [now apply HD|]. intros r Hr. apply (F r). now apply HN.
  - destruct H2 as [F H2]. split; [intros r Hr; apply (F r); now apply HN|].
    destruct (k_fut k) as [|v| |]; cbn [fdone] in HW'.
    + destruct H2 as [A B]. split; [auto|]. intros v Hv. apply (B v). now apply HD.
    + destruct H2 as [A B]. split; [tauto|]. now apply HD.
    + destruct H2 as (A & B & G). repeat split; [tauto| |tauto]. intros v Hv. apply (B v). now apply HD.
    + destruct H2 as [A B]. split; [tauto|]. intros v Hv. apply (B v). now apply HD.
  - destruct H2 as (A & B & G). split; [now apply HN|]. split; [tauto|].
    destruct r; try tauto; [now apply HD| |].
    + destruct G as [G1 G2]. split; [tauto|]. intros v Hv. apply (G2 v). now apply HD.
    + intros v Hv. apply (G v). now apply HD.
Qed.

Definition escaped (l : list aev) : Prop := In EEscape l.
Definition cancelled (ls : list alab) : Prop := exists t, In (ACancel t) ls.

Record sinv (ls : list alab) (s : sq) (log : list aev) : Prop := {
  i_task : forall t k, nth_error (q_tasks s) t = Some k ->
    tok (fun v => In (EDo t v) log) (fun r => In (EEnd t r) log) (In t (q_wait s)) (st (q_res s) = true) (In (ACancel t) ls) (cancelled ls) k;
  i_sort : StronglySorted lt (q_wait s);
  i_range : forall t, In t (q_wait s) -> t < length (q_tasks s);
  i_dos : StronglySorted lt (dos log);
  i_dosr : forall t, In t (dos log) -> t < length (q_tasks s);
  i_before : forall t t', In t (dos log) -> In t' (q_wait s) -> t < t';
  i_listen : q_wait s <> [] -> q_listen s = true;
  i_list : q_islist s = true -> q_wait s = [] /\ st (q_res s) = true;
  i_ends : NoDup (ends log);
  i_endsr : forall t, In t (ends log) -> t < length (q_tasks s);
  i_esc : (forall r o, snd (cb r o) <> Bad) -> In EEscape log -> cancelled ls;
  i_err : (forall r o, snd (cb r o) <> Bad) -> forall t, ~ In (EEnd t RError) log
}.

Lemma sinv_init r : sinv [] (sq_init r) [].
Proof.
  constructor; cbn; try tauto; try discriminate; try (now constructor).
  intros [|t] k H; discriminate.
Qed.

(** ** Clearing *)
Lemma drop_done_suffix (ts : list task) ws : exists pre, ws = pre ++ drop_done ts ws /\ forall t, In t pre -> is_done ts t = true.
Proof.
  induction ws as [|t ws IH]; cbn [drop_done]; [exists []; split; [reflexivity|intros ? []]|].
  destruct (is_done ts t) eqn:Ed; [|exists []; split; [reflexivity|intros ? []]].
  destruct IH as (pre & H1 & H2). exists (t :: pre). cbn [app]. split; [now rewrite <- H1|]. intros x [->|Hx]; auto.
Qed.
Lemma drop_done_head (ts : list task) ws t l : drop_done ts ws = t :: l -> is_done ts t = false.
Proof. induction ws as [|x ws IH]; cbn [drop_done]; [discriminate|]. destruct (is_done ts x) eqn:Ed; [auto|]. intros [= -> _]. exact Ed. Qed.
Lemma sorted_suffix pre (l : list nat) : StronglySorted lt (pre ++ l) -> StronglySorted lt l.
Proof. induction pre as [|x pre IH]; cbn [app]; auto. intro H. inversion H; auto. Qed.

Lemma sinv_clear ls s log : sinv ls s log ->
  exists s1, clear_done s = Some s1 /\ sinv ls s1 log /\ q_res s1 = q_res s /\ q_tasks s1 = q_tasks s /\ q_islist s1 = q_islist s /\
    (q_wait s1 = [] -> q_listen s1 = false) /\ (q_listen s1 = true -> q_listen s = true) /\
    (forall t l, q_wait s1 = t :: l -> is_done (q_tasks s1) t = false).
Proof.
  intro H. unfold clear_done.
  assert (Hn : q_islist s && match q_wait s with t :: _ => is_done (q_tasks s) t | [] => false end = false).
  { destruct (q_islist s) eqn:Ei; [|reflexivity]. destruct (i_list _ _ _ H Ei) as [-> _]. reflexivity. }
  rewrite Hn. eexists. split; [reflexivity|]. cbn [q_res q_wait q_islist q_listen q_tasks].
  destruct (drop_done_suffix (q_tasks s) (q_wait s)) as (pre & H1 & H2).
  assert (Hin : forall t, In t (drop_done (q_tasks s) (q_wait s)) -> In t (q_wait s)) by (intros t Ht; rewrite H1; apply in_app_iff; now right).
  split; [|split; [reflexivity|split; [reflexivity|split; [reflexivity|split; [|split]]]]].
  - constructor; cbn [q_res q_wait q_islist q_listen q_tasks]; try (now destruct H).
    + intros t k Hk. apply (tok_mono _ _ _ _ _ _ _ _ _ _ _ _ _ (i_task _ _ _ H t k Hk)); try tauto; [apply Hin|].
      intros Hw Hd. rewrite H1 in Hw. apply in_app_iff in Hw as [Hw|Hw]; [|exact Hw].
      apply H2 in Hw. unfold is_done in Hw. rewrite Hk in Hw. congruence.
    + apply (sorted_suffix pre). rewrite <- H1. now destruct H.
    + intros t Ht. apply (i_range _ _ _ H); auto.
    + intros t t' Ht Ht'. apply (i_before _ _ _ H); auto.
    + intro Hne. destruct (drop_done (q_tasks s) (q_wait s)) as [|x l] eqn:Ed; [congruence|]. cbn [nonempty]. rewrite andb_true_r.
      apply (i_listen _ _ _ H). intro E0. rewrite E0 in Ed. discriminate.
    + intro Hi. destruct (i_list _ _ _ H Hi) as [E0 Es]. rewrite E0. auto.
  - intros ->. cbn [nonempty]. now rewrite andb_false_r.
  - intro Hl. now apply andb_true_iff in Hl.
  - intros t l Hl. now apply drop_done_head in Hl.
Qed.

(** ** One event added for a task *)
Lemma in_snoc {A} (l : list A) x y : In y (l ++ [x]) <-> In y l \/ y = x.
Proof. rewrite in_app_iff. cbn. intuition. Qed.

Lemma task_lt (s : sq) t k : nth_error (q_tasks s) t = Some k -> t < length (q_tasks s).
Proof. intro H. apply nth_error_Some. congruence. Qed.

Lemma nth_snoc {A} (l : list A) x t y : nth_error (l ++ [x]) t = Some y -> nth_error l t = Some y \/ (t = length l /\ y = x).
Proof.
  intro H. destruct (Nat.lt_ge_cases t (length l)) as [Hl|Hl]; [left; now rewrite nth_error_app1 in H|].
  rewrite nth_error_app2 in H by exact Hl. right. destruct (t - length l) as [|n] eqn:En; cbn [nth_error] in H; [|destruct n; discriminate].
  split; [lia|congruence].
Qed.

(** The state after a task is appended (not queued). *)
Lemma sinv_add ls s log r o x e (l : alab) :
  sinv ls s log -> (st (q_res s) = true -> st r = true) -> q_wait s = [] ->
  (match x with
   | TSleep v => e = [EDo (length (q_tasks s)) v]
   | TOver RStopped => e = [EEnd (length (q_tasks s)) RStopped] /\ st r = true
   | TOver RError => e = [EEnd (length (q_tasks s)) RError] /\ exists r' o', snd (cb r' o') = Bad
   | _ => False end) ->
  sinv (ls ++ [l]) (add_task s r o x) (log ++ e).
Proof.
  intros H Hst Hw He.
  assert (Hls : cancelled ls -> cancelled (ls ++ [l])) by (intros [t Ht]; exists t; apply in_snoc; now left).
  assert (Hnd : forall v, ~ In (EDo (length (q_tasks s)) v) log).
  { intros v Hv. assert (Hi : In (length (q_tasks s)) (dos log)) by (apply in_dos; eauto). apply (i_dosr _ _ _ H) in Hi. lia. }
  assert (Hne : forall v, ~ In (EEnd (length (q_tasks s)) v) log).
  { intros v Hv. assert (Hi : In (length (q_tasks s)) (ends log)) by (apply in_ends; eauto). apply (i_endsr _ _ _ H) in Hi. lia. }
  assert (Heo : forall t, t < length (q_tasks s) -> (forall v, ~ In (EDo t v) e) /\ (forall v, ~ In (EEnd t v) e)).
  { intros t Ht. destruct x as [v| |[v| | |]]; try tauto; [subst e|destruct He as [-> _]|destruct He as [-> _]]; cbn; split; intros v' [He|[]]; try discriminate; injection He; intros; lia. }
  constructor; unfold add_task; cbn [q_res q_wait q_islist q_listen q_tasks].
  - intros t k Hk. apply nth_snoc in Hk as [Hk|[-> ->]].
    + destruct (Heo t (task_lt s t k Hk)) as [G1 G2].
      apply (tok_mono _ _ _ _ _ _ _ _ _ _ _ _ _ (i_task _ _ _ H t k Hk)); try tauto.
      * intro v. rewrite in_app_iff. specialize (G1 v). tauto.
      * intro v. rewrite in_app_iff. specialize (G2 v). tauto.
      * intro Hc. apply in_snoc. now left.
    + unfold tok, new_task; cbn [k_kill k_st k_fut]. split; [discriminate|]. rewrite Hw.
      destruct x as [v| |[v| | |]]; try tauto.
      * subst e. repeat split; [intros []|apply in_snoc; now right|]. intros r0 Hr. apply in_snoc in Hr as [Hr|Hr]; [now apply Hne in Hr|discriminate].
      * destruct He as [-> Hs]. repeat split; [apply in_snoc; now right|intros []|exact Hs|]. intros v Hv. apply in_snoc in Hv as [Hv|Hv]; [now apply Hnd in Hv|discriminate].
      * destruct He as [-> _]. repeat split; [apply in_snoc; now right|intros []|]. intros v Hv. apply in_snoc in Hv as [Hv|Hv]; [now apply Hnd in Hv|discriminate].
  - now destruct H.
  - intros t Ht. rewrite app_length. cbn. specialize (i_range _ _ _ H t Ht). lia.
  - rewrite dos_app. destruct x as [v| |[v| | |]]; try tauto; [subst e|destruct He as [-> _]|destruct He as [-> _]]; cbn [dos flat_map app]; rewrite ?app_nil_r; try (now destruct H).
    apply sorted_snoc; [now destruct H|]. apply (i_dosr _ _ _ H).
  - intros t Ht. rewrite dos_app, in_app_iff in Ht. rewrite app_length. cbn. destruct Ht as [Ht|Ht]; [apply (i_dosr _ _ _ H) in Ht; lia|].
    destruct x as [v| |[v| | |]]; try tauto; [subst e|destruct He as [-> _]|destruct He as [-> _]]; cbn in Ht; try tauto. destruct Ht as [<-|[]]. lia.
  - rewrite Hw. intros t t' _ [].
  - now destruct H.
  - intro Hi. destruct (i_list _ _ _ H Hi) as [G1 G2]. auto.
  - rewrite ends_app. assert (Hnin : ~ In (length (q_tasks s)) (ends log)) by (rewrite in_ends; intros [v Hv]; now apply Hne in Hv).
    destruct x as [v| |[v| | |]]; try tauto; [subst e|destruct He as [-> _]|destruct He as [-> _]]; cbn [ends flat_map app]; rewrite ?app_nil_r; try (now destruct H);
      apply (NoDup_Add (Add_app (length (q_tasks s)) (ends log) [])); rewrite app_nil_r; (split; [now destruct H|exact Hnin]).
  - intros t Ht. rewrite ends_app, in_app_iff in Ht. rewrite app_length. cbn. destruct Ht as [Ht|Ht]; [apply (i_endsr _ _ _ H) in Ht; lia|].
    destruct x as [v| |[v| | |]]; try tauto; [subst e|destruct He as [-> _]|destruct He as [-> _]]; cbn in Ht; try tauto; destruct Ht as [<-|[]]; lia.
  - intros Hb Hi. apply Hls. apply (i_esc _ _ _ H Hb). apply in_app_iff in Hi as [Hi|Hi]; [exact Hi|].
    destruct x as [v| |[v| | |]]; try tauto; [subst e|destruct He as [-> _]|destruct He as [-> _]]; destruct Hi as [Hi|[]]; discriminate.
  - intros Hb t Hi. apply in_app_iff in Hi as [Hi|Hi]; [now apply (i_err _ _ _ H Hb) in Hi|].
    destruct x as [v| |[v| | |]]; try tauto; [subst e|destruct He as [-> _]|destruct He as [-> (r' & o' & Hbad)]]; try (destruct Hi as [Hi|[]]; discriminate).
    now apply Hb in Hbad.
Qed.

Lemma sinv_enqueue ls s log r o (l : alab) :
  sinv ls s log -> (st (q_res s) = true -> st r = true) -> (q_islist s = true -> False) ->
  sinv (ls ++ [l]) (enqueue s r o) (log ++ []).
Proof.
  intros H Hst Hil. rewrite app_nil_r.
  assert (Hls : cancelled ls -> cancelled (ls ++ [l])) by (intros [t Ht]; exists t; apply in_snoc; now left).
  assert (Hnd : forall v, ~ In (EDo (length (q_tasks s)) v) log).
  { intros v Hv. assert (Hi : In (length (q_tasks s)) (dos log)) by (apply in_dos; eauto). apply (i_dosr _ _ _ H) in Hi. lia. }
  assert (Hne : forall v, ~ In (EEnd (length (q_tasks s)) v) log).
  { intros v Hv. assert (Hi : In (length (q_tasks s)) (ends log)) by (apply in_ends; eauto). apply (i_endsr _ _ _ H) in Hi. lia. }
  constructor; unfold enqueue; cbn [q_res q_wait q_islist q_listen q_tasks]; try (now destruct H).
  - intros t k Hk. apply nth_snoc in Hk as [Hk|[-> ->]].
    + apply (tok_mono _ _ _ _ _ _ _ _ _ _ _ _ _ (i_task _ _ _ H t k Hk)); try tauto; rewrite ?in_snoc; try tauto.
      intros [Ht|Ht]; [exact Ht|]. apply task_lt in Hk. lia.
    + unfold tok, new_task; cbn [k_kill k_st k_fut]. split; [discriminate|]. repeat split; [exact Hne|apply in_snoc; now right|exact Hnd].
  - apply sorted_snoc; [now destruct H|apply (i_range _ _ _ H)].
  - intros t Ht. rewrite app_length. cbn. apply in_snoc in Ht as [Ht| ->]; [specialize (i_range _ _ _ H t Ht)|]; lia.
  - intros t Ht. rewrite app_length. cbn. specialize (i_dosr _ _ _ H t Ht). lia.
  - intros t t' Ht Ht'. apply in_snoc in Ht' as [Ht'| ->]; [now apply (i_before _ _ _ H)|now apply (i_dosr _ _ _ H)].
  - intros t Ht. rewrite app_length. cbn. specialize (i_endsr _ _ _ H t Ht). lia.
  - intros Hb Hi. apply Hls. now apply (i_esc _ _ _ H Hb).
Qed.

(** ** Setting futures *)
Lemma put_fut_length (ts : list task) t f : length (put_fut ts t f) = length ts.
Proof. unfold put_fut. destruct (nth_error ts t); [apply upd_length|reflexivity]. Qed.
Lemma nth_put_fut (ts : list task) t f n k : nth_error (put_fut ts t f) n = Some k ->
  (n <> t /\ nth_error ts n = Some k) \/ (n = t /\ exists k0, nth_error ts t = Some k0 /\ k = set_fut k0 f).
Proof.
  unfold put_fut. destruct (nth_error ts t) as [k0|] eqn:E0; intro H.
  - rewrite nth_upd in H. destruct (Nat.eqb_spec n t) as [->|Hn]; [|left; auto]. right. split; [reflexivity|].
    destruct (t <? length ts); [|discriminate]. exists k0. split; [reflexivity|congruence].
  - left. split; [|exact H]. intros ->. congruence.
Qed.

(** The loop over the waiters: a prefix of the waiters, each pending, gets the exception. *)
Lemma stop_all_spec (ts : list task) ws : StronglySorted lt ws ->
  let (ts', ok) := stop_all ts ws in
  length ts' = length ts /\
  exists pre suf, ws = pre ++ suf /\ (ok = true -> suf = []) /\
    (ok = false -> exists t suf', suf = t :: suf' /\ is_done ts t = true) /\
    (forall t, In t pre -> is_done ts t = false) /\
    (forall t k, nth_error ts' t = Some k ->
      (~ In t pre /\ nth_error ts t = Some k) \/ (In t pre /\ exists k0, nth_error ts t = Some k0 /\ k = set_fut k0 FStop)).
Proof.
  revert ts. induction ws as [|t ws IH]; intros ts Hs; cbn [stop_all].
  - split; [reflexivity|]. exists [], []. split; [reflexivity|]. split; [reflexivity|]. split; [discriminate|]. split; [intros ? []|]. intros t k Hk. left. split; [intros []|exact Hk].
  - inversion Hs as [|? ? Hs' Hf]; subst. destruct (is_done ts t) eqn:Ed.
    + split; [reflexivity|]. exists [], (t :: ws). split; [reflexivity|]. split; [discriminate|]. split; [intros _; now exists t, ws|]. split; [intros ? []|].
      intros t' k Hk. left. split; [intros []|exact Hk].
    + specialize (IH (put_fut ts t FStop) Hs'). destruct (stop_all (put_fut ts t FStop) ws) as [ts' ok].
      destruct IH as (IL & pre & suf & I1 & I2 & I3 & I4 & I5). split; [now rewrite IL, put_fut_length|].
      assert (Hdn : forall x, x <> t -> is_done (put_fut ts t FStop) x = is_done ts x).
      { intros x Hx. unfold is_done, put_fut. destruct (nth_error ts t) as [k0|]; [|reflexivity]. now rewrite upd_other. }
      assert (Hlt : forall x, In x ws -> t < x) by (rewrite Forall_forall in Hf; exact Hf).
      exists (t :: pre), suf. cbn [app]. rewrite I1. split; [reflexivity|]. split; [exact I2|]. split; [|split].
      * intro Hok. destruct (I3 Hok) as (x & suf' & G1 & G2). exists x, suf'. split; [exact G1|]. rewrite <- Hdn; [exact G2|].
        assert (t < x) by (apply Hlt; rewrite I1, G1; apply in_app_iff; right; now left). lia.
      * intros x [<-|Hx]; [exact Ed|]. rewrite <- Hdn; [now apply I4|].
        assert (t < x) by (apply Hlt; rewrite I1; apply in_app_iff; now left). lia.
      * intros x k Hk. destruct (I5 x k Hk) as [[G1 G2]|(G1 & k0 & G2 & ->)].
        -- apply nth_put_fut in G2 as [[G2 G3]|(-> & k0 & G2 & ->)].
           ++ left. split; [|exact G3]. intros [->|Hx]; [congruence|tauto].
           ++ right. split; [now left|]. exists k0. auto.
        -- assert (t < x) by (apply Hlt; rewrite I1; apply in_app_iff; now left).
           apply nth_put_fut in G2 as [[G2 G3]|(-> & k1 & G2 & ->)]; [|lia].
           right. split; [now right|]. exists k0. auto.
Qed.

Lemma set_fut_st (k : task) f : k_st (set_fut k f) = k_st k. Proof. reflexivity. Qed.

Lemma done_wait_cancelled ls s log t : sinv ls s log -> In t (q_wait s) -> is_done (q_tasks s) t = true -> cancelled ls.
Proof.
  intros H Hw Hd. unfold is_done in Hd. assert (Hr := i_range _ _ _ H t Hw). destruct (nth_error (q_tasks s) t) as [k|] eqn:Ek; [|apply nth_error_None in Ek; lia].
  destruct (i_task _ _ _ H t k Ek) as [_ Ht]. destruct (k_st k) as [v| |r].
  - tauto.
  - destruct Ht as [_ Ht]. destruct (k_fut k); [discriminate|tauto|tauto|]. exists t. tauto.
  - destruct Ht as (_ & Ht & _). destruct (Ht Hw) as [[_ Hc]|[_ Hx]]; [now exists t|exact Hx].
Qed.
Lemma pending_wait ls s log t k : sinv ls s log -> In t (q_wait s) -> nth_error (q_tasks s) t = Some k -> fdone (k_fut k) = false ->
  k_st k = TWait /\ k_fut k = FPend /\ (forall v, ~ In (EDo t v) log) /\ (forall r, ~ In (EEnd t r) log).
Proof.
  intros H Hw Ek Hd. destruct (i_task _ _ _ H t k Ek) as [_ Ht]. destruct (k_fut k) eqn:Ef; try discriminate.
  destruct (k_st k) as [v| |r]; [tauto| |].
  - destruct Ht as (H1 & H2 & H3). auto.
  - destruct Ht as (_ & Ht & _). destruct (Ht Hw) as [[G _]|[G _]]; congruence.
Qed.

(** Only the resource, the labels and escapes change. *)
Lemma sinv_same ls s log r (l : alab) e :
  sinv ls s log -> (st (q_res s) = true -> st r = true) -> (e = [] \/ e = [EEscape] /\ ((exists r o, snd (cb r o) = Bad) \/ cancelled ls)) ->
  sinv (ls ++ [l]) (with_res s r) (log ++ e).
Proof.
  intros H Hst He.
  assert (Hls : cancelled ls -> cancelled (ls ++ [l])) by (intros [t Ht]; exists t; apply in_snoc; now left).
  assert (Hd : dos (log ++ e) = dos log) by (rewrite dos_app; destruct He as [->|[-> _]]; apply app_nil_r).
  assert (Hn : ends (log ++ e) = ends log) by (rewrite ends_app; destruct He as [->|[-> _]]; apply app_nil_r).
  assert (HeD : forall t v, ~ In (EDo t v) e) by (intros t v; destruct He as [->|[-> _]]; [intros []|intros [G|[]]; discriminate]).
  assert (HeN : forall t v, ~ In (EEnd t v) e) by (intros t v; destruct He as [->|[-> _]]; [intros []|intros [G|[]]; discriminate]).
  constructor; unfold with_res; cbn [q_res q_wait q_islist q_listen q_tasks]; rewrite ?Hd, ?Hn; try (now destruct H).
  - intros t k Hk. apply (tok_mono _ _ _ _ _ _ _ _ _ _ _ _ _ (i_task _ _ _ H t k Hk)); try tauto.
    + intro v. rewrite in_app_iff. specialize (HeD t v). tauto.
    + intro v. rewrite in_app_iff. specialize (HeN t v). tauto.
    + intro Hc. apply in_snoc. now left.
  - intro Hi. destruct (i_list _ _ _ H Hi). auto.
  - intros Hb Hi. apply Hls. apply in_app_iff in Hi as [Hi|Hi]; [now apply (i_esc _ _ _ H Hb)|].
    destruct He as [->|[_ [(r0 & o0 & Hbad)|Hc]]]; [destruct Hi|now apply Hb in Hbad|exact Hc].
  - intros Hb t Hi. apply in_app_iff in Hi as [Hi|Hi]; [now apply (i_err _ _ _ H Hb) in Hi|]. now apply HeN in Hi.
Qed.

(** A value is given to the head of the deque. *)
Lemma sinv_give ls s log r t ws v k lis (l : alab) :
  sinv ls s log -> (st (q_res s) = true -> st r = true) -> q_wait s = t :: ws -> nth_error (q_tasks s) t = Some k -> fdone (k_fut k) = false ->
  (ws <> [] -> lis = true) ->
  sinv (ls ++ [l]) {| q_res := r; q_wait := ws; q_islist := false; q_listen := lis; q_tasks := put_fut (q_tasks s) t (FVal v) |} (log ++ [EDo t v]).
Proof.
  intros H Hst Hw Ek Hp Hl.
  assert (Hls : cancelled ls -> cancelled (ls ++ [l])) by (intros [x Ht]; exists x; apply in_snoc; now left).
  assert (Hin : In t (q_wait s)) by (rewrite Hw; now left).
  destruct (pending_wait _ _ _ _ _ H Hin Ek Hp) as (P1 & P2 & P3 & P4).
  assert (Hs : StronglySorted lt (t :: ws)) by (rewrite <- Hw; now destruct H). inversion Hs as [|? ? Hs' Hf]; subst. rewrite Forall_forall in Hf.
  assert (Hnw : ~ In t ws) by (intro Hx; apply Hf in Hx; lia).
  constructor; cbn [q_res q_wait q_islist q_listen q_tasks].
  - intros x k' Hk. apply nth_put_fut in Hk as [[Hx Hk]|(-> & k0 & Hk & ->)].
    + apply (tok_mono _ _ _ _ _ _ _ _ _ _ _ _ _ (i_task _ _ _ H x k' Hk)); try tauto.
      * intro v'. rewrite in_snoc. split; [auto|]. intros [G|G]; [exact G|congruence].
      * intro v'. rewrite in_snoc. split; [auto|]. intros [G|G]; [exact G|congruence].
      * rewrite Hw. now right.
      * rewrite Hw. intros [G|G]; [congruence|auto].
      * intro Hc. apply in_snoc. now left.
    + assert (k0 = k) by congruence; subst k0. destruct (i_task _ _ _ H t k Ek) as [G1 G2]. unfold tok, set_fut; cbn [k_kill k_st k_fut].
      rewrite P1. split; [intro G; apply in_snoc; left; now apply G1|]. repeat split; [|exact Hnw|apply in_snoc; now right].
      intros r0 Hr. apply in_snoc in Hr as [Hr|Hr]; [now apply P4 in Hr|discriminate].
  - exact Hs'.
  - intros x Hx. rewrite put_fut_length. apply (i_range _ _ _ H). rewrite Hw. now right.
  - rewrite dos_app. cbn [dos flat_map app]. apply sorted_snoc; [now destruct H|]. intros y Hy. now apply (i_before _ _ _ H).
  - intros x Hx. rewrite put_fut_length. rewrite dos_app in Hx. apply in_app_iff in Hx as [Hx|[<-|[]]]; [now apply (i_dosr _ _ _ H)|now apply (i_range _ _ _ H)].
  - intros x y Hx Hy. rewrite dos_app in Hx. apply in_app_iff in Hx as [Hx|[<-|[]]]; [|now apply Hf]. apply (i_before _ _ _ H); [exact Hx|]. rewrite Hw. now right.
  - exact Hl.
  - discriminate.
  - rewrite ends_app. cbn [ends flat_map app]. rewrite app_nil_r. now destruct H.
  - rewrite ends_app. cbn [ends flat_map app]. rewrite app_nil_r, put_fut_length. now destruct H.
  - intros Hb Hi. apply Hls. apply in_snoc in Hi as [Hi|Hi]; [|discriminate]. now apply (i_esc _ _ _ H Hb).
  - intros Hb x Hi. apply in_snoc in Hi as [Hi|Hi]; [|discriminate]. now apply (i_err _ _ _ H Hb) in Hi.
Qed.

(** The exception is set on the waiters. *)
Lemma sinv_stop ls s log r ts ok (l : alab) :
  sinv ls s log -> st (q_res s) = true -> st r = true -> stop_all (q_tasks s) (q_wait s) = (ts, ok) ->
  sinv (ls ++ [l]) (if ok then {| q_res := r; q_wait := []; q_islist := true; q_listen := false; q_tasks := ts |}
                    else {| q_res := r; q_wait := q_wait s; q_islist := q_islist s; q_listen := q_listen s; q_tasks := ts |})
       (log ++ if ok then [] else [EEscape]).
Proof.
  intros H Hst Hst' Ea. pose proof (stop_all_spec (q_tasks s) (q_wait s) (i_sort _ _ _ H)) as Hsp. rewrite Ea in Hsp.
  destruct Hsp as (Hlen & pre & suf & Hw & Hok & Hnok & Hpre & Hnth).
  assert (Hls : cancelled ls -> cancelled (ls ++ [l])) by (intros [x Ht]; exists x; apply in_snoc; now left).
  assert (Hcan : ok = false -> cancelled ls).
  { intro Eo. destruct (Hnok Eo) as (x & suf' & -> & Hd). apply (done_wait_cancelled _ _ _ x H); [|exact Hd]. rewrite Hw. apply in_app_iff. right. now left. }
  set (e := if ok then [] else [EEscape]).
  assert (Hd : dos (log ++ e) = dos log) by (rewrite dos_app; unfold e; destruct ok; apply app_nil_r).
  assert (Hn : ends (log ++ e) = ends log) by (rewrite ends_app; unfold e; destruct ok; apply app_nil_r).
  assert (HeD : forall t v, ~ In (EDo t v) e) by (intros t v; unfold e; destruct ok; [intros []|intros [G|[]]; discriminate]).
  assert (HeN : forall t v, ~ In (EEnd t v) e) by (intros t v; unfold e; destruct ok; [intros []|intros [G|[]]; discriminate]).
  assert (Htok : forall t k, nth_error ts t = Some k ->
    tok (fun v => In (EDo t v) (log ++ e)) (fun r => In (EEnd t r) (log ++ e)) (if ok then False else In t (q_wait s)) (st r = true) (In (ACancel t) (ls ++ [l])) (cancelled (ls ++ [l])) k).
  { intros t k Hk. destruct (Hnth t k Hk) as [[G1 G2]|(G1 & k0 & G2 & ->)].
    - apply (tok_mono _ _ _ _ _ _ _ _ _ _ _ _ _ (i_task _ _ _ H t k G2)); try tauto.
      + intro v. rewrite in_app_iff. specialize (HeD t v). tauto.
      + intro v. rewrite in_app_iff. specialize (HeN t v). tauto.
      + destruct ok; tauto.
      + destruct ok; [|tauto]. intros Hx _. rewrite Hw, (Hok eq_refl), app_nil_r in Hx. tauto.
      + intro Hc. apply in_snoc. now left.
    - assert (Hin : In t (q_wait s)) by (rewrite Hw; apply in_app_iff; now left).
      assert (Hp : fdone (k_fut k0) = false) by (specialize (Hpre t G1); unfold is_done in Hpre; now rewrite G2 in Hpre).
      destruct (pending_wait _ _ _ _ _ H Hin G2 Hp) as (P1 & P2 & P3 & P4). destruct (i_task _ _ _ H t k0 G2) as [K1 _].
      unfold tok, set_fut; cbn [k_kill k_st k_fut]. rewrite P1. split; [intro G; apply in_snoc; left; now apply K1|]. repeat split.
      + intros r0 Hr. apply in_app_iff in Hr as [Hr|Hr]; [now apply P4 in Hr|now apply HeN in Hr].
      + exact Hst'.
      + intros v Hv. apply in_app_iff in Hv as [Hv|Hv]; [now apply P3 in Hv|now apply HeD in Hv].
      + destruct ok; [intros []|]. intros _. apply Hls. auto. }
  assert (Hesc : (forall r o, snd (cb r o) <> Bad) -> In EEscape (log ++ e) -> cancelled (ls ++ [l])).
  { intros Hb Hi. apply Hls. apply in_app_iff in Hi as [Hi|Hi]; [now apply (i_esc _ _ _ H Hb)|]. destruct ok; [destruct Hi|auto]. }
  assert (Herr : (forall r o, snd (cb r o) <> Bad) -> forall t, ~ In (EEnd t RError) (log ++ e)).
  { intros Hb x Hi. apply in_app_iff in Hi as [Hi|Hi]; [now apply (i_err _ _ _ H Hb) in Hi|]. now apply HeN in Hi. }
  unfold e in *. destruct ok; constructor; cbn [q_res q_wait q_islist q_listen q_tasks]; rewrite ?Hd, ?Hn, ?Hlen; auto; try (now destruct H); try tauto.
  - constructor.
  - intro Hi. destruct (i_list _ _ _ H Hi). auto.
Qed.

(** A task ends. *)
Lemma sinv_resume ls s log t k r (l : alab) :
  sinv ls s log -> nth_error (q_tasks s) t = Some k -> resume_result k = Some r ->
  sinv (ls ++ [l]) (with_tasks s (upd (q_tasks s) t (set_st k (TOver r)))) (log ++ [EEnd t r]).
Proof.
  intros H Ek Hr.
  assert (Hls : cancelled ls -> cancelled (ls ++ [l])) by (intros [x Ht]; exists x; apply in_snoc; now left).
  assert (Hlt := task_lt s t k Ek).
  assert (Hne : forall r0, ~ In (EEnd t r0) log).
  { destruct (i_task _ _ _ H t k Ek) as [_ Ht]. unfold resume_result in Hr. destruct (k_st k); [tauto|tauto|discriminate]. }
  constructor; unfold with_tasks; cbn [q_res q_wait q_islist q_listen q_tasks]; rewrite ?upd_length, ?dos_app, ?ends_app; cbn [dos ends flat_map app]; rewrite ?app_nil_r; try (now destruct H).
  - intros x k' Hk. rewrite nth_upd in Hk. destruct (Nat.eqb_spec x t) as [->|Hx].
    + destruct (t <? length (q_tasks s)); [|discriminate]. injection Hk as <-.
      destruct (i_task _ _ _ H t k Ek) as [G1 G2]. unfold tok, set_st; cbn [k_kill k_st k_fut].
      assert (HD : forall v, In (EDo t v) (log ++ [EEnd t r]) <-> In (EDo t v) log) by (intro v; rewrite in_snoc; split; [intros [G|G]; [exact G|discriminate]|auto]).
      assert (HC : In (ACancel t) ls -> In (ACancel t) (ls ++ [l])) by (intro; apply in_snoc; now left).
      split; [intro G; auto|]. split; [apply in_snoc; now right|].
      unfold resume_result in Hr. destruct (k_st k) as [v| |r0]; [| |discriminate].
      * destruct G2 as (A1 & A2 & A3 & A4). split; [tauto|]. injection Hr as <-. destruct (k_kill k); [auto|]. now apply HD.
      * destruct G2 as [A1 G2]. destruct (k_fut k) as [|v| |]; [discriminate| | |].
        -- split; [tauto|]. injection Hr as <-. destruct (k_kill k); [auto|]. now apply HD.
        -- split; [intro Hw; right; split; [reflexivity|apply Hls; tauto]|]. injection Hr as <-. destruct (k_kill k); [auto|]. split; [tauto|]. intros v Hv. apply HD in Hv. destruct G2 as (_ & G2 & _). now apply G2 in Hv.
        -- split; [intro Hw; left; split; [reflexivity|apply HC; tauto]|]. injection Hr as <-. apply HC; tauto.
    + apply (tok_mono _ _ _ _ _ _ _ _ _ _ _ _ _ (i_task _ _ _ H x k' Hk)); try tauto.
      * intro v'. rewrite in_snoc. split; [auto|]. intros [G|G]; [exact G|congruence].
      * intro v'. rewrite in_snoc. split; [auto|]. intros [G|G]; [exact G|congruence].
      * intro Hc. apply in_snoc. now left.
  - apply (NoDup_Add (Add_app t (ends log) [])). rewrite app_nil_r. split; [now destruct H|]. rewrite in_ends. intros [r0 G]. now apply Hne in G.
  - intros x Hx. apply in_app_iff in Hx as [Hx|[<-|[]]]; [now apply (i_endsr _ _ _ H)|exact Hlt].
  - intros Hb Hi. apply Hls. apply in_snoc in Hi as [Hi|Hi]; [|discriminate]. now apply (i_esc _ _ _ H Hb).
  - intros Hb x Hi. apply in_snoc in Hi as [Hi|Hi]; [now apply (i_err _ _ _ H Hb) in Hi|]. injection Hi as <- <-.
    unfold resume_result in Hr. destruct (k_st k), (k_fut k), (k_kill k); discriminate.
Qed.

Lemma sinv_cancel ls s log t k :
  sinv ls s log -> nth_error (q_tasks s) t = Some k ->
  sinv (ls ++ [ACancel t]) (with_tasks s (upd (q_tasks s) t (cancel k))) (log ++ []).
Proof.
  intros H Ek. rewrite app_nil_r.
  assert (Hls : cancelled ls -> cancelled (ls ++ [ACancel t])) by (intros [x Ht]; exists x; apply in_snoc; now left).
  assert (HC : In (ACancel t) (ls ++ [ACancel t])) by (apply in_snoc; now right).
  constructor; unfold with_tasks; cbn [q_res q_wait q_islist q_listen q_tasks]; rewrite ?upd_length; try (now destruct H).
  - intros x k' Hk. rewrite nth_upd in Hk. destruct (Nat.eqb_spec x t) as [->|Hx].
    + destruct (t <? length (q_tasks s)); [|discriminate]. injection Hk as <-.
      destruct (i_task _ _ _ H t k Ek) as [G1 G2]. unfold tok, cancel, set_kill, set_fut.
      destruct (k_st k) as [v| |r] eqn:Es; [| |].
      * cbn [k_kill k_st k_fut]. rewrite ?Es. tauto.
      * destruct G2 as [A1 G2]. destruct (k_fut k) as [|v| |] eqn:Ef; cbn [k_kill k_st k_fut]; rewrite ?Es, ?Ef; try tauto.
      * rewrite ?Es. split; [auto|]. destruct G2 as (A1 & A2 & A3). split; [exact A1|]. split; [intro Hw; destruct (A2 Hw) as [[? ?]|[? ?]]; [left|right]; auto|].
        destruct r; tauto.
    + apply (tok_mono _ _ _ _ _ _ _ _ _ _ _ _ _ (i_task _ _ _ H x k' Hk)); try tauto. intro Hc. apply in_snoc. now left.
  - intros Hb Hi. apply Hls. now apply (i_esc _ _ _ H Hb).
Qed.

Lemma sinv_lab ls s log (l : alab) : sinv ls s log -> sinv (ls ++ [l]) s log.
Proof.
  intro H. assert (G := sinv_same ls s log (q_res s) l [] H (fun x => x) (or_introl eq_refl)). rewrite app_nil_r in G. destruct s; exact G.
Qed.

Lemma sinv_step ls s log l s' e : sinv ls s log -> astep cb envf s l = Some (s', e) -> sinv (ls ++ [l]) s' (log ++ e).
Proof.
  intros H Hs. destruct l as [o| |t|t|ee]; cbn [astep] in Hs.
  - injection Hs as Hs. unfold call in Hs. destruct (sinv_clear _ _ _ H) as (s1 & Ec & H1 & E1 & E2 & E3 & E4 & E5 & E6). rewrite Ec in Hs. rewrite <- E2 in Hs.
    destruct (q_wait s1) as [|x ws] eqn:Ew.
    + destruct (cb (q_res s1) o) as [r x] eqn:Eb. assert (Hst : st (q_res s1) = true -> st r = true) by (intro G; apply (st_cb _ o) in G; now rewrite Eb in G).
      destruct x as [v| | |]; injection Hs as <- <-.
      * now apply sinv_add.
      * apply sinv_enqueue; auto. intro Hi. destruct (i_list _ _ _ H1 Hi) as [_ G]. destruct (st_stop _ o G) as [G'|G']; rewrite Eb in G'; discriminate.
      * apply sinv_add; auto. split; [reflexivity|]. apply Hst. apply (stop_st _ o). now rewrite Eb.
      * apply sinv_add; auto. split; [reflexivity|]. exists (q_res s1), o. now rewrite Eb.
    + injection Hs as <- <-. apply sinv_enqueue; auto. intro Hi. destruct (i_list _ _ _ H1 Hi) as [G _]. congruence.
  - destruct (q_listen s) eqn:El; [|discriminate]. injection Hs as Hs. unfold ready in Hs.
    destruct (sinv_clear _ _ _ H) as (s1 & Ec & H1 & E1 & E2 & E3 & E4 & E5 & E6). rewrite Ec in Hs.
    destruct (q_wait s1) as [|t ws] eqn:Ew; [injection Hs as <- <-; rewrite app_nil_r; now apply sinv_lab|].
    assert (Hr : t < length (q_tasks s1)) by (apply (i_range _ _ _ H1); rewrite Ew; now left).
    destruct (nth_error (q_tasks s1) t) as [k|] eqn:Ek; [|apply nth_error_None in Ek; lia].
    assert (Hp : fdone (k_fut k) = false) by (specialize (E6 t ws eq_refl); unfold is_done in E6; now rewrite Ek in E6).
    destruct (cb (q_res s1) (k_op k)) as [r x] eqn:Eb. assert (Hst : st (q_res s1) = true -> st r = true) by (intro G; apply (st_cb _ (k_op k)) in G; now rewrite Eb in G).
    destruct x as [v| | |].
    + destruct (q_islist s1) eqn:Ei; [destruct (i_list _ _ _ H1 Ei); congruence|]. injection Hs as <- <-.
      apply (sinv_give ls s1 log r t ws v k); auto. intro Hne. rewrite (i_listen _ _ _ H1) by congruence. now destruct ws.
    + injection Hs as <- <-. rewrite <- Ew. apply (sinv_same ls s1 log r _ [] H1 Hst). now left.
    + assert (Hs1 : st (q_res s1) = true) by (apply (stop_st _ (k_op k)); now rewrite Eb). rewrite <- Ew in Hs.
      destruct (stop_all (q_tasks s1) (q_wait s1)) as [ts ok] eqn:Ea. pose proof (sinv_stop ls s1 log r ts ok AReady H1 Hs1 (Hst Hs1) Ea) as G.
      destruct ok; injection Hs as <- <-; exact G.
    + injection Hs as <- <-. rewrite <- Ew. apply (sinv_same ls s1 log r _ [EEscape] H1 Hst). right. split; [reflexivity|]. left. exists (q_res s1), (k_op k). now rewrite Eb.
  - destruct (nth_error (q_tasks s) t) as [k|] eqn:Ek; [|discriminate]. destruct (resume_result k) as [r|] eqn:Er; [|discriminate]. injection Hs as <- <-. now apply sinv_resume.
  - destruct (nth_error (q_tasks s) t) as [k|] eqn:Ek; [|discriminate]. injection Hs as <- <-. now apply sinv_cancel.
  - injection Hs as <- <-. apply sinv_same; auto.
Qed.

Lemma sinv_run ls s log ls' s' log' : sinv ls s log -> arun cb envf s ls' = Some (s', log') -> sinv (ls ++ ls') s' (log ++ log').
Proof.
  revert ls s log log'. induction ls' as [|l ls' IH]; intros ls s log log' H Hr; cbn [arun] in Hr.
  - injection Hr as <- <-. now rewrite !app_nil_r.
  - destruct (astep cb envf s l) as [[s1 e]|] eqn:Es; [|discriminate]. destruct (arun cb envf s1 ls') as [[s2 es]|] eqn:Er; [|discriminate]. injection Hr as <- <-.
    assert (G := IH _ _ _ _ (sinv_step _ _ _ _ _ _ H Es) Er). now rewrite <- !app_assoc in G.
Qed.

(** ** The loop comes to rest *)
Definition w_task (k : task) : nat :=
  match k_st k with TOver _ => 0 | TSleep _ => 2 | TWait => if fdone (k_fut k) then 2 else 4 end.
Definition qwork (s : sq) : nat := sumw w_task (q_tasks s) + (if q_listen s then 1 else 0).

Lemma stop_all_work (ts : list task) ws : (forall t k, In t ws -> nth_error ts t = Some k -> fdone (k_fut k) = false -> k_st k = TWait) -> StronglySorted lt ws ->
  forall t ws', ws = t :: ws' -> is_done ts t = false -> t < length ts -> sumw w_task (fst (stop_all ts ws)) + 2 <= sumw w_task ts.
Proof.
  assert (Hle : forall ws ts, (forall t k, In t ws -> nth_error ts t = Some k -> fdone (k_fut k) = false -> k_st k = TWait) -> sumw w_task (fst (stop_all ts ws)) <= sumw w_task ts).
  { induction ws0 as [|t ws0 IH]; intros ts0 Ht; cbn [stop_all]; [cbn [fst]; lia|]. destruct (is_done ts0 t) eqn:Ed; [cbn [fst]; lia|].
    unfold is_done in Ed. destruct (nth_error ts0 t) as [k|] eqn:Ek; [|discriminate].
    transitivity (sumw w_task (put_fut ts0 t FStop)).
    - apply IH. intros x k' Hx Hk Hd. apply nth_put_fut in Hk as [[G1 G2]|(-> & k0 & G2 & ->)]; [apply (Ht x k'); [now right|exact G2|exact Hd]|discriminate].
    - unfold put_fut. rewrite Ek. pose proof (sumw_upd w_task ts0 t k (set_fut k FStop) Ek) as G. unfold w_task in G at 2 4. cbn [set_fut k_st k_fut fdone] in G. rewrite Ed in G.
      rewrite (Ht t k (or_introl eq_refl) Ek Ed) in G. lia. }
  intros Ht Hs t ws' -> Ed Hlt. cbn [stop_all]. rewrite Ed. unfold is_done in Ed. destruct (nth_error ts t) as [k|] eqn:Ek; [|discriminate].
  assert (G1 : sumw w_task (put_fut ts t FStop) + 2 <= sumw w_task ts).
  { unfold put_fut. rewrite Ek. pose proof (sumw_upd w_task ts t k (set_fut k FStop) Ek) as G. unfold w_task in G at 2 4. cbn [set_fut k_st k_fut fdone] in G. rewrite Ed in G.
    rewrite (Ht t k (or_introl eq_refl) Ek Ed) in G. lia. }
  assert (G2 := Hle ws' (put_fut ts t FStop)). etransitivity; [|exact G1]. apply Nat.add_le_mono_r. apply G2.
  intros x k' Hx Hk Hd. apply nth_put_fut in Hk as [[G3 G4]|(-> & k0 & G4 & ->)]; [apply (Ht x k'); [now right|exact G4|exact Hd]|discriminate].
Qed.

(** A callback made while the descriptor is readable, and no waiter's operation
    raises, gets something done. *)
Lemma ready_progress ls s log s' e : sinv ls s log -> q_listen s = true -> ready cb s = (s', e) ->
  (forall t k, In t (q_wait s) -> nth_error (q_tasks s) t = Some k -> snd (cb (q_res s) (k_op k)) <> Busy /\ snd (cb (q_res s) (k_op k)) <> Bad) ->
  qwork s' < qwork s.
Proof.
  intros H El Hr Hgood. unfold ready in Hr. destruct (sinv_clear _ _ _ H) as (s1 & Ec & H1 & E1 & E2 & E3 & E4 & E5 & E6). rewrite Ec in Hr.
  assert (Hsub : forall t, In t (q_wait s1) -> In t (q_wait s)).
  { unfold clear_done in Ec. destruct (q_islist s && _); [discriminate|]. injection Ec as <-. cbn [q_wait].
    destruct (drop_done_suffix (q_tasks s) (q_wait s)) as (pre & G & _). intros t Ht. rewrite G. apply in_app_iff. now right. }
  unfold qwork. rewrite El. destruct (q_wait s1) as [|t ws] eqn:Ew; [injection Hr as <- <-; rewrite (E4 eq_refl), E2; lia|].
  assert (Hin : In t (q_wait s1)) by (rewrite Ew; now left).
  assert (Hlt := i_range _ _ _ H1 t Hin).
  destruct (nth_error (q_tasks s1) t) as [k|] eqn:Ek; [|apply nth_error_None in Ek; lia].
  assert (Hd := E6 t ws eq_refl).
  assert (Hp : fdone (k_fut k) = false) by (unfold is_done in Hd; now rewrite Ek in Hd).
  destruct (pending_wait _ _ _ _ _ H1 Hin Ek Hp) as (P1 & P2 & _).
  assert (Hin' : In t (q_wait s)) by (apply Hsub; now left). rewrite E2 in Ek. destruct (Hgood t k Hin' Ek) as [B1 B2]. rewrite <- E1 in B1, B2.
  destruct (cb (q_res s1) (k_op k)) as [r x] eqn:Eb. cbn [snd] in B1, B2. destruct x as [v| | |]; try congruence.
  - destruct (q_islist s1) eqn:Ei; [destruct (i_list _ _ _ H1 Ei); congruence|]. injection Hr as <- <-. cbn [q_tasks q_listen].
    unfold put_fut. rewrite E2, Ek. pose proof (sumw_upd w_task (q_tasks s) t k (set_fut k (FVal v)) Ek) as G. unfold w_task in G at 2 4. cbn [set_fut k_st k_fut fdone] in G.
    rewrite P1, Hp in G. destruct (q_listen s1 && nonempty ws); lia.
  - rewrite <- Ew in Hr. destruct (stop_all (q_tasks s1) (q_wait s1)) as [ts ok] eqn:Ea.
    assert (G : sumw w_task ts + 2 <= sumw w_task (q_tasks s)).
    { replace ts with (fst (stop_all (q_tasks s1) (q_wait s1))) by (rewrite Ea; reflexivity). rewrite <- E2. apply (stop_all_work _ _) with (t := t) (ws' := ws); auto; [|now destruct H1].
      intros x k' Hx Hk Hx'. now destruct (pending_wait _ _ _ _ _ H1 Hx Hk Hx'). }
    destruct ok; injection Hr as <- <-; cbn [q_tasks q_listen]; [|destruct (q_listen s1)]; lia.
Qed.

Lemma resume_progress (s : sq) t k r : nth_error (q_tasks s) t = Some k -> resume_result k = Some r ->
  qwork (with_tasks s (upd (q_tasks s) t (set_st k (TOver r)))) < qwork s.
Proof.
  intros Ek Hr. unfold qwork, with_tasks; cbn [q_tasks q_listen]. pose proof (sumw_upd w_task (q_tasks s) t k (set_st k (TOver r)) Ek) as G.
  assert (2 <= w_task k) by (unfold resume_result in Hr; unfold w_task; destruct (k_st k); [lia|destruct (fdone _); lia|discriminate]).
  unfold w_task in G at 4. cbn [set_st k_st] in G. lia.
Qed.
End Proofs.
