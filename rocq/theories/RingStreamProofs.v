(** Invariants of ring streams (C47). *)
From Coq Require Import List Arith Bool Lia.
From Verif Require Import ConcBase RingModel RingSpec RingProofs RingStreamModel RingStreamSpec.
Import ListNotations.

Section Proofs.
Context {V : Type} (eqV : forall a b : V, {a = b} + {a <> b}) (contiguous : V -> bool) (contiguous_only : bool).
Let keep := keep contiguous contiguous_only.
Implicit Types tr : list (revent V).

(** *** Steps of the ring *)
Definition trans (stp : bool) (t : nat) (p p' : pc V) (ev : list (event V)) : Prop :=
  match p with
  | Idle => False
  | PushWait v => p' = PushHave v /\ ev = []
  | TryPush v => (p' = PushHave v \/ p' = TryPushFail) /\ ev = []
  | TryPushFail => p' = Idle /\ ev = [ERet t (if stp then RStopped else RFull)]
  | PushHave v => stp = true /\ p' = PushUndo /\ ev = [] \/ stp = false /\ p' = PushPut /\ ev = [EPush t v]
  | PushPut => p' = Idle /\ ev = [ERet t RPushed]
  | PushUndo => p' = Idle /\ ev = [ERet t RStopped]
  | PopWait => p' = PopHave /\ ev = []
  | TryPop => (p' = PopHave \/ p' = TryPopFail) /\ ev = []
  | TryPopFail => p' = Idle /\ (ev = [ERet t RStopped] \/ ev = [ERet t REmpty])
  | PopHave => p' = PopUndo /\ ev = [] \/ exists v, p' = PopPut v /\ ev = [EPop t v]
  | PopPut v => p' = Idle /\ ev = [ERet t (RPopped v)]
  | PopUndo => p' = Idle /\ ev = [ERet t RStopped]
  | StopTail _ => p' = Idle /\ ev = [ERet t (RBool false)] \/ exists n, p' = StopHead n /\ ev = [EStop t]
  | StopHead _ => p' = StopSpace /\ ev = []
  | StopSpace => p' = StopData /\ ev = []
  | StopData => p' = Idle /\ ev = [ERet t (RBool true)]
  | AddProducer => p' = Idle /\ ev = [ERet t RUnit]
  | Size => p' = Idle /\ exists n, ev = [ERet t (RSize n)]
  end.
Lemma step_trans g t sp g' ev : step g t sp = Some (g', ev) -> exists p p', nth_error (threads g) t = Some p /\ threads g' = upd (threads g) t p' /\ trans (stopped g) t p p' ev /\ (stopped g' = stopped g \/ (exists b, p = StopTail b) /\ In (EStop t) ev).
Proof.
  unfold step. destruct (nth_error (threads g) t) as [p|] eqn:E; [|discriminate]. intro H. exists p. destruct p; cbn [trans]; try discriminate.
  - destruct (space_sem g); [discriminate|]. injection H as <- <-. eexists. split; [reflexivity|]. split; [reflexivity|]. auto.
  - destruct (space_sem g); [|destruct sp]; injection H as <- <-; eexists; (split; [reflexivity|]; split; [reflexivity|]; auto).
  - injection H as <- <-. eexists. split; [reflexivity|]. split; [reflexivity|]. auto.
  - destruct (stopped g) eqn:S; injection H as <- <-; eexists; (split; [reflexivity|]; split; [reflexivity|]; split; [|left; auto]); auto.
  - injection H as <- <-. eexists. split; [reflexivity|]. split; [reflexivity|]. auto.
  - injection H as <- <-. eexists. split; [reflexivity|]. split; [reflexivity|]. auto.
  - destruct (data_sem g); [discriminate|]. injection H as <- <-. eexists. split; [reflexivity|]. split; [reflexivity|]. auto.
  - destruct (data_sem g); [|destruct sp]; injection H as <- <-; eexists; (split; [reflexivity|]; split; [reflexivity|]; auto).
  - injection H as <- <-. eexists. split; [reflexivity|]. split; [reflexivity|]. split; [|auto]. split; [reflexivity|]. destruct (head g =? stop_position g); auto.
  - destruct (stop_position g =? head g); [|destruct (nth_error (storage g) (head g)) as [[v|]|]]; injection H as <- <-; eexists; (split; [reflexivity|]; split; [reflexivity|]; split; [|auto]); eauto.
  - injection H as <- <-. eexists. split; [reflexivity|]. split; [reflexivity|]. auto.
  - injection H as <- <-. eexists. split; [reflexivity|]. split; [reflexivity|]. auto.
  - destruct remove; cbn [andb] in H; [destruct (negb (producers _ =? 0)) in H|]; injection H as <- <-; eexists; (split; [reflexivity|]; split; [reflexivity|]; split; [|cbn; eauto]); eauto.
  - injection H as <- <-. eexists. split; [reflexivity|]. split; [reflexivity|]. auto.
  - injection H as <- <-. eexists. split; [reflexivity|]. split; [reflexivity|]. auto.
  - injection H as <- <-. eexists. split; [reflexivity|]. split; [reflexivity|]. auto.
  - injection H as <- <-. eexists. split; [reflexivity|]. split; [reflexivity|]. auto.
  - injection H as <- <-. eexists. split; [reflexivity|]. split; [reflexivity|]. eauto.
Qed.

(** *** The invariant *)
Definition client_ok (c : client V) (p : pc V) : Prop :=
  match c with
  | KIdle => p = Idle
  | KTry h => p = TryPush h \/ p = TryPushFail \/ p = PushHave h \/ p = PushPut \/ p = PushUndo
  | KPush h => p = PushWait h \/ p = PushHave h \/ p = PushPut \/ p = PushUndo
  | KPop _ _ => p = PopWait \/ p = TryPop \/ p = TryPopFail \/ p = PopHave \/ (exists v, p = PopPut v) \/ p = PopUndo
  | KStop => p = StopTail false \/ (exists n, p = StopHead n) \/ p = StopSpace \/ p = StopData
  end.
(** A heap that heap_ready has not pushed yet *)
Definition pend_of (c : client V) (p : pc V) : list V := match c with KTry h | KPush h => match p with PushPut => [] | _ => [h] end | _ => [] end.
Definition pend (s : rstream V) : list V :=
  match rs_mutex s with
  | Some t => match nth_error (rs_cl s) t, nth_error (threads (rs_ring s)) t with Some c, Some p => pend_of c p | _, _ => [] end
  | None => []
  end.
(** A heap that was popped but not yet looked at *)
Definition infl (p : pc V) : list V := match p with PopPut v => [v] | _ => [] end.
Definition busy (c : client V) : Prop := match c with KTry _ | KPush _ => True | _ => False end.
Definition fine (rtr : list (event V)) (e : revent V) : Prop :=
  match e with
  | Skipped _ h => contiguous h = false
  | Returned _ live h => (live = true \/ contiguous h = true) /\ In h (pops rtr)
  | Dropped h => keep h = false \/ exists t, In (EStop t) rtr
  | _ => True
  end.
Record rinv (cap n : nat) tr (s : rstream V) : Prop := {
  i_ring : exec cap n (of_ring tr) (rs_ring s);
  i_len : length (rs_cl s) = length (threads (rs_ring s));
  i_cl : forall t c p, nth_error (rs_cl s) t = Some c -> nth_error (threads (rs_ring s)) t = Some p -> client_ok c p;
  i_own : forall t c, nth_error (rs_cl s) t = Some c -> busy c -> rs_mutex s = Some t;
  i_stop : stopped (rs_ring s) = true -> rs_done s = true \/ rs_ext s = true;
  i_kstop : forall t, nth_error (rs_cl s) t = Some KStop -> rs_done s = true \/ rs_ext s = true;
  i_done : rs_done s = true -> pend s = [];
  i_main : rs_ext s = false \/ stopped (rs_ring s) = false -> filter keep (handed tr) = pushes (of_ring tr) ++ pend s;
  i_pre : exists rest, filter keep (handed tr) = pushes (of_ring tr) ++ rest;
  i_pop : forall t p, nth_error (threads (rs_ring s)) t = Some p -> pops_by t (of_ring tr) = map fst (taken_by t tr) ++ infl p;
  i_fine : Forall (fine (of_ring tr)) tr;
  i_nodrop : rs_ext s = false -> forall h, In (Dropped h) tr -> keep h = false }.

Lemma of_ring_app tr tr' : of_ring (tr ++ tr') = of_ring tr ++ of_ring tr'. Proof. apply flat_map_app. Qed.
Lemma of_ring_map (l : list (event V)) : of_ring (map Ring l) = l. Proof. induction l; cbn; [reflexivity|now f_equal]. Qed.
Lemma handed_app tr tr' : handed (tr ++ tr') = handed tr ++ handed tr'. Proof. apply flat_map_app. Qed.
Lemma taken_app t tr tr' : taken_by t (tr ++ tr') = taken_by t tr ++ taken_by t tr'. Proof. apply flat_map_app. Qed.
Lemma pops_by_app t (tr tr' : list (event V)) : pops_by t (tr ++ tr') = pops_by t tr ++ pops_by t tr'. Proof. apply flat_map_app. Qed.
Lemma pushes_app (tr tr' : list (event V)) : pushes (tr ++ tr') = pushes tr ++ pushes tr'. Proof. apply flat_map_app. Qed.
Lemma fine_more tr (a b : list (event V)) : Forall (fine a) tr -> Forall (fine (a ++ b)) tr.
Proof. intro H. eapply Forall_impl; [|exact H]. intros [e|h|h|t l h|t h|t r]; cbn [fine]; auto.
  - intros [|(t & I)]; [auto|right; exists t; apply in_or_app; auto].
  - intros [A B]. split; [exact A|]. unfold pops. rewrite flat_map_app. apply in_or_app. auto.
Qed.
Lemma pops_by_in t (tr : list (event V)) v : In v (pops_by t tr) -> In v (pops tr).
Proof. unfold pops_by, pops. rewrite !in_flat_map. intros (e & J & K). exists e. split; [exact J|]. destruct e; try (destruct K; fail). destruct (_ =? _); [exact K|destruct K]. Qed.

(** One thread changes its state. *)
Lemma rinv_frame cap n tr s t c p (ev : list (revent V)) s' c' p' : rinv cap n tr s -> nth_error (rs_cl s) t = Some c -> nth_error (threads (rs_ring s)) t = Some p ->
  rs_cl s' = upd (rs_cl s) t c' -> threads (rs_ring s') = upd (threads (rs_ring s)) t p' -> rs_mutex s' = rs_mutex s ->
  exec cap n (of_ring tr ++ of_ring ev) (rs_ring s') -> client_ok c' p' -> (busy c' -> rs_mutex s = Some t) ->
  (rs_done s = true -> rs_done s' = true) -> (rs_ext s = true -> rs_ext s' = true) ->
  (stopped (rs_ring s') = true -> rs_done s' = true \/ rs_ext s' = true) -> (c' = KStop -> rs_done s' = true \/ rs_ext s' = true) ->
  (rs_done s' = true -> rs_mutex s = Some t -> pend_of c' p' = []) -> (rs_done s' = true -> rs_done s = true \/ rs_mutex s = Some t) ->
  (stopped (rs_ring s) = true -> stopped (rs_ring s') = true) ->
  (rs_ext s' = false \/ stopped (rs_ring s') = false -> pend_of c p ++ filter keep (handed ev) = pushes (of_ring ev) ++ pend_of c' p') ->
  (pushes (of_ring ev) <> [] -> stopped (rs_ring s') = false) -> (rs_mutex s = Some t \/ pushes (of_ring ev) = [] /\ handed ev = []) ->
  infl p ++ pops_by t (of_ring ev) = map fst (taken_by t ev) ++ infl p' ->
  (forall u, u <> t -> pops_by u (of_ring ev) = [] /\ taken_by u ev = []) ->
  Forall (fine (of_ring tr ++ of_ring ev)) ev -> (rs_ext s' = false -> forall h, In (Dropped h) ev -> keep h = false) ->
  rinv cap n (tr ++ ev) s'.
Proof.
  intros [I1 I2 I3 I4 I5 I6 I7 I8 I9 I10 I11 I12] Hc Hp Ec Ep Em Ex Ok Bu Md Me St Ks Dn Dn' Ms Mn Pu Qu Po Po' Fi Nd.
  assert (Lc : t < length (rs_cl s)) by (apply nth_error_Some; congruence). assert (Lp : t < length (threads (rs_ring s))) by (apply nth_error_Some; congruence).
  assert (Nc : forall u, nth_error (rs_cl s') u = if u =? t then Some c' else nth_error (rs_cl s) u) by (intro u; rewrite Ec, nth_upd; destruct (u =? t); [|reflexivity]; destruct (Nat.ltb_spec t (length (rs_cl s))); [reflexivity|lia]).
  assert (Np : forall u, nth_error (threads (rs_ring s')) u = if u =? t then Some p' else nth_error (threads (rs_ring s)) u) by (intro u; rewrite Ep, nth_upd; destruct (u =? t); [|reflexivity]; destruct (Nat.ltb_spec t (length (threads (rs_ring s)))); [reflexivity|lia]).
  assert (Pd : rs_mutex s = Some t -> pend s = pend_of c p /\ pend s' = pend_of c' p') by (intro M; unfold pend; rewrite Em, M, Hc, Hp, Nc, Np, Nat.eqb_refl; auto).
  assert (Pn : rs_mutex s <> Some t -> pend_of c p = [] /\ pend_of c' p' = [] /\ pend s' = pend s).
  { intro M. split; [destruct c; try reflexivity; exfalso; apply M, (I4 t _ Hc Logic.I)|]. split; [destruct c'; try reflexivity; exfalso; apply M, (Bu Logic.I)|]. unfold pend. rewrite Em. destruct (rs_mutex s) as [u|]; [|reflexivity]. rewrite Nc, Np. destruct (Nat.eqb_spec u t); [congruence|reflexivity]. }
  assert (Dec : rs_mutex s = Some t \/ rs_mutex s <> Some t) by (destruct (rs_mutex s) as [u|]; [destruct (Nat.eq_dec u t); [left; congruence|right; congruence]|right; discriminate]).
  assert (Main : rs_ext s' = false \/ stopped (rs_ring s') = false -> filter keep (handed (tr ++ ev)) = pushes (of_ring (tr ++ ev)) ++ pend s').
  { intro H. specialize (Mn H). assert (H' : rs_ext s = false \/ stopped (rs_ring s) = false) by (destruct H as [H|H]; [left; destruct (rs_ext s); [now rewrite Me in H|reflexivity]|right; destruct (stopped (rs_ring s)); [now rewrite Ms in H|reflexivity]]). specialize (I8 H').
    rewrite handed_app, filter_app, I8, of_ring_app, pushes_app, <- !app_assoc. f_equal. destruct Dec as [M|M]; [destruct (Pd M) as [-> ->]; exact Mn|]. destruct (Pn M) as (_ & _ & ->). destruct Qu as [Qu|[-> ->]]; [contradiction|]. cbn. apply app_nil_r. }
  constructor; auto.
  - now rewrite of_ring_app.
  - now rewrite Ec, Ep, !upd_length.
  - intros u cu pu. rewrite Nc, Np. destruct (Nat.eqb_spec u t) as [->|]; [intros A B; injection A as <-; injection B as <-; exact Ok|eauto].
  - intros u cu. rewrite Nc, Em. destruct (Nat.eqb_spec u t) as [->|]; [intros A B; injection A as <-; auto|eauto].
  - intro u. rewrite Nc. destruct (Nat.eqb_spec u t) as [->|]; [intro A; injection A as ->; auto|]. intro A. destruct (I6 u A); auto.
  - intro D. destruct Dec as [M|M]; [destruct (Pd M) as [_ ->]; auto|]. destruct (Pn M) as (_ & _ & ->). destruct (Dn' D); [auto|contradiction].
  - destruct (pushes (of_ring ev)) as [|v l] eqn:El; [|exists (pend s'); apply Main; right; apply Pu; discriminate]. destruct I9 as (rest & R). exists (rest ++ filter keep (handed ev)). rewrite handed_app, filter_app, R, of_ring_app, pushes_app, El, app_nil_r. apply app_assoc_reverse.
  - intros u pu. rewrite Np, of_ring_app, pops_by_app, taken_app, map_app, <- app_assoc. destruct (Nat.eqb_spec u t) as [->|Nu]; intro A.
    + injection A as <-. rewrite (I10 t p Hp), <- app_assoc. now rewrite Po.
    + destruct (Po' u Nu) as [-> ->]. cbn. rewrite app_nil_r. now apply I10.
  - rewrite of_ring_app. apply Forall_app. split; [now apply fine_more|exact Fi].
  - intros E h J. apply in_app_or in J as [J|J]; [|auto]. apply I12; [destruct (rs_ext s); [now rewrite Me in E|reflexivity]|exact J].
Qed.

Lemma call_ring (g : ring V) t o g' ev : ring_next g (LCall t o) = Some (g', ev) -> nth_error (threads g) t = Some Idle /\ g' = set_thread g t (start o) /\ ev = [ECall t o].
Proof. unfold ring_next. destruct (nth_error (threads g) t) as [[]|]; try discriminate. intro H. injection H as <- <-. auto. Qed.
Lemma undo_stopped cap n (tr : list (event V)) (g : ring V) t : exec cap n tr g -> nth_error (threads g) t = Some PushUndo -> stopped g = true.
Proof. intros E H. destruct (exec_inv eqV _ _ _ _ E) as (m & D & F & _ & I). pose proof (iv_pc _ _ _ _ _ I) as P. rewrite Forall_forall in P. apply nth_error_In in H. exact (P _ H). Qed.
Lemma has_thread cap n tr s t c : rinv cap n tr s -> nth_error (rs_cl s) t = Some c -> exists p, nth_error (threads (rs_ring s)) t = Some p /\ client_ok c p.
Proof.
  intros I H. destruct (nth_error (threads (rs_ring s)) t) as [p|] eqn:E; [exists p; split; [reflexivity|]; eapply (i_cl _ _ _ _ I); eauto|]. apply nth_error_None in E. rewrite <- (i_len _ _ _ _ I) in E. assert (t < length (rs_cl s)) by (apply nth_error_Some; congruence). lia.
Qed.
Lemma holds_iff (s : rstream V) t : holds s t = true -> rs_mutex s = Some t.
Proof. unfold holds. destruct (rs_mutex s) as [u|]; [|discriminate]. destruct (Nat.eqb_spec t u); congruence. Qed.
Lemma idle_iff (s : rstream V) t : idle s t = true -> nth_error (rs_cl s) t = Some KIdle.
Proof. unfold idle. destruct (nth_error (rs_cl s) t) as [[]|]; congruence. Qed.
Lemma filter_one (h : V) : filter keep [h] = if keep h then [h] else []. Proof. cbn. destruct (keep h); reflexivity. Qed.
Lemma stop_in cap n (tr : list (event V)) (g : ring V) : exec cap n tr g -> stopped g = true -> exists t, In (EStop t) tr.
Proof.
  induction 1 as [|tr g l g' ev E IH S]; intro St; [discriminate|]. destruct (stopped g) eqn:Sg; [destruct (IH eq_refl) as (t & I); exists t; apply in_or_app; auto|]. destruct l as [t o|t sp]; [apply call_ring in S as (_ & -> & _); cbn in St; congruence|]. cbn [ring_next] in S.
  destruct (step_trans _ _ _ _ _ S) as (p & p' & _ & _ & _ & [E'|[_ E']]); [congruence|]. exists t. apply in_or_app. auto.
Qed.

Ltac fr := cbn [rs_cl rs_ring rs_mutex rs_done rs_ext with_mutex with_ring with_blocked with_flags set_thread threads stopped of_ring flat_map app map handed pushes pops_by taken_by busy pend_of infl fst]; try reflexivity; try assumption; try tauto; try congruence; try (intros; discriminate); auto.

Ltac nodrop := solve [intros ? ? J; cbn [In] in J; repeat (destruct J as [J|J]; [try discriminate; try (injection J as <-; assumption || (exfalso; tauto))|]); destruct J].
Ltac fin K := try solve [nodrop | cbn; rewrite ?K; auto | cbn; auto 6 | repeat constructor; cbn; auto].
Lemma rinv_next cap n tr s l s' ev : rinv cap n tr s -> rs_next contiguous contiguous_only s l = Some (s', ev) -> rinv cap n (tr ++ ev) s'.
Proof.
  intros I H. pose proof I as [I1 I2 I3 I4 I5 I6 I7 I8 I9 I10 I11 I12]. destruct l as [t|t|t h|t live try|t|t|t sp]; cbn [rs_next] in H.
  - (* lock *) destruct (idle s t) eqn:Id; [|discriminate]. apply idle_iff in Id. destruct (rs_mutex s) as [u|] eqn:M; [discriminate|]. injection H as <- <-. rewrite app_nil_r. assert (P0 : pend s = []) by (unfold pend; now rewrite M). assert (P1 : pend (with_mutex s (Some t)) = []) by (unfold pend; cbn; rewrite Id; destruct (nth_error (threads (rs_ring s)) t); reflexivity).
    constructor; fr; [|rewrite P1, <- P0; auto]. intros u c Hc B. specialize (I4 u c Hc B). discriminate.
  - (* unlock *) destruct (idle s t && holds s t) eqn:Id; [|discriminate]. apply andb_true_iff in Id as [Id Ho]. apply idle_iff in Id. apply holds_iff in Ho. injection H as <- <-. rewrite app_nil_r. assert (P0 : pend s = []) by (unfold pend; rewrite Ho, Id; destruct (nth_error (threads (rs_ring s)) t); reflexivity).
    constructor; fr; [|intro X; change (pend (with_mutex s None)) with (@nil V); rewrite <- P0; auto]. intros u c Hc B. exfalso. specialize (I4 u c Hc B). assert (u = t) by congruence. subst u. rewrite Id in Hc. injection Hc as <-. destruct B.
  - (* heap_ready *) destruct (idle s t && holds s t && negb (rs_done s)) eqn:Id; [|discriminate]. apply andb_true_iff in Id as [Id Nd]. apply andb_true_iff in Id as [Id Ho]. apply idle_iff in Id. apply holds_iff in Ho. apply negb_true_iff in Nd. destruct (has_thread _ _ _ _ _ _ I Id) as (p & Hp & Cp). cbn in Cp. subst p. fold keep in H. destruct (keep h) eqn:K.
    + unfold call in H. destruct (ring_next (rs_ring s) (LCall t (OpTryPush h))) as [[g e]|] eqn:R; [|discriminate]. injection H as <- <-. pose proof (exec_next _ _ _ _ _ _ _ I1 R) as Ex. apply call_ring in R as (_ & -> & ->). eapply (rinv_frame cap n tr s t KIdle Idle _ _ (KTry h) (TryPush h)); fr; fin K.
    + injection H as <- <-. eapply (rinv_frame cap n tr s t KIdle Idle _ _ KIdle Idle); fr; try (symmetry; now apply upd_id); try (now rewrite app_nil_r); fin K.
  - (* pop *) destruct (idle s t) eqn:Id; [|discriminate]. apply idle_iff in Id. destruct (has_thread _ _ _ _ _ _ I Id) as (p & Hp & Cp). cbn in Cp. subst p. unfold call in H. destruct (ring_next (rs_ring s) (LCall t (pop_op try))) as [[g e]|] eqn:R; [|discriminate]. injection H as <- <-. pose proof (exec_next _ _ _ _ _ _ _ I1 R) as Ex. apply call_ring in R as (_ & -> & ->). eapply (rinv_frame cap n tr s t KIdle Idle _ _ (KPop live try) (start (pop_op try))); fr; destruct try; fin I1.
  - (* stop_received *) destruct (idle s t && holds s t && negb (rs_done s)) eqn:Id; [|discriminate]. apply andb_true_iff in Id as [Id Nd]. apply andb_true_iff in Id as [Id Ho]. apply idle_iff in Id. apply holds_iff in Ho. destruct (has_thread _ _ _ _ _ _ I Id) as (p & Hp & Cp). cbn in Cp. subst p. unfold call in H. destruct (ring_next _ _) as [[g e]|] eqn:R in H; [|discriminate]. injection H as <- <-. pose proof (exec_next _ _ _ _ _ _ _ I1 R) as Ex. apply call_ring in R as (_ & -> & ->). eapply (rinv_frame cap n tr s t KIdle Idle _ _ KStop (StopTail false)); fr; fin I1.
  - (* stop *) destruct (idle s t) eqn:Id; [|discriminate]. apply idle_iff in Id. destruct (has_thread _ _ _ _ _ _ I Id) as (p & Hp & Cp). cbn in Cp. subst p. unfold call in H. destruct (ring_next _ _) as [[g e]|] eqn:R in H; [|discriminate]. injection H as <- <-. pose proof (exec_next _ _ _ _ _ _ _ I1 R) as Ex. apply call_ring in R as (_ & -> & ->). eapply (rinv_frame cap n tr s t KIdle Idle _ _ KStop (StopTail false)); fr; fin I1.
  - (* a step of the ring *)
    destruct (ring_next (rs_ring s) (LStep t sp)) as [[g e]|] eqn:R; [|discriminate]. destruct (nth_error (rs_cl s) t) as [c|] eqn:Hc; [|discriminate]. pose proof (exec_next _ _ _ _ _ _ _ I1 R) as Ex. cbn [ring_next] in R. destruct (step_trans _ _ _ _ _ R) as (p & p' & Hp & Tp & Tr & Sg).
    pose proof (I3 t c p Hc Hp) as Ok. assert (Lt : t < length (threads (rs_ring s))) by (apply nth_error_Some; congruence). assert (Pend : rs_mutex s = Some t -> pend s = pend_of c p) by (intro M; unfold pend; now rewrite M, Hc, Hp).
    assert (Nt : nth_error (threads g) t = Some p') by (rewrite Tp; now apply upd_same).
    (* a call made at once after the return of another one *)
    assert (Again : forall (x : rstream V) o c' s2 e2, rs_ring x = g -> call x t o c' = Some (s2, e2) -> p' = Idle /\ e2 = [Ring (ECall t o)] /\ s2 = with_ring x (set_thread g t (start o)) t c' /\ exec cap n ((of_ring tr ++ e) ++ [ECall t o]) (set_thread g t (start o))).
    { intros x o c' s2 e2 Ex2 Hcall. unfold call in Hcall. rewrite Ex2 in Hcall. destruct (ring_next g (LCall t o)) as [[g2 e3]|] eqn:R2; [|discriminate]. injection Hcall as <- <-. pose proof (exec_next _ _ _ _ _ _ _ Ex R2) as Ex3. apply call_ring in R2 as (A & -> & ->). rewrite Nt in A. injection A as ->. auto. }
    (* a heap dropped because of a stop *)
    assert (Drop : forall c0 p0 h, pend_of c0 p0 = [h] -> rs_mutex s = Some t -> nth_error (rs_cl s) t = Some c0 -> nth_error (threads (rs_ring s)) t = Some p0 -> stopped g = stopped (rs_ring s) -> stopped (rs_ring s) = true ->
      (rs_ext s = false \/ stopped g = false -> False) /\ Forall (fine (of_ring tr ++ [ERet t RStopped])) [Ring (ERet t RStopped); Dropped h]).
    { intros c0 p0 h P0 M Hc0 Hp0 Sg0 St. split.
      - intros [X|X]; [|congruence]. destruct (I5 St) as [D|D]; [|congruence]. specialize (I7 D). unfold pend in I7. rewrite M, Hc0, Hp0 in I7. congruence.
      - constructor; [exact Logic.I|]. constructor; [|constructor]. cbn [fine]. right. destruct (stop_in _ _ _ _ I1 St) as (u & Hu). exists u. apply in_or_app. auto. }
    destruct c as [|h|h|live try|].
    + (* idle *) cbn in Ok. subst p. destruct Tr.
    + (* try_push *) pose proof (I4 t _ Hc Logic.I) as Own. specialize (Pend Own). rewrite Pend in I7. destruct Ok as [->|[->|[->|[->| ->]]]]; cbn [trans] in Tr; destruct Sg as [Sg|((b & Sg) & _)]; try discriminate; assert (I5' : stopped g = true -> rs_done s = true \/ rs_ext s = true) by (rewrite Sg; exact I5).
      * destruct Tr as [Tr ->]. injection H as <- <-. eapply (rinv_frame cap n tr s t (KTry h) (TryPush h) _ _ (KTry h) p'); fr; destruct Tr as [-> | ->]; fin I1.
      * destruct Tr as [-> ->]. destruct (stopped (rs_ring s)) eqn:St.
        -- cbn [returned] in H. injection H as <- <-. destruct (Drop (KTry h) TryPushFail h eq_refl Own Hc Hp Sg eq_refl) as [Bad Fine]. eapply (rinv_frame cap n tr s t (KTry h) TryPushFail _ _ KIdle Idle); fr; rewrite ?upd_upd; fr; fin I1.
        -- cbn [returned] in H. destruct (call _ _ _ _) as [[s2 e2]|] eqn:Ca in H; [|discriminate]. injection H as <- <-. apply Again in Ca as (_ & -> & -> & Ex3); [|reflexivity]. rewrite <- app_assoc in Ex3. eapply (rinv_frame cap n tr s t (KTry h) TryPushFail _ _ (KPush h) (PushWait h)); fr; rewrite ?Tp, ?upd_upd; fr; fin I1.
      * destruct Tr as [(St & -> & ->)|(St & -> & ->)]; injection H as <- <-; rewrite St in Sg.
        -- eapply (rinv_frame cap n tr s t (KTry h) (PushHave h) _ _ (KTry h) PushUndo); fr; fin I1.
        -- eapply (rinv_frame cap n tr s t (KTry h) (PushHave h) _ _ (KTry h) PushPut); fr; fin I1.
      * destruct Tr as [-> ->]. cbn [returned] in H. injection H as <- <-. eapply (rinv_frame cap n tr s t (KTry h) PushPut _ _ KIdle Idle); fr; rewrite ?upd_upd; fr; fin I1.
      * destruct Tr as [-> ->]. pose proof (undo_stopped _ _ _ _ _ I1 Hp) as St. cbn [returned] in H. injection H as <- <-. destruct (Drop (KTry h) PushUndo h eq_refl Own Hc Hp ltac:(now rewrite Sg) St) as [Bad Fine]. eapply (rinv_frame cap n tr s t (KTry h) PushUndo _ _ KIdle Idle); fr; rewrite ?upd_upd; fr; fin I1.
    + (* push *) pose proof (I4 t _ Hc Logic.I) as Own. specialize (Pend Own). rewrite Pend in I7. destruct Ok as [->|[->|[->| ->]]]; cbn [trans] in Tr; destruct Sg as [Sg|((b & Sg) & _)]; try discriminate; assert (I5' : stopped g = true -> rs_done s = true \/ rs_ext s = true) by (rewrite Sg; exact I5).
      * destruct Tr as [-> ->]. injection H as <- <-. eapply (rinv_frame cap n tr s t (KPush h) (PushWait h) _ _ (KPush h) (PushHave h)); fr; fin I1.
      * destruct Tr as [(St & -> & ->)|(St & -> & ->)]; injection H as <- <-; rewrite St in Sg.
        -- eapply (rinv_frame cap n tr s t (KPush h) (PushHave h) _ _ (KPush h) PushUndo); fr; fin I1.
        -- eapply (rinv_frame cap n tr s t (KPush h) (PushHave h) _ _ (KPush h) PushPut); fr; fin I1.
      * destruct Tr as [-> ->]. cbn [returned] in H. injection H as <- <-. eapply (rinv_frame cap n tr s t (KPush h) PushPut _ _ KIdle Idle); fr; rewrite ?upd_upd; fr; fin I1.
      * destruct Tr as [-> ->]. pose proof (undo_stopped _ _ _ _ _ I1 Hp) as St. cbn [returned] in H. injection H as <- <-. destruct (Drop (KPush h) PushUndo h eq_refl Own Hc Hp ltac:(now rewrite Sg) St) as [Bad Fine]. eapply (rinv_frame cap n tr s t (KPush h) PushUndo _ _ KIdle Idle); fr; rewrite ?upd_upd; fr; fin I1.
    + (* pop *) assert (Eqb : forall u, u <> t -> (t =? u) = false) by (intros u Hu; destruct (Nat.eqb_spec t u); congruence). destruct Ok as [->|[->|[->|[->|[(v & ->)| ->]]]]]; cbn [trans] in Tr; destruct Sg as [Sg|((b & Sg) & _)]; try discriminate; assert (I5' : stopped g = true -> rs_done s = true \/ rs_ext s = true) by (rewrite Sg; exact I5).
      * destruct Tr as [-> ->]. injection H as <- <-. eapply (rinv_frame cap n tr s t (KPop live try) PopWait _ _ (KPop live try) PopHave); fr; fin I1.
      * destruct Tr as [Tr ->]. injection H as <- <-. eapply (rinv_frame cap n tr s t (KPop live try) TryPop _ _ (KPop live try) p'); fr; destruct Tr as [-> | ->]; fin I1.
      * destruct Tr as [-> [-> | ->]]; cbn [returned] in H; injection H as <- <-; eapply (rinv_frame cap n tr s t (KPop live try) TryPopFail _ _ KIdle Idle); fr; rewrite ?upd_upd; fr; fin I1.
      * destruct Tr as [[-> ->]|(v & -> & ->)]; injection H as <- <-; [eapply (rinv_frame cap n tr s t (KPop live try) PopHave _ _ (KPop live try) PopUndo); fr; fin I1|]. eapply (rinv_frame cap n tr s t (KPop live try) PopHave _ _ (KPop live try) (PopPut v)); fr; fin I1.
        -- cbn. eauto 12.
        -- cbn. now rewrite Nat.eqb_refl.
        -- intros u Hu. cbn. now rewrite Eqb.
      * destruct Tr as [-> ->]. cbn [returned] in H. destruct (live || contiguous v) eqn:Lc.
        -- injection H as <- <-. eapply (rinv_frame cap n tr s t (KPop live try) (PopPut v) _ _ KIdle Idle); fr; rewrite ?upd_upd; fr; fin I1.
           ++ cbn. now rewrite Nat.eqb_refl.
           ++ intros u Hu. cbn. now rewrite Eqb.
           ++ constructor; [exact Logic.I|]. constructor; [|constructor]. cbn. split; [now apply orb_true_iff|]. unfold pops. rewrite flat_map_app. apply in_or_app. left. apply (pops_by_in t). rewrite (I10 t _ Hp). apply in_or_app. right. cbn. auto.
        -- destruct (call _ _ _ _) as [[s2 e2]|] eqn:Ca in H; [|discriminate]. injection H as <- <-. apply Again in Ca as (_ & -> & -> & Ex3); [|reflexivity]. rewrite <- app_assoc in Ex3. apply orb_false_iff in Lc as [_ Lc]. eapply (rinv_frame cap n tr s t (KPop live try) (PopPut v) _ _ (KPop live try) (start (pop_op try))); fr; rewrite ?Tp, ?upd_upd; fr; fin I1.
           ++ destruct try; cbn; auto.
           ++ cbn. rewrite Nat.eqb_refl. destruct try; reflexivity.
           ++ intros u Hu. cbn. now rewrite Eqb.
      * destruct Tr as [-> ->]. cbn [returned] in H. injection H as <- <-. eapply (rinv_frame cap n tr s t (KPop live try) PopUndo _ _ KIdle Idle); fr; rewrite ?upd_upd; fr; fin I1.
    + (* stop *) pose proof (I6 t Hc) as De. destruct Ok as [->|[(k & ->)|[->| ->]]]; cbn [trans] in Tr.
      * destruct Tr as [[-> ->]|(k & -> & ->)].
        -- cbn [returned] in H. injection H as <- <-. destruct Sg as [Sg|[_ [Sg|[]]]]; [|discriminate]. eapply (rinv_frame cap n tr s t KStop (StopTail false) _ _ KIdle Idle); fr; rewrite ?upd_upd; fr; fin I1.
        -- injection H as <- <-. assert (Sm : stopped (rs_ring s) = true -> stopped g = true). { intro St. unfold step in R. rewrite Hp in R. injection R as <-. reflexivity. } eapply (rinv_frame cap n tr s t KStop (StopTail false) _ _ KStop (StopHead k)); fr; fin I1. cbn. eauto.
      * destruct Tr as [-> ->]. injection H as <- <-. destruct Sg as [Sg|((b & Sg) & _)]; [|discriminate]. eapply (rinv_frame cap n tr s t KStop (StopHead k) _ _ KStop StopSpace); fr; fin I1.
      * destruct Tr as [-> ->]. injection H as <- <-. destruct Sg as [Sg|((b & Sg) & _)]; [|discriminate]. eapply (rinv_frame cap n tr s t KStop StopSpace _ _ KStop StopData); fr; fin I1.
      * destruct Tr as [-> ->]. cbn [returned] in H. injection H as <- <-. destruct Sg as [Sg|((b & Sg) & _)]; [|discriminate]. eapply (rinv_frame cap n tr s t KStop StopData _ _ KIdle Idle); fr; rewrite ?upd_upd; fr; fin I1.
Qed.
Lemma rs_exec_inv cap n tr s : rs_exec contiguous contiguous_only cap n tr s -> rinv cap n tr s.
Proof.
  induction 1 as [|tr s l s' ev _ IH S]; [|eapply rinv_next; eauto]. constructor; cbn; auto; try discriminate.
  - constructor.
  - now rewrite !repeat_length.
  - intros t c p H1 H2. apply nth_error_In, repeat_spec in H1. apply nth_error_In, repeat_spec in H2. now subst.
  - intros t c H B. apply nth_error_In, repeat_spec in H. subst. destruct B.
  - intros t H. apply nth_error_In, repeat_spec in H. discriminate.
  - exists []. reflexivity.
  - intros t p H. apply nth_error_In, repeat_spec in H. now subst.
  - intros _ h [].
Qed.
End Proofs.
