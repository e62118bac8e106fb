(** C23-C25: the ring buffer, for any number of threads and any schedule. *)
From Coq Require Import List Arith Bool Lia.
From Verif Require Import ConcBase RingModel RingSpec RingProofs.
Import ListNotations.

Section Props.
Context {V : Type} (eqV : forall a b : V, {a = b} + {a <> b}).

(** Values on their way through the ring, read from its storage. *)
Definition stored (s : ring V) : list (option V) :=
  map (fun k => match nth_error (storage s) ((head s + k) mod length (storage s)) with Some x => x | None => None end) (seq 0 (ring_size s)).

Lemma mon_fifo cap m tr m' : mon_run eqV cap m tr = Some m' -> length (m_q m) <= cap ->
  m_q m ++ pushes tr = pops tr ++ m_q m' /\ length (m_q m') <= cap /\ (m_stopped m = true -> pushes tr = []) .
Proof.
  revert m. induction tr as [|e tr IH]; intros m H Hc; cbn [mon_run] in H.
  - injection H as ->. cbn. rewrite app_nil_r. auto.
  - destruct (mon_step eqV cap m e) as [m1|] eqn:E; [|discriminate].
    assert (X : m_q m ++ (match e with EPush _ v => [v] | _ => [] end) = (match e with EPop _ v => [v] | _ => [] end) ++ m_q m1
      /\ length (m_q m1) <= cap /\ (m_stopped m = true -> m_stopped m1 = true /\ (match e with EPush _ v => [v] | _ => [] end) = [])).
    { destruct e as [t o|t r|t v|t v|t]; cbn [mon_step] in E; destruct (nth_error (m_th m) t) as [y|]; try discriminate.
      - destruct y; try discriminate. injection E as <-. cbn [with_th m_q m_stopped]. rewrite app_nil_r. auto.
      - assert (m_q m1 = m_q m /\ m_stopped m1 = m_stopped m) as [-> ->].
        { destruct y as [|o| |w|]; try discriminate.
          - destruct (ret_ok m o r); [|discriminate]. injection E as <-. auto.
          - destruct r; try discriminate; injection E as <-; auto.
          - destruct r; try discriminate. destruct (eqV w v); [|discriminate]. injection E as <-; auto.
          - destruct r as [| | | | |[]| |]; try discriminate; injection E as <-; auto. }
        rewrite app_nil_r. auto.
      - assert (X : m_stopped m = false /\ m_q m1 = m_q m ++ [v] /\ length (m_q m) < cap).
        { destruct y as [|[w|w| | | | | |]| | |]; try discriminate; destruct (eqV v w); try discriminate;
            (destruct (m_stopped m); [discriminate|]); destruct (Nat.ltb_spec (length (m_q m)) cap); try discriminate; injection E as <-; auto. }
        destruct X as (-> & -> & ?). rewrite app_length. cbn [length app]. split; [reflexivity|]. split; [lia|discriminate].
      - destruct (m_q m) as [|w q]; [destruct y as [|[]| | |]; discriminate|].
        assert (X : v = w /\ m_q m1 = q /\ m_stopped m1 = m_stopped m).
        { destruct y as [|[]| | |]; try discriminate; destruct (eqV v w); try discriminate; injection E as <-; auto. }
        destruct X as (-> & -> & ->). cbn [length app] in *. rewrite app_nil_r. split; [reflexivity|]. split; [lia|auto].
      - assert (m_q m1 = m_q m /\ m_stopped m1 = true) as [-> ->].
        { destruct y as [|[]| | |]; try discriminate; [injection E as <-; auto|]. destruct (1 <? m_prod m); [discriminate|]. injection E as <-; auto. }
        rewrite app_nil_r. auto. }
    destruct X as (X1 & X2 & X3). destruct (IH m1 H X2) as (Y1 & Y2 & Y3).
    unfold pushes, pops in *. cbn [flat_map]. split; [|split; [exact Y2|]].
    + now rewrite app_assoc, X1, <- !app_assoc, Y1.
    + intro Hst. destruct (X3 Hst) as [Z1 Z2]. rewrite Z2. cbn [app]. now apply Y3.
Qed.

(** * C23 *)
(** Every execution is one of an atomic queue: its events are accepted by the
    monitor of RingSpec, in particular every call takes effect at most once,
    between its call and its return, and returns what that effect says; nothing
    undefined happens. *)
Theorem C23_linearizable : forall cap n tr (s : ring V), exec cap n tr s ->
  fault s = false /\ exists m, mon_run eqV cap (mon_new n) tr = Some m /\ length (m_q m) <= cap /\ ring_size s = length (m_q m).
Proof.
  intros cap n tr s H. destruct (exec_inv eqV _ _ _ _ H) as (m & D & E & HM & HI). split; [apply HI|]. exists m. split; [exact HM|]. split; [apply HI|].
  eapply size_q; apply HI.
Qed.

(** First in, first out: the values popped so far are a prefix of the values
    pushed so far, the rest (never more than the capacity) is in the ring. *)
Theorem C23_fifo : forall cap n tr (s : ring V), exec cap n tr s ->
  exists queued, pushes tr = pops tr ++ queued /\ length queued <= cap /\ stored s = map Some queued.
Proof.
  intros cap n tr s H. destruct (exec_inv eqV _ _ _ _ H) as (m & D & E & HM & HI).
  destruct (mon_fifo _ _ _ _ HM (Nat.le_0_l _)) as (X & Y & _). exists (m_q m). split; [exact X|]. split; [exact Y|].
  unfold stored. rewrite (size_q cap s (m_q m)) by apply HI. rewrite (iv_len _ _ _ _ _ HI).
  pose proof (iv_store _ _ _ _ _ HI) as HS. clear - HS Y.
  assert (G : forall q k, k + length q <= cap -> (forall i, i < length q -> nth_error (storage s) ((head s + (k + i)) mod S cap) = Some (nth_error q i)) ->
    map (fun k => match nth_error (storage s) ((head s + k) mod S cap) with Some x => x | None => None end) (seq k (length q)) = map Some q).
  { induction q as [|v q IH]; intros k Hk HX; cbn [length seq map] in *; [reflexivity|]. f_equal.
    - specialize (HX 0 ltac:(lia)). rewrite Nat.add_0_r in HX. now rewrite HX.
    - apply IH; [lia|]. intros i Hi. replace (S k + i) with (k + S i) by lia. apply (HX (S i)). lia. }
  apply G; [lia|]. intros i Hi. apply HS. lia.
Qed.

(** The destructor destroys exactly the remaining values. *)
Theorem C23_destructor : forall cap n tr (s : ring V), exec cap n tr s ->
  exists s', drain cap s = Some s' /\ storage s' = repeat None (S cap).
Proof.
  intros cap n tr s H. destruct (exec_inv eqV _ _ _ _ H) as (m & D & E & HM & HI). destruct HI. clear - iv_len iv_head iv_tail iv_q iv_store.
  remember (m_q m) as q eqn:Eq. clear Eq m.
  assert (G : forall (q : list V) fuel (s : ring V), length q <= fuel -> length (storage s) = S cap -> head s < S cap -> tail s = (head s + length q) mod S cap -> length q <= cap ->
    (forall k, k < S cap -> nth_error (storage s) ((head s + k) mod S cap) = Some (nth_error q k)) ->
    exists s', drain fuel s = Some s' /\ storage s' = repeat None (S cap)).
  { clear. induction q as [|v q IH]; intros fuel s Hf HL Hh Ht Hq HS.
    - exists s. cbn [length] in Ht. rewrite Nat.add_0_r, Nat.mod_small in Ht by exact Hh. split.
      + destruct fuel; cbn [drain]; rewrite (proj2 (Nat.eqb_eq _ _)) by congruence; reflexivity.
      + apply nth_ext with (d := None) (d' := None); [now rewrite repeat_length|]. intros i Hi. rewrite HL in Hi.
        rewrite nth_repeat. specialize (HS ((i + S cap - head s) mod S cap) ltac:(apply Nat.mod_upper_bound; lia)).
        rewrite Nat.add_mod_idemp_r in HS by lia. replace (head s + (i + S cap - head s)) with (i + 1 * S cap) in HS by lia. rewrite Nat.mod_add, Nat.mod_small in HS by lia.
        apply nth_error_nth. rewrite HS. now destruct ((i + S cap - head s) mod S cap).
    - cbn [length] in *. destruct fuel as [|fuel]; [lia|].
      assert (Hne : head s <> tail s). { rewrite Ht, mod_cases by lia. destruct (Nat.ltb_spec (head s + S (length q)) (S cap)); lia. }
      cbn [drain]. rewrite (proj2 (Nat.eqb_neq _ _) Hne).
      pose proof (HS 0 ltac:(lia)) as H0. rewrite Nat.add_0_r, Nat.mod_small in H0 by exact Hh. cbn [nth_error] in H0. rewrite H0.
      apply IH; cbn [destroy_head storage head tail]; [lia|now rewrite upd_length|rewrite (next_mod s cap) by assumption; apply Nat.mod_upper_bound; lia| |lia|].
      + rewrite (next_mod s cap) by assumption. rewrite Nat.add_mod_idemp_l by lia. rewrite Ht. f_equal. lia.
      + intros k Hk. rewrite (next_mod s cap) by assumption. rewrite Nat.add_mod_idemp_l by lia. rewrite nth_upd, HL.
        destruct (Nat.eqb_spec ((S (head s) + k) mod S cap) (head s)) as [Eh|Nh].
        * rewrite (proj2 (Nat.ltb_lt _ _) Hh). assert (k = cap) as ->.
          { rewrite mod_cases in Eh by lia. destruct (Nat.ltb_spec (S (head s) + k) (S cap)); lia. }
          rewrite (proj2 (nth_error_None _ _)) by lia. reflexivity.
        * destruct (Nat.eq_dec k cap) as [->|Nk].
          { exfalso. apply Nh. rewrite mod_cases by lia. destruct (Nat.ltb_spec (S (head s) + cap) (S cap)); lia. }
          replace (S (head s) + k) with (head s + S k) by lia. rewrite HS by lia. reflexivity. }
  apply (G q cap s); auto.
Qed.

(** * C24 *)
(** [blocked s t]: thread [t] is inside a call and cannot move. *)
Definition in_call (s : ring V) (t : nat) : Prop := exists p, nth_error (threads s) t = Some p /\ p <> Idle.
Definition blocked (s : ring V) (t : nat) : Prop := in_call s t /\ forall sp, step s t sp = None.

(** If every thread inside a call is blocked, then a blocked thread is a push
    into a full ring or a pop from an empty one, and the ring is not stopped. *)
Theorem C24_no_lost_wakeup : forall cap n tr s m, exec cap n tr s -> mon_run eqV cap (mon_new n) tr = Some m ->
  (forall t, in_call s t -> blocked s t) ->
  forall t, in_call s t -> m_stopped m = false /\
    ((exists v, nth_error (m_th m) t = Some (TCalled (OpPush v)) /\ length (m_q m) = cap) \/
     (nth_error (m_th m) t = Some (TCalled OpPop) /\ m_q m = [])).
Proof.
  intros cap n tr s m H HM HB t Ht. destruct (exec_inv eqV _ _ _ _ H) as (m' & D & E & HM' & HI). assert (m' = m) by congruence. subst m'. clear HM'.
  assert (HA : forall i p, nth_error (threads s) i = Some p -> p = Idle \/ (exists v, p = PushWait v /\ space_sem s = 0) \/ (p = PopWait /\ data_sem s = 0)).
  { intros i p Hi. destruct p; try (now left); right;
      (assert (Hc : in_call s i) by (eexists; split; [exact Hi|discriminate])); destruct (HB i Hc) as [_ Hn]; specialize (Hn false); unfold step in Hn; rewrite Hi in Hn;
      try discriminate.
    - left. exists v. split; [reflexivity|]. destruct (space_sem s); [reflexivity|discriminate].
    - destruct (space_sem s); discriminate.
    - destruct (stopped s); discriminate.
    - right. split; [reflexivity|]. destruct (data_sem s); [reflexivity|discriminate].
    - destruct (data_sem s); discriminate.
    - destruct (stop_position s =? head s); [discriminate|]. destruct (nth_error (storage s) (head s)) as [[]|]; discriminate.
    - destruct (_ && _); discriminate. }
  assert (Z : forall w : pc V -> nat, w Idle = 0 -> (forall v, w (PushWait v) = 0) -> w PopWait = 0 -> sumw w (threads s) = 0).
  { intros w W1 W2 W3. apply sumw_zero. intros i p Hi. destruct (HA i p Hi) as [->|[(v & -> & _)|[-> _]]]; auto. }
  pose proof (Z wD eq_refl (fun _ => eq_refl) eq_refl) as ZD. pose proof (Z wS eq_refl (fun _ => eq_refl) eq_refl) as ZS.
  pose proof (Z wSD eq_refl (fun _ => eq_refl) eq_refl) as ZSD. pose proof (Z wSS eq_refl (fun _ => eq_refl) eq_refl) as ZSS.
  destruct HI. rewrite ZD in iv_data. rewrite ZS in iv_space. rewrite ZSD in *. rewrite ZSS in *.
  destruct Ht as (p & Hp & Hne). destruct (Forall2_nth _ _ _ _ _ iv_th Hp) as (y & Hy & Hr).
  destruct (HA t p Hp) as [->|[(v & -> & Hz)|[-> Hz]]]; [congruence| |].
  - assert (Hst : stopped s = false). { destruct (stopped s); [|reflexivity]. specialize (iv_E eq_refl). lia. }
    destruct (iv_live Hst) as (_ & -> & _ & _). split; [congruence|]. left. exists v. destruct y as [|[]| | |]; try contradiction. cbn [rel] in Hr. subst. split; [exact Hy|lia].
  - assert (Hst : stopped s = false). { destruct (stopped s); [|reflexivity]. specialize (iv_D eq_refl). lia. }
    destruct (iv_live Hst) as (-> & _ & _ & _). split; [congruence|]. right. destruct y as [|[]| | |]; try contradiction. split; [exact Hy|]. apply length_zero_iff_nil. lia.
Qed.

(** Without new calls the threads cannot keep stepping for ever: such a state is
    always reached (or all calls return). *)
Definition left (p : pc V) : nat :=
  match p with
  | Idle => 0 | PushPut | PushUndo | PopPut _ | PopUndo | TryPushFail | TryPopFail | StopData | AddProducer | Size => 1
  | PushHave _ | PopHave | StopSpace => 2 | PushWait _ | TryPush _ | PopWait | TryPop | StopHead _ => 3 | StopTail _ => 4
  end.
Inductive steps : ring V -> nat -> ring V -> Prop :=
| steps_nil s : steps s 0 s
| steps_cons s t sp s' ev k s'' : step s t sp = Some (s', ev) -> steps s' k s'' -> steps s (S k) s''.

Lemma step_left s t sp s' ev : step s t sp = Some (s', ev) -> sumw left (threads s') < sumw left (threads s).
Proof.
  unfold step. destruct (nth_error (threads s) t) as [p|] eqn:Ht; [|discriminate].
  pose proof (sumw_upd left (threads s) t p) as W. specialize (fun y => W y Ht). pose proof (sumw_ge left _ _ _ Ht) as G.
  assert (R : forall x : ring V, threads x = threads s -> forall p', threads (set_thread x t p') = upd (threads s) t p') by (intros x Hx p'; cbn [set_thread threads]; now rewrite Hx).
  destruct p; intro H; try discriminate.
  - destruct (space_sem s); [discriminate|]. injection H as <- _. rewrite R by reflexivity. specialize (W (PushHave v)). cbn [left] in *. lia.
  - destruct (space_sem s); [|destruct sp]; injection H as <- _; rewrite R by reflexivity; pose proof (W (PushHave v)); specialize (W TryPushFail); cbn [left] in *; lia.
  - injection H as <- _. rewrite R by reflexivity. specialize (W Idle). cbn [left] in *. lia.
  - destruct (stopped s); injection H as <- _; rewrite R by reflexivity; pose proof (W PushUndo); specialize (W PushPut); cbn [left] in *; lia.
  - injection H as <- _. rewrite R by reflexivity. specialize (W Idle). cbn [left] in *. lia.
  - injection H as <- _. rewrite R by reflexivity. specialize (W Idle). cbn [left] in *. lia.
  - destruct (data_sem s); [discriminate|]. injection H as <- _. rewrite R by reflexivity. specialize (W PopHave). cbn [left] in *. lia.
  - destruct (data_sem s); [|destruct sp]; injection H as <- _; rewrite R by reflexivity; pose proof (W PopHave); specialize (W TryPopFail); cbn [left] in *; lia.
  - injection H as <- _. rewrite R by reflexivity. specialize (W Idle). cbn [left] in *. lia.
  - destruct (stop_position s =? head s); [injection H as <- _; rewrite R by reflexivity; specialize (W PopUndo); cbn [left] in *; lia|].
    destruct (nth_error (storage s) (head s)) as [[v|]|]; injection H as <- _; rewrite R by reflexivity.
    + specialize (W (PopPut v)). cbn [left] in *. lia.
    + specialize (W PopUndo). cbn [left] in *. lia.
    + specialize (W PopUndo). cbn [left] in *. lia.
  - injection H as <- _. rewrite R by reflexivity. specialize (W Idle). cbn [left] in *. lia.
  - injection H as <- _. rewrite R by reflexivity. specialize (W Idle). cbn [left] in *. lia.
  - destruct (_ && _); injection H as <- _; rewrite R by (destruct remove; reflexivity).
    + specialize (W Idle). cbn [left] in *. lia.
    + match goal with |- context [upd _ _ ?x] => specialize (W x) end. cbn [left] in *. lia.
  - injection H as <- _. rewrite R by reflexivity. specialize (W StopSpace). cbn [left] in *. lia.
  - injection H as <- _. rewrite R by reflexivity. specialize (W StopData). cbn [left] in *. lia.
  - injection H as <- _. rewrite R by reflexivity. specialize (W Idle). cbn [left] in *. lia.
  - injection H as <- _. rewrite R by reflexivity. specialize (W Idle). cbn [left] in *. lia.
  - injection H as <- _. rewrite R by reflexivity. specialize (W Idle). cbn [left] in *. lia.
Qed.

Theorem C24_no_livelock : forall s k s', steps s k s' -> k <= 4 * length (threads s).
Proof.
  assert (G : forall s k s', steps s k s' -> k <= sumw left (threads s)).
  { induction 1 as [|s t sp s' ev k s'' H _ IH]; [lia|]. pose proof (step_left _ _ _ _ _ H). lia. }
  intros s k s' H. apply G in H. enough (sumw left (threads s) <= 4 * length (threads s)) by lia.
  clear. induction (threads s) as [|p l IH]; cbn [sumw length]; [lia|]. assert (left p <= 4) by (destruct p; cbn [left]; lia). lia.
Qed.

(** * C25 *)
(** Once a stop has taken effect no push does. *)
Theorem C25_no_push_after_stop : forall cap n tr tr' t (s : ring V), exec cap n (tr ++ EStop t :: tr') s -> pushes tr' = [].
Proof.
  intros cap n tr tr' t s H. destruct (exec_inv eqV _ _ _ _ H) as (m & D & E & HM & HI).
  rewrite mon_run_app in HM. destruct (mon_run eqV cap (mon_new n) tr) as [m1|] eqn:E1; [|discriminate]. cbn [mon_run] in HM.
  destruct (mon_step eqV cap m1 (EStop t)) as [m2|] eqn:E2; [|discriminate].
  destruct (mon_fifo _ _ _ _ E1 (Nat.le_0_l _)) as (_ & Y & _).
  assert (m_stopped m2 = true /\ m_q m2 = m_q m1) as [Z1 Z2].
  { cbn [mon_step] in E2. destruct (nth_error (m_th m1) t) as [[|[]| | |]|]; try discriminate; [injection E2 as <-; auto|]. destruct (1 <? m_prod m1); [discriminate|]. injection E2 as <-; auto. }
  destruct (mon_fifo _ _ _ _ HM ltac:(now rewrite Z2)) as (_ & _ & F). now apply F.
Qed.

(** 'stopped' is reported only after a stop has taken effect, and to a consumer
    only when every value ever pushed has been popped. *)
Theorem C25_stopped_means_drained : forall cap n tr t s, exec cap n (tr ++ [ERet t RStopped]) s ->
  (exists t', In (EStop t') tr) /\
  (forall m, mon_run eqV cap (mon_new n) tr = Some m -> nth_error (m_th m) t = Some (TCalled OpPop) \/ nth_error (m_th m) t = Some (TCalled OpTryPop) ->
     pops tr = pushes tr).
Proof.
  intros cap n tr t s H. destruct (exec_inv eqV _ _ _ _ H) as (m' & D & E & HM & HI).
  rewrite mon_run_app in HM. destruct (mon_run eqV cap (mon_new n) tr) as [m1|] eqn:E1; [|discriminate]. cbn [mon_run] in HM.
  destruct (mon_step eqV cap m1 (ERet t RStopped)) as [m2|] eqn:E2; [|discriminate]. clear HM m' HI D E.
  destruct (mon_fifo _ _ _ _ E1 (Nat.le_0_l _)) as (X & _ & _). cbn [mon_new m_q app] in X.
  assert (Hs : m_stopped m1 = true).
  { cbn [mon_step] in E2. destruct (nth_error (m_th m1) t) as [[|o| | |]|]; try discriminate. destruct o; cbn [ret_ok] in E2; try discriminate; destruct (m_stopped m1); auto; discriminate. }
  split.
  - assert (G : forall tr m, mon_run eqV cap m tr = Some m1 -> m_stopped m = false -> exists t', In (EStop t') tr); [|exact (G tr _ E1 eq_refl)].
    clear - Hs. induction tr as [|e tr IH]; intros m HM Hm; cbn [mon_run] in HM; [congruence|].
    destruct (mon_step eqV cap m e) as [m2|] eqn:E; [|discriminate].
    destruct (m_stopped m2) eqn:Es; [|destruct (IH m2 HM Es) as (t' & Ht'); exists t'; now right].
    destruct e as [t o|t r|t v|t v|t]; [| | | |exists t; now left]; exfalso; cbn [mon_step] in E; destruct (nth_error (m_th m) t) as [y|]; try discriminate.
    + destruct y; try discriminate. injection E as <-. cbn in Es. congruence.
    + assert (m_stopped m2 = m_stopped m); [|congruence].
      destruct y as [|o| |w|]; try discriminate.
      * destruct (ret_ok m o r); [|discriminate]. injection E as <-. auto.
      * destruct r; try discriminate; injection E as <-; auto.
      * destruct r; try discriminate. destruct (eqV w v); [|discriminate]. injection E as <-; auto.
      * destruct r as [| | | | |[]| |]; try discriminate; injection E as <-; auto.
    + assert (m_stopped m2 = m_stopped m); [|congruence].
      destruct y as [|[w|w| | | | | |]| | |]; try discriminate; destruct (eqV v w); try discriminate;
            rewrite Hm in E; destruct (length (m_q m) <? cap); try discriminate; injection E as <-; auto.
    + assert (m_stopped m2 = m_stopped m); [|congruence]. destruct (m_q m) as [|w q]; [destruct y as [|[]| | |]; discriminate|].
      destruct y as [|[]| | |]; try discriminate; destruct (eqV v w); try discriminate; injection E as <-; auto.
  - intros m HM Ht. assert (m = m1) by congruence. subst m1.
    assert (m_q m = []).
    { cbn [mon_step] in E2. destruct Ht as [Ht|Ht]; rewrite Ht in E2; cbn [ret_ok] in E2; rewrite Hs in E2; destruct (m_q m); auto; discriminate. }
    rewrite H0, app_nil_r in X. now symmetry.
Qed.

(** A non-blocking call that runs while no other call is in progress reports
    exactly the state of the ring (without spurious semaphore failures): it
    fails with 'empty' / 'full' only when that is so, and not after a stop. *)
Definition alone (s : ring V) (t : nat) : Prop := forall t', in_call s t' -> t' = t.
Theorem C25_try_alone : forall cap n tr s m t s' ev, exec cap n tr s -> mon_run eqV cap (mon_new n) tr = Some m -> alone s t ->
  step s t false = Some (s', ev) ->
  (nth_error (threads s) t = Some TryPop -> nth_error (threads s') t = Some TryPopFail -> m_q m = [] /\ m_stopped m = false) /\
  (forall v, nth_error (threads s) t = Some (TryPush v) -> nth_error (threads s') t = Some TryPushFail -> length (m_q m) = cap /\ m_stopped m = false).
Proof.
  intros cap n tr s m t s' ev H HM HA HS. destruct (exec_inv eqV _ _ _ _ H) as (m' & D & E & HM' & HI). assert (m' = m) by congruence. subst m'. clear HM'.
  assert (Z : forall w : pc V -> nat, w Idle = 0 -> (forall p, nth_error (threads s) t = Some p -> w p = 0) -> sumw w (threads s) = 0).
  { intros w W1 W2. apply sumw_zero. intros i p Hi. destruct (Nat.eq_dec i t) as [->|Ne]; [auto|].
    destruct (match p with Idle => true | _ => false end) eqn:Ep; [destruct p; try discriminate; exact W1|].
    exfalso. apply Ne, HA. exists p. split; [exact Hi|]. intros ->. discriminate. }
  destruct HI. unfold step in HS. split; [intros Ht Ht'|intros v Ht Ht'].
  - pose proof (Z wD eq_refl) as ZD. pose proof (Z wSD eq_refl) as ZSD. rewrite Ht in *.
    specialize (ZD ltac:(intros p Hp; injection Hp as <-; reflexivity)). specialize (ZSD ltac:(intros p Hp; injection Hp as <-; reflexivity)).
    destruct (data_sem s) as [|d] eqn:Ed; [|injection HS as <- <-; cbn [set_thread set_data threads] in Ht'; rewrite upd_same in Ht' by (apply nth_error_Some; congruence); discriminate].
    assert (Hst : stopped s = false). { destruct (stopped s); [|reflexivity]. specialize (iv_D eq_refl). lia. }
    destruct (iv_live Hst) as (-> & _). split; [apply length_zero_iff_nil; lia|congruence].
  - pose proof (Z wS eq_refl) as ZD. pose proof (Z wSS eq_refl) as ZSD. rewrite Ht in *.
    specialize (ZD ltac:(intros p Hp; injection Hp as <-; reflexivity)). specialize (ZSD ltac:(intros p Hp; injection Hp as <-; reflexivity)).
    destruct (space_sem s) as [|d] eqn:Ed; [|injection HS as <- <-; cbn [set_thread set_space threads] in Ht'; rewrite upd_same in Ht' by (apply nth_error_Some; congruence); discriminate].
    assert (Hst : stopped s = false). { destruct (stopped s); [|reflexivity]. specialize (iv_E eq_refl). lia. }
    destruct (iv_live Hst) as (_ & -> & _). split; [lia|congruence].
Qed.
End Props.
Print Assumptions C23_linearizable.
Print Assumptions C23_fifo.
Print Assumptions C23_destructor.
Print Assumptions C24_no_lost_wakeup.
Print Assumptions C24_no_livelock.
Print Assumptions C25_no_push_after_stop.
Print Assumptions C25_stopped_means_drained.
Print Assumptions C25_try_alone.

(** * Concrete executions *)
Fixpoint run_labels {V} (s : ring V) (ls : list (label V)) : option (ring V * list (event V)) :=
  match ls with
  | [] => Some (s, [])
  | l :: ls' => match ring_next s l with
                | Some (s', ev) => option_map (fun r => (fst r, ev ++ snd r)) (run_labels s' ls')
                | None => None
                end
  end.
Lemma run_labels_exec {V} cap n (ls : list (label V)) : forall tr s s' ev, exec cap n tr s -> run_labels s ls = Some (s', ev) -> exec cap n (tr ++ ev) s'.
Proof.
  induction ls as [|l ls IH]; intros tr s s' ev H HR; cbn [run_labels] in HR.
  - injection HR as <- <-. now rewrite app_nil_r.
  - destruct (ring_next s l) as [[s1 ev1]|] eqn:E; [|discriminate]. destruct (run_labels s1 ls) as [[s2 ev2]|] eqn:E2; [|discriminate]. injection HR as <- <-.
    cbn [fst snd]. rewrite app_assoc. eapply IH; [|exact E2]. eapply exec_next; [exact H|exact E].
Qed.
(** A call run to completion in [k] steps. *)
Definition whole {V} (t : nat) (o : op V) (k : nat) : list (label V) := LCall t o :: repeat (LStep t false) k.

(** C25, last clause: a non-blocking pop may report 'empty' although the ring
    holds a value all the time and was stopped before the call. *)
Definition try_pop_empty (tr : list (event nat)) : Prop :=
  exists tr1 tr2 tr3 t t', tr = tr1 ++ ERet t' (RBool true) :: tr2 ++ ECall t OpTryPop :: tr3 ++ [ERet t REmpty] /\
    length (pops tr) < length (pushes tr) /\ In (ECall t' OpStop) tr1.
Definition ex_ring_tr : list (label nat) :=
  whole 0 (OpPush 7) 3 ++ whole 0 OpStop 4 ++ [LCall 1 OpTryPop; LStep 1 false; LCall 2 OpPop; LStep 2 false] ++ whole 3 OpTryPop 2.
Theorem C25_try_pop_empty_refuted : exists cap n tr (s : ring nat), exec cap n tr s /\ try_pop_empty tr.
Proof.
  destruct (run_labels (ring_new 2 4) ex_ring_tr) as [[s ev]|] eqn:E; [|vm_compute in E; discriminate].
  exists 2, 4, ev, s. split.
  - apply (run_labels_exec 2 4 ex_ring_tr [] (ring_new 2 4) s ev); [constructor|exact E].
  - vm_compute in E. injection E as _ <-.
    exists [ECall 0 (OpPush 7); EPush 0 7; ERet 0 RPushed; ECall 0 OpStop; EStop 0], [ECall 1 OpTryPop; ECall 2 OpPop], [], 3, 0.
    split; [reflexivity|]. split; [vm_compute; repeat constructor|]. cbn [In]. auto.
Qed.
Print Assumptions C25_try_pop_empty_refuted.

(** Non-vacuity: two producers and two consumers through a ring of capacity 1,
    wrapping round, one push blocked until a pop; then a stop and a drain. *)
Definition ex_ring2 : list (label nat) :=
  [LCall 0 (OpPush 10); LCall 1 (OpPush 11); LStep 0 false; LStep 0 false; LCall 2 OpPop; LStep 0 false; LStep 2 false; LStep 2 false; LStep 2 false;
   LStep 1 false; LStep 1 false; LStep 1 false] ++ whole 3 OpSize 1 ++ whole 0 (OpTryPush 12) 2 ++ [LCall 0 OpStop; LStep 0 false; LStep 0 false; LStep 0 false; LStep 0 false]
   ++ whole 2 OpPop 3 ++ whole 3 OpPop 3.
Example C23_ex : exists tr (s : ring nat), exec 1 4 tr s /\ pushes tr = [10; 11] /\ pops tr = [10; 11] /\ storage s = [None; None] /\ head s = 0 /\
  In (ERet 0 RFull) tr /\ In (ERet 3 RStopped) tr /\ In (ERet 3 (RSize 1)) tr.
Proof.
  destruct (run_labels (ring_new 1 4) ex_ring2) as [[s ev]|] eqn:E; [|vm_compute in E; discriminate].
  exists ev, s. split; [apply (run_labels_exec 1 4 ex_ring2 [] (ring_new 1 4) s ev); [constructor|exact E]|].
  vm_compute in E. injection E as <- <-. cbn. intuition.
Qed.
(** A push blocked on a full ring, and nobody else in a call. *)
Definition ex_ring3 : list (label nat) := whole 0 (OpPush 10) 3 ++ [LCall 1 (OpPush 11)].
Example C24_ex : exists tr (s : ring nat), exec 1 2 tr s /\ blocked s 1 /\ forall t, in_call s t -> blocked s t.
Proof.
  destruct (run_labels (ring_new 1 2) ex_ring3) as [[s ev]|] eqn:E; [|vm_compute in E; discriminate].
  exists ev, s. split; [apply (run_labels_exec 1 2 ex_ring3 [] (ring_new 1 2) s ev); [constructor|exact E]|].
  vm_compute in E. injection E as <- <-.
  assert (B : blocked {| storage := [Some 10; None]; head := 0; stop_position := 2; tail := 1; stopped := false; producers := 0; data_sem := 1; space_sem := 0;
                         fault := false; assert_failed := false; threads := [Idle; PushWait 11] |} 1).
  { split; [exists (PushWait 11); split; [reflexivity|discriminate]|intros []; reflexivity]. }
  split; [exact B|]. intros [|[|t]] (p & Hp & Hn); cbn in Hp; [injection Hp as <-; congruence|exact B|destruct t; discriminate].
Qed.
(** A non-blocking pop alone in a stopped, drained ring and one before any push. *)
Example C25_ex : exists tr (s : ring nat), exec 1 1 (tr ++ [ERet 0 RStopped]) s /\ In (EStop 0) tr /\ In (ERet 0 REmpty) tr.
Proof.
  pose (ls := whole 0 OpTryPop 2 ++ whole 0 (OpPush 3) 3 ++ whole 0 OpStop 4 ++ whole 0 OpTryPop 3 ++ whole 0 OpTryPop 3 : list (label nat)).
  destruct (run_labels (ring_new 1 1) ls) as [[s ev]|] eqn:E; [|vm_compute in E; discriminate].
  pose proof (run_labels_exec 1 1 ls [] (ring_new 1 1) s ev (exec_new _ _) E) as H. vm_compute in E. injection E as <- <-.
  exists [ECall 0 OpTryPop; ERet 0 REmpty; ECall 0 (OpPush 3); EPush 0 3; ERet 0 RPushed; ECall 0 OpStop; EStop 0; ERet 0 (RBool true); ECall 0 OpTryPop; EPop 0 3; ERet 0 (RPopped 3); ECall 0 OpTryPop].
  eexists. split; [exact H|]. cbn. intuition.
Qed.
