(** C62: chunks that pass through rings. *)
From Coq Require Import List Arith Bool Lia Permutation.
From Verif Require Import ConcBase RingModel RingSpec RingProofs RingProps RingStreamProofs ChunkRingModel ChunkRingSpec ChunkRingProofs ChunkRingInv ChunkRingInv2.
Import ListNotations.

Section Props.
Context (capd capf n : nat) (chunks : list nat).
Notation cexec := (cexec capd capf n chunks).

(** No chunk is lost or duplicated: at any time each of them is in the data ring, in the
    free ring, in the window or the graveyard of a stream, with the user, in the hands of one
    thread, or has been freed by stop. *)
Lemma cnt_flat {A} (f : A -> list nat) (w : A -> nat) v l : (forall x, w x = cnt v (f x)) -> cnt v (flat_map f l) = sumw w l.
Proof. intro H. induction l as [|a l IH]; [reflexivity|]. cbn [flat_map sumw]. rewrite count_occ_app, IH, H. reflexivity. Qed.
Theorem C62_conserved tr s : cexec tr s -> exists qd qf, stored (sd s) = map Some qd /\ stored (sf s) = map Some qf /\
  Permutation chunks (qd ++ qf ++ flat_map (fun x => c_win x ++ c_grave x) (st s) ++ mine s ++ flat_map carried (cl s) ++ all_freed tr).
Proof.
  intro E. pose proof (cexec_inv _ _ _ _ _ _ E) as I. destruct (C23_fifo Nat.eq_dec _ _ _ _ (b_d _ _ _ _ _ (i_base _ _ _ _ _ _ I))) as (qd & Ed & _ & Sqd). destruct (C23_fifo Nat.eq_dec _ _ _ _ (b_f _ _ _ _ _ (i_base _ _ _ _ _ _ I))) as (qf & Ef & _ & Sqf).
  exists qd, qf. split; [exact Sqd|]. split; [exact Sqf|]. apply (Permutation_count_occ Nat.eq_dec). intro v. pose proof (i_tally _ _ _ _ _ _ I v) as T. rewrite Ed, Ef in T. rewrite !count_occ_app in *.
  rewrite (cnt_flat (fun x => c_win x ++ c_grave x) (owned v)) by (intro x; rewrite count_occ_app; reflexivity). rewrite (cnt_flat carried (carry v)) by reflexivity. lia.
Qed.

(** The chunks of a stream leave it in the order in which they were allocated: first those
    that were sent to the data ring, then those that the stopped ring refused. *)
Lemma flat_one {A} (f : A -> list nat) l : forall t c, nth_error l t = Some c -> (forall u d, u <> t -> nth_error l u = Some d -> f d = []) -> flat_map f l = f c.
Proof.
  assert (Z : forall m, (forall u d, nth_error m u = Some d -> f d = []) -> flat_map f m = []). { induction m as [|a m IH]; intro H; [reflexivity|]. cbn. rewrite (H 0 a eq_refl), IH; [reflexivity|]. intros u d Hd. exact (H (S u) d Hd). }
  induction l as [|a l IH]; intros [|t] c H K; try discriminate.
  - injection H as <-. cbn. rewrite Z; [apply app_nil_r|]. intros u d Hd. exact (K (S u) d ltac:(discriminate) Hd).
  - cbn. rewrite (K 0 a ltac:(discriminate) eq_refl). apply (IH t c H). intros u d N Hd. exact (K (S u) d ltac:(congruence) Hd).
Qed.
Lemma hand_all s i x : locks s -> nth_error (st s) i = Some x -> hand (cl s) i x = flat_map (sending i) (cl s).
Proof.
  intros L Hx. assert (O : forall u d, nth_error (cl s) u = Some d -> c_mutex x <> Some u -> sending i d = []). { intros u d Hd N. apply sending_holds. intro Ho. destruct (l_holds _ L _ _ _ Hd Ho) as (y & Hy & My & _). congruence. }
  destruct (c_mutex x) as [t|] eqn:M.
  - destruct (l_mutex _ L i x t Hx M) as (c & Hc & _). rewrite (hand_at _ _ _ _ _ M Hc). symmetry. apply (flat_one _ _ t c Hc). intros u d N Hd. apply (O u d Hd). congruence.
  - unfold hand. rewrite M. clear -O. induction (cl s) as [|a l IH]; [reflexivity|]. cbn. rewrite (O 0 a eq_refl) by discriminate. apply IH. intros u d Hd _. exact (O (S u) d Hd ltac:(discriminate)).
Qed.
Theorem C62_order tr s i x : cexec tr s -> nth_error (st s) i = Some x ->
  allocs i tr = sents i tr ++ burieds i tr ++ flat_map (sending i) (cl s) ++ c_win x.
Proof.
  intros E Hx. pose proof (cexec_inv _ _ _ _ _ _ E) as I. rewrite <- (hand_all s i x (i_locks _ _ _ _ _ _ I) Hx). exact (f_order _ _ _ _ (fs_flow _ _ (i_flows _ _ _ _ _ _ I) i x Hx)).
Qed.

(** What the streams have sent comes out of the data ring in that order, without gaps. *)
Theorem C62_data_order tr s : cexec tr s -> exists queued, all_sent tr = pops (of_d tr) ++ queued /\ length queued <= capd /\ stored (sd s) = map Some queued.
Proof. intro E. pose proof (cexec_inv _ _ _ _ _ _ E) as I. rewrite (i_sent _ _ _ _ _ _ I). apply (C23_fifo Nat.eq_dec _ _ _ _ (b_d _ _ _ _ _ (i_base _ _ _ _ _ _ I))). Qed.

(** A complete chunk is thrown away only after a stop by the user, or by a stream that was
    made when all streams before it had already finished. *)
Theorem C62_lossless tr s i v : cexec tr s -> In (Buried i v) tr -> user_stop tr \/
  exists tr1 tr2, tr = tr1 ++ tr2 /\ (exists j, In (Made j) tr1) /\ (forall j, In (Made j) tr1 -> In (Over j) tr1) /\ ~ In (Made i) tr1.
Proof.
  intros E H. destruct (y_buried _ _ (i_why _ _ _ _ _ _ (cexec_inv _ _ _ _ _ _ E)) i v H) as [U|(tr1 & tr2 & E1 & [F1 F2] & N)]; [now left|]. right. exists tr1, tr2. auto.
Qed.
(** So a stream that the network ends, while nobody calls stop and it is not the late one,
    sends all its chunks. *)
Theorem C62_complete tr s i x : cexec tr s -> ~ user_stop tr -> (forall tr1 tr2, tr = tr1 ++ tr2 -> ~ In (Made i) tr1 -> (exists j, In (Made j) tr1) -> exists j, In (Made j) tr1 /\ ~ In (Over j) tr1) ->
  nth_error (st s) i = Some x -> c_removed x = true -> allocs i tr = sents i tr.
Proof.
  intros E U N Hx R. pose proof (cexec_inv _ _ _ _ _ _ E) as I. rewrite (C62_order tr s i x E Hx), <- (hand_all s i x (i_locks _ _ _ _ _ _ I) Hx).
  assert (B : burieds i tr = []). { destruct (burieds i tr) as [|v l] eqn:B; [reflexivity|]. exfalso. assert (H : In v (burieds i tr)) by (rewrite B; now left). unfold burieds in H. apply in_flat_map in H as (e & He & Hv). destruct e; try (destruct Hv; fail). destruct (Nat.eqb_spec i0 i) as [->|]; [|destruct Hv]. destruct (C62_lossless tr s i v0 E He) as [H|(tr1 & tr2 & E1 & F1 & F2 & M)]; [contradiction|]. destruct (N tr1 tr2 E1 M F1) as (j & Hj & Oj). exact (Oj (F2 j Hj)). }
  assert (Z : hand (cl s) i x = [] /\ c_win x = []).
  { pose proof (i_locks _ _ _ _ _ _ I) as L. unfold hand. destruct (c_mutex x) as [t|] eqn:M.
    - destruct (l_mutex _ L i x t Hx M) as (c & Hc & Ho). rewrite Hc. destruct (l_holds _ L _ _ _ Hc Ho) as (y & Hy & _ & Iy). assert (y = x) by congruence. subst y. destruct c as [| |k|k g|k v [[]|] b|k []|k [] b| | | | | |]; cbn in Ho, Iy |- *; try discriminate; try (destruct Iy as [Q1 Q2]; rewrite R in Q1; symmetry in Q1; auto; fail); intuition congruence.
    - split; [reflexivity|]. destruct (l_quiet _ L i x Hx M) as [Q1 Q2]. apply Q2. congruence. }
  destruct Z as [-> ->]. rewrite B. cbn. now rewrite app_nil_r.
Qed.

(** A chunk that a stream is given has no element of its array [present] set. *)
Theorem C62_clean tr s l s' ev i v : NoDup chunks -> cexec tr s -> cnext s l = Some (s', ev) -> In (Alloc i v) ev -> ~ In v (dirty s').
Proof.
  intros ND E H A D. pose proof (cexec_inv _ _ _ _ _ _ E) as I. destruct (cinv_next _ _ _ _ _ _ _ _ _ I H) as (_ & t & c & c' & Hc & _ & M). destruct (alloc_move _ _ _ _ _ _ _ _ M A) as [-> Ed]. rewrite Ed in D.
  pose proof (i_clean _ _ _ _ _ _ I ND v D) as C. pose proof (ring_cnt _ _ _ _ v (b_f _ _ _ _ _ (i_base _ _ _ _ _ _ I))). pose proof (sumw_ge (fresh v) _ _ _ Hc) as G. cbn in G. destruct (Nat.eq_dec v v); [lia|congruence].
Qed.

(** Once stop has returned the stream owns no chunk, everything it was given was either sent
    or freed, and it does nothing any more. *)
Theorem C62_stopped tr s i : cexec tr s -> In (StopRet i) tr -> exists x, nth_error (st s) i = Some x /\ c_win x = [] /\ c_grave x = [] /\ flat_map (sending i) (cl s) = [] /\
  allocs i tr = sents i tr ++ burieds i tr /\ Permutation (burieds i tr) (freeds i tr).
Proof.
  intros E H. pose proof (cexec_inv _ _ _ _ _ _ E) as I. pose proof (i_locks _ _ _ _ _ _ I) as L. destruct (i_ret _ _ _ _ _ _ I i H) as (x & Hx & R & G & W). exists x. split; [exact Hx|]. split; [exact W|]. split; [exact G|].
  assert (Z : flat_map (sending i) (cl s) = []).
  { rewrite <- (hand_all s i x L Hx). unfold hand. destruct (c_mutex x) as [t|] eqn:M; [|reflexivity]. destruct (l_mutex _ L i x t Hx M) as (c & Hc & Ho). rewrite Hc. destruct (removed_out s t c i x L Hc Hx R W Ho) as [-> | ->]; reflexivity. }
  split; [exact Z|]. split.
  - rewrite (C62_order tr s i x E Hx), Z, W. now rewrite !app_nil_r.
  - apply (Permutation_count_occ Nat.eq_dec). intro v. rewrite (f_grave _ _ _ _ (fs_flow _ _ (i_flows _ _ _ _ _ _ I) i x Hx) v), G. cbn. lia.
Qed.
Lemma ret_last t s s' c c' ev m i r : move t s s' c c' ev -> ev = m ++ StopRet i :: r -> r = [].
Proof.
  intros M E. assert (H : In (StopRet i) ev) by (rewrite E; apply in_elt). destruct M; cbn in H; try (decompose [or] H; discriminate || contradiction); try (destruct H; fail). clear H. revert m E. induction (c_grave x) as [|g l IH]; intros [|e m] E; cbn in E.
  - now injection E.
  - injection E as _ E. now destruct m.
  - discriminate.
  - injection E as _ E. exact (IH m E).
Qed.
Theorem C62_silent tr1 tr2 s i : cexec (tr1 ++ StopRet i :: tr2) s -> allocs i tr2 = [] /\ sents i tr2 = [] /\ burieds i tr2 = [] /\ freeds i tr2 = [].
Proof.
  intro E. cut (forallb (fun e => negb (about i e)) tr2 = true). { intro A. destruct (about_none _ _ A) as (? & ? & ? & ? & _). auto. }
  remember (tr1 ++ StopRet i :: tr2) as tr eqn:Et. revert tr1 tr2 Et. induction E as [|tr s l s' ev E IH H]; intros tr1 tr2 Et; [now destruct tr1|].
  pose proof (cexec_inv _ _ _ _ _ _ E) as I. destruct (cinv_next _ _ _ _ _ _ _ _ _ I H) as (_ & t & c & c' & Hc & Hcl & M). destruct (ret_move _ _ _ _ _ _ _ (i_locks _ _ _ _ _ _ I) (i_know _ _ _ _ _ _ I) (i_ret _ _ _ _ _ _ I) Hc Hcl M) as [_ A].
  apply app_eq_app in Et as (m & [[-> Em]|[-> Em]]).
  - destruct m as [|e m]; cbn in Em.
    + now rewrite (ret_last _ _ _ _ _ _ [] i tr2 M (eq_sym Em)).
    + injection Em as <- ->. rewrite forallb_app, (IH tr1 m eq_refl). cbn. apply A. apply in_or_app. right. now left.
  - now rewrite (ret_last _ _ _ _ _ _ m i tr2 M Em).
Qed.

(** *** Stop completes *)
Lemma step_dec (g : ring nat) : (exists u sp r, step g u sp = Some r) \/ forall u sp, step g u sp = None.
Proof.
  assert (K : forall k, (exists u sp r, step g u sp = Some r) \/ forall u sp, u < k -> step g u sp = None).
  { induction k as [|k [IH|IH]]; [right; lia|now left|]. destruct (step g k true) as [r|] eqn:E1; [left; eauto|]. destruct (step g k false) as [r|] eqn:E2; [left; eauto|]. right. intros u sp H. destruct (Nat.eq_dec u k) as [->|N]; [now destruct sp|apply IH; lia]. }
  destruct (K (length (threads g))) as [H|H]; [now left|]. right. intros u sp. destruct (Nat.lt_ge_cases u (length (threads g))) as [G|G]; [now apply H|]. unfold step. apply nth_error_None in G. now rewrite G.
Qed.
Lemma ring_moves cap tr (g : ring nat) t p : exec cap n tr g -> nth_error (threads g) t = Some p -> p <> Idle -> stopped g = true -> exists u sp r, step g u sp = Some r.
Proof.
  intros E Hp N St. destruct (step_dec g) as [H|H]; [exact H|]. exfalso. destruct (exec_inv Nat.eq_dec _ _ _ _ E) as (m & D & F & HM & HI).
  destruct (C24_no_lost_wakeup Nat.eq_dec _ _ _ _ _ E HM) with (t := t) as [Z _]; [intros u Hu; split; [exact Hu|intro sp; apply H]|exists p; auto|]. rewrite <- (iv_stopped _ _ _ _ _ HI) in Z. congruence.
Qed.
Lemma stop_moves (g : ring nat) t p : nth_error (threads g) t = Some p -> stopst p \/ (exists b, remst b p) -> exists r, step g t false = Some r.
Proof.
  intros Hp H. unfold step. rewrite Hp. destruct H as [[->|[(k & ->)|[->| ->]]]|[[] H]]; cbn in *; eauto.
  - destruct H as [(k & ->)|[->| ->]]; eauto.
  - subst p. cbn [andb]. match goal with |- context [if ?b then _ else _] => destruct b end; eauto.
Qed.
Lemma enabled_d tr s u sp r : cinv capd capf n chunks tr s -> step (sd s) u sp = Some r -> exists r', cnext s (LData u sp) = Some r'.
Proof.
  intros I H. destruct r as [g e]. cbn [cnext ring_next]. rewrite H. pose proof (i_base _ _ _ _ _ _ I) as B. destruct (step_info _ _ _ _ _ H) as (p & _ & Hp & _).
  destruct (nth_error (cl s) u) as [c|] eqn:Hc; [|apply nth_error_None in Hc; apply nth_lt in Hp; rewrite (b_len _ _ _ _ _ B) in Hc; rewrite (exec_len _ _ _ _ (b_d _ _ _ _ _ B)) in Hp; lia].
  assert (Ih := fun i => l_holds _ (i_locks _ _ _ _ _ _ I) _ _ i Hc). destruct e as [|[] ?]; eauto; try (destruct (effect _ _); eauto). destruct c; cbn [returned_d]; eauto; try (destruct r; eauto; fail).
  - destruct r; eauto. cbn [st set_d]. destruct (Ih _ eq_refl) as (x & -> & _). eauto.
  - cbn [st set_d]. destruct (Ih _ eq_refl) as (x & -> & _). eauto.
Qed.
Lemma enabled_f tr s u sp r : cinv capd capf n chunks tr s -> step (sf s) u sp = Some r -> exists r', cnext s (LFree u sp) = Some r'.
Proof.
  intros I H. destruct r as [g e]. cbn [cnext ring_next]. rewrite H. pose proof (i_base _ _ _ _ _ _ I) as B. destruct (step_info _ _ _ _ _ H) as (p & _ & Hp & _).
  destruct (nth_error (cl s) u) as [c|] eqn:Hc; [|apply nth_error_None in Hc; apply nth_lt in Hp; rewrite (b_len _ _ _ _ _ B) in Hc; rewrite (exec_len _ _ _ _ (b_f _ _ _ _ _ B)) in Hp; lia].
  assert (Ih := fun i => l_holds _ (i_locks _ _ _ _ _ _ I) _ _ i Hc). destruct e as [|[] ?]; eauto; try (destruct (effect _ _); eauto). destruct c; cbn [returned_f]; eauto; try (destruct r; eauto; fail).
  - destruct r; eauto. cbn [st set_f]. destruct (Ih _ eq_refl) as (x & -> & _). eauto.
  - destruct (base_threads _ _ _ _ _ _ _ B Hc) as (pd & pf & Hd & Hf & -> & _). unfold call_d, ring_next. cbn [sd set_f]. rewrite Hd. eauto.
Qed.
(** While a thread is in a call of stop, some thread can go on by itself. *)
Theorem C62_not_stuck tr s t c : cexec tr s -> nth_error (cl s) t = Some c -> stopping c = true -> exists l r, internal l = true /\ cnext s l = Some r.
Proof.
  intros E Hc St. pose proof (cexec_inv _ _ _ _ _ _ E) as I. pose proof (i_base _ _ _ _ _ _ I) as B. pose proof (i_locks _ _ _ _ _ _ I) as L. pose proof (i_know _ _ _ _ _ _ I _ _ Hc) as K.
  assert (D1 : forall u c p, nth_error (cl s) u = Some c -> nth_error (threads (sd s)) u = Some p -> p <> Idle -> Sd s = true -> exists l r, internal l = true /\ cnext s l = Some r).
  { intros u d p Hd Hp N S. destruct (ring_moves _ _ _ _ _ (b_d _ _ _ _ _ B) Hp N S) as (v & sp & r & R). destruct (enabled_d _ _ _ _ _ I R) as (r' & R'). exists (LData v sp), r'. auto. }
  assert (F1 : forall u c p, nth_error (cl s) u = Some c -> nth_error (threads (sf s)) u = Some p -> p <> Idle -> Sf s = true -> exists l r, internal l = true /\ cnext s l = Some r).
  { intros u d p Hd Hp N S. destruct (ring_moves _ _ _ _ _ (b_f _ _ _ _ _ B) Hp N S) as (v & sp & r & R). destruct (enabled_f _ _ _ _ _ I R) as (r' & R'). exists (LFree v sp), r'. auto. }
  assert (Flush : forall u i f, nth_error (cl s) u = Some (KFlush i f) -> exists l r, internal l = true /\ cnext s l = Some r).
  { intros u i f Hu. exists (LRun u). cbn [cnext]. rewrite Hu. destruct (l_holds _ L _ _ _ Hu eq_refl) as (x & -> & _). destruct (base_threads _ _ _ _ _ _ _ B Hu) as (pd & pf & Hd & Hf & -> & _). unfold run_flush, call_d, ring_next. cbn [sd put set_st]. rewrite Hd. destruct (c_win x); [destruct f|]; eauto. }
  assert (Remove : forall u i f e, nth_error (cl s) u = Some (KRemove i f e) -> exists l r, internal l = true /\ cnext s l = Some r).
  { intros u i f e Hu. destruct (base_threads _ _ _ _ _ _ _ B Hu) as (pd & pf & Hd & Hf & Ok & _). destruct (stop_moves _ _ _ Hd (or_intror (ex_intro (fun b => remst b pd) e Ok))) as (r & R). destruct (enabled_d _ _ _ _ _ I R) as (r' & R'). exists (LData u false), r'. auto. }
  assert (Ready : forall u i v k e, nth_error (cl s) u = Some (KReady i v k e) -> Sd s = true -> exists l r, internal l = true /\ cnext s l = Some r).
  { intros u i v k e Hu S. destruct (base_threads _ _ _ _ _ _ _ B Hu) as (pd & pf & Hd & Hf & Ok & _). eapply (D1 u _ pd Hu Hd); [|exact S]. intros ->. destruct e; cbn in Ok; [discriminate|]. decompose [or] Ok; discriminate. }
  assert (Want : forall u i ph, nth_error (cl s) u = Some (KWant i ph) -> i < length (st s) -> Sd s = true -> Sf s = true -> exists l r, internal l = true /\ cnext s l = Some r).
  { intros u i ph Hu Hi S1 S2. destruct (nth_error (st s) i) as [x|] eqn:Hx; [|apply nth_error_None in Hx; lia]. destruct (c_mutex x) as [w|] eqn:M.
    - destruct (l_mutex _ L i x w Hx M) as (d & Hd & Ho). destruct d as [| |j|j got|j v k e|j f|j f e| | | | | |]; try discriminate.
      + exists (LUnlock w). cbn [cnext]. rewrite Hd. injection Ho as ->. rewrite Hx. eauto.
      + destruct (base_threads _ _ _ _ _ _ _ B Hd) as (pd & pf & Hpd & Hpf & _ & Ok & _). eapply (F1 w _ pf Hd Hpf); [|exact S2]. intros ->. destruct got; cbn in Ok; [discriminate|]. decompose [or] Ok; discriminate.
      + eapply Ready; eauto.
      + eapply Flush; eauto.
      + eapply Remove; eauto.
    - exists (LRun u). cbn [cnext]. rewrite Hu, Hx, M. unfold run_want. destruct ph; [eauto| |eauto]. destruct (c_done x); eauto. }
  destruct c as [| |i|i got|i v [[]|] sent|i []|i [] e|i|i|i ph|v sent|b got|b]; try discriminate; cbn in K.
  - eapply Ready; [exact Hc|tauto].
  - eapply Ready; [exact Hc|tauto].
  - eapply Flush; eauto.
  - eapply Flush; eauto.
  - eapply Remove; eauto.
  - destruct (base_threads _ _ _ _ _ _ _ B Hc) as (pd & pf & Hd & Hf & _ & Ok). destruct (stop_moves _ _ _ Hf (or_introl Ok)) as (r & R). destruct (enabled_f _ _ _ _ _ I R) as (r' & R'). exists (LFree t false), r'. auto.
  - destruct (base_threads _ _ _ _ _ _ _ B Hc) as (pd & pf & Hd & Hf & Ok & _). destruct (stop_moves _ _ _ Hd (or_introl Ok)) as (r & R). destruct (enabled_d _ _ _ _ _ I R) as (r' & R'). exists (LData t false), r'. auto.
  - apply (Want t i ph Hc); destruct ph; try tauto. destruct K as [(x & Hx & _) _]. eapply nth_lt; eauto.
Qed.

(** Such steps cannot go on for ever, so stop returns. *)
Definition wf (f : fin) : nat := match f with UserFlush => 10 | _ => 8 end.
Definition wc (c : client) : nat :=
  match c with
  | KIdle => 0
  | KNew | KHeld _ | KAdd _ _ | KGet _ _ | KExt _ => 1
  | KAlloc _ _ => 12
  | KReady _ _ None _ => 2
  | KReady _ _ (Some f) _ => S (wf f)
  | KFlush _ f => wf f
  | KRemove _ _ _ => 2
  | KStopFree _ => 17 | KStopData _ => 12
  | KWant _ P1 => 11 | KWant _ P2 => 9 | KWant _ P3 => 1
  end.
Definition work (s : cstate) : nat :=
  sumw left (threads (sd s)) + sumw left (threads (sf s)) + sumw wc (cl s) + 10 * sumw (fun x => length (c_win x)) (st s).
Lemma call_left (g : ring nat) t o r : ring_next g (LCall t o) = Some r -> sumw left (threads (fst r)) = sumw left (threads g) + left (start o).
Proof. destruct r as [g' ev]. intro H. apply call_ring in H as (Hi & -> & _). cbn. pose proof (sumw_upd (@left nat) _ _ _ (start o) Hi) as E. cbn in E. lia. Qed.
Lemma sumw_put (l : list cstream) i x x' : nth_error l i = Some x -> c_win x' = c_win x -> sumw (fun x => length (c_win x)) (upd l i x') = sumw (fun x => length (c_win x)) l.
Proof. intros H E. pose proof (sumw_upd (fun x => length (c_win x)) _ _ _ x' H) as S. cbn in S. rewrite E in S. lia. Qed.
Lemma work_less s l r : internal l = true -> cnext s l = Some r -> work (fst r) < work s.
Proof.
  destruct r as [s' ev]. intros In H. cbn [fst]. destruct l; try discriminate; cbn [cnext] in H.
  - (* LUnlock *) destruct (nth_error (cl s) t) as [[]|] eqn:Hc; try discriminate. destruct (nth_error (st s) i) as [x|] eqn:Hx; [|discriminate]. injection H as <- <-. unfold work. cbn [goto put set_st sd sf cl st]. rewrite (sumw_put _ _ _ _ Hx) by reflexivity. pose proof (sumw_upd wc _ _ _ KIdle Hc). cbn in *. lia.
  - (* LRun *) destruct (nth_error (cl s) t) as [[| | | | |i f| | | |i ph| | |]|] eqn:Hc; try discriminate.
    + destruct (nth_error (st s) i) as [x|] eqn:Hx; [|discriminate]. unfold run_flush, call_d in H. destruct (c_win x) as [|v w] eqn:W.
      * destruct f.
        -- destruct (ring_next (sd s) _) as [[g e]|] eqn:R; [|discriminate]. injection H as <- <-. apply call_left in R. unfold work. cbn in *. pose proof (sumw_upd wc _ _ _ (KRemove i NetStop false) Hc). cbn in *. lia.
        -- injection H as <- <-. unfold work. cbn [goto put set_st sd sf cl st]. rewrite (sumw_put _ _ _ _ Hx) by reflexivity. pose proof (sumw_upd wc _ _ _ (KWant i P2) Hc). cbn in *. lia.
        -- destruct (ring_next (sd s) _) as [[g e]|] eqn:R; [|discriminate]. injection H as <- <-. apply call_left in R. unfold work. cbn in *. pose proof (sumw_upd wc _ _ _ (KRemove i UserStop false) Hc). cbn in *. lia.
      * change (sd (put i (with_win x w) s)) with (sd s) in H. destruct (ring_next (sd s) _) as [[g e]|] eqn:R; [|discriminate]. injection H as <- <-. apply call_left in R. unfold work. cbn [goto put set_d set_st sd sf cl st fst left start] in *. pose proof (sumw_upd wc _ _ _ (KReady i v (Some f) false) Hc). pose proof (sumw_upd (fun x => length (c_win x)) _ _ _ (with_win x w) Hx) as S. cbn in S. rewrite W in S. cbn in *. lia.
    + destruct (nth_error (st s) i) as [x|] eqn:Hx; [|discriminate]. destruct (c_mutex x); [discriminate|]. unfold run_want in H. destruct ph.
      * injection H as <- <-. unfold work. cbn [goto put set_st sd sf cl st]. rewrite (sumw_put _ _ _ _ Hx) by reflexivity. pose proof (sumw_upd wc _ _ _ (KFlush i UserFlush) Hc). cbn in *. lia.
      * destruct (c_done x); injection H as <- <-; unfold work; cbn [goto put set_st sd sf cl st]; rewrite ?(sumw_put _ _ _ _ Hx) by reflexivity.
        -- pose proof (sumw_upd wc _ _ _ (KWant i P3) Hc). cbn in *. lia.
        -- pose proof (sumw_upd wc _ _ _ (KFlush i UserStop) Hc). cbn in *. lia.
      * injection H as <- <-. unfold work. cbn [goto put set_st sd sf cl st]. rewrite (sumw_put _ _ _ _ Hx) by reflexivity. pose proof (sumw_upd wc _ _ _ KIdle Hc). cbn in *. lia.
  - (* LData *) destruct (ring_next (sd s) (LStep t spurious)) as [[g e]|] eqn:R; [|discriminate]. destruct (nth_error (cl s) t) as [c|] eqn:Hc; [|discriminate]. apply step_left in R.
    assert (K : forall c' x m, wc c' <= wc c -> sumw (fun x => length (c_win x)) x = sumw (fun x => length (c_win x)) (st s) -> work {| sd := g; sf := sf s; cl := upd (cl s) t c'; st := x; mine := m; dirty := dirty s |} < work s).
    { intros c' x m W E. unfold work. cbn [sd sf cl st]. rewrite E. pose proof (sumw_upd wc _ _ _ c' Hc). lia. }
    assert (Ke : forall c' ev', wc c' = wc c -> Some (goto t c' (set_d g s), ev') = Some (s', ev) -> work s' < work s). { intros c' ev' W E. injection E as <- _. apply K; [lia|reflexivity]. }
    assert (Kf : forall e, wc (fst (effect c e)) = wc c) by (intro e0; destruct c as [| | | |? ? [] ?| | | | | | | |], e0; reflexivity).
    destruct e as [|[] ?]; try (match type of H with context [effect c ?e] => specialize (Kf e); destruct (effect c e) as [c' ev'] end; eapply Ke; eauto; fail).
    + injection H as <- <-. unfold work. cbn [set_d sd sf cl st]. lia.
    + destruct (returned_d (set_d g s) t c r) as [[s2 e2]|] eqn:Rd; [|discriminate]. injection H as <- <-.
      destruct c as [| |i|i got|i v k sent|i f|i f eff|i|i|i ph|v sent|b got|b]; cbn [returned_d] in Rd; change (st (set_d g s)) with (st s) in Rd;
        try (injection Rd as <- <-; apply K; [cbn; lia|reflexivity]; fail).
      * injection Rd as <- <-. apply K; [cbn; lia|]. cbn [set_st st set_d]. rewrite sumw_app. cbn. lia.
      * assert (wc (back i k) <= wc (KReady i v k sent)) by (destruct k; cbn; lia). destruct r; try (injection Rd as <- <-; apply K; [assumption|reflexivity]; fail). destruct (nth_error (st s) i) as [x|] eqn:Hx; [|discriminate]. injection Rd as <- <-. apply K; [assumption|]. now apply (sumw_put _ _ _ _ Hx).
      * destruct (nth_error (st s) i) as [x|] eqn:Hx; [|discriminate]. injection Rd as <- <-. apply K; [destruct f; cbn; lia|]. now apply (sumw_put _ _ _ _ Hx).
      * destruct r; injection Rd as <- <-; apply K; cbn; try lia; reflexivity.
  - (* LFree *) destruct (ring_next (sf s) (LStep t spurious)) as [[g e]|] eqn:R; [|discriminate]. destruct (nth_error (cl s) t) as [c|] eqn:Hc; [|discriminate]. apply step_left in R.
    assert (K : forall c' x m, wc c' + 10 * sumw (fun x => length (c_win x)) x <= wc c + 10 * sumw (fun x => length (c_win x)) (st s) -> work {| sd := sd s; sf := g; cl := upd (cl s) t c'; st := x; mine := m; dirty := dirty s |} < work s).
    { intros c' x m W. unfold work. cbn [sd sf cl st]. pose proof (sumw_upd wc _ _ _ c' Hc). lia. }
    assert (Ke : forall c' ev', wc c' = wc c -> Some (goto t c' (set_f g s), ev') = Some (s', ev) -> work s' < work s). { intros c' ev' W E. injection E as <- _. apply K. cbn. lia. }
    assert (Kf : forall e, wc (fst (effect c e)) = wc c) by (intro e0; destruct c as [| | | |? ? [] ?| | | | | | | |], e0; reflexivity).
    destruct e as [|[] ?]; try (match type of H with context [effect c ?e] => specialize (Kf e); destruct (effect c e) as [c' ev'] end; eapply Ke; eauto; fail).
    + injection H as <- <-. unfold work. cbn [set_f sd sf cl st]. lia.
    + destruct (returned_f (set_f g s) t c r) as [[s2 e2]|] eqn:Rd; [|discriminate]. injection H as <- <-.
      destruct c as [| |i|i got|i v k sent|i f|i f eff|i|i|i ph|v sent|b got|b]; cbn [returned_f] in Rd; change (st (set_f g s)) with (st s) in Rd;
        try (injection Rd as <- <-; apply K; cbn; lia).
      * destruct r; try (injection Rd as <- <-; apply K; cbn; lia). destruct (nth_error (st s) i) as [x|] eqn:Hx; [|discriminate]. injection Rd as <- <-. apply K. cbn [put set_st st set_f]. pose proof (sumw_upd (fun x => length (c_win x)) _ _ _ (with_win x (c_win x ++ [v])) Hx) as S. cbn in S. rewrite app_length in S. cbn in *. lia.
      * unfold call_d in Rd. change (sd (set_f g s)) with (sd s) in Rd. destruct (ring_next (sd s) _) as [[g2 e3]|] eqn:R2; [|discriminate]. injection Rd as <- <-. apply call_left in R2. unfold work. cbn [goto set_d set_f sd sf cl st fst left start] in *. pose proof (sumw_upd wc _ _ _ (KStopData i) Hc). cbn in *. lia.
      * destruct r; injection Rd as <- <-; apply K; cbn; lia.
Qed.
Inductive runs : cstate -> nat -> cstate -> Prop :=
| runs_nil s : runs s 0 s
| runs_cons s l s' ev k s'' : internal l = true -> cnext s l = Some (s', ev) -> runs s' k s'' -> runs s (S k) s''.
Theorem C62_terminates s k s' : runs s k s' -> k + work s' <= work s.
Proof. induction 1 as [|s l s' ev k s'' In H R IH]; [lia|]. pose proof (work_less s l _ In H) as W. cbn [fst] in W. lia. Qed.
End Props.
Print Assumptions C62_conserved.
Print Assumptions C62_order.
Print Assumptions C62_data_order.
Print Assumptions C62_lossless.
Print Assumptions C62_complete.
Print Assumptions C62_clean.
Print Assumptions C62_stopped.
Print Assumptions C62_silent.
Print Assumptions C62_not_stuck.
Print Assumptions C62_terminates.

(** *** Examples *)
Lemma crun_exec capd capf n chunks ls : forall tr s s' ev, cexec capd capf n chunks tr s -> crun s ls = Some (s', ev) -> cexec capd capf n chunks (tr ++ ev) s'.
Proof.
  induction ls as [|l ls IH]; intros tr s s' ev E H; cbn in H.
  - injection H as <- <-. now rewrite app_nil_r.
  - destruct (cnext s l) as [[s1 e1]|] eqn:H1; [|discriminate]. destruct (crun s1 ls) as [[s2 e2]|] eqn:H2; [|discriminate]. injection H as <- <-. cbn [fst snd]. rewrite app_assoc. eapply IH; [|exact H2]. econstructor; eauto.
Qed.
Definition d (t k : nat) : list clabel := repeat (LData t false) k.
Definition f (t k : nat) : list clabel := repeat (LFree t false) k.
(** Thread 0 makes a stream and adds two chunks of three; thread 1 is given both, fills them
    and sends them; the user takes one; the network ends the stream. *)
Definition ex_a : list clabel :=
  [LNew 0] ++ d 0 1 ++ [LAdd 0 10] ++ f 0 3 ++ [LAdd 0 11] ++ f 0 3 ++
  [LLock 1 0; LAlloc 1] ++ f 1 3 ++ [LTouch 1 10; LAlloc 1] ++ f 1 3 ++ [LReady 1] ++ d 1 3 ++ [LGet 2 false] ++ d 2 3 ++ [LUse 2 10].
Definition ex_net : list clabel := [LNetStop 1; LRun 1] ++ d 1 3 ++ [LRun 1] ++ d 1 4.
Example C62_ex_net : exists tr s x, cexec 1 2 3 [10; 11; 12] tr s /\ nth_error (st s) 0 = Some x /\ c_removed x = true /\ In (Over 0) tr /\ allocs 0 tr = [10; 11] /\ sents 0 tr = [10; 11] /\ mine s = [10; 12] /\
  stored (sd s) = [Some 11] /\ stopped (sd s) = true /\ stopped (sf s) = false /\ dirty s = [10; 10; 12].
Proof.
  destruct (crun (cinit 1 2 3 [10; 11; 12]) (ex_a ++ ex_net)) as [[s ev]|] eqn:R; [|vm_compute in R; discriminate]. pose proof (crun_exec _ _ _ _ _ _ _ _ _ (cx_new 1 2 3 [10; 11; 12]) R) as E. cbn [app] in E. exists ev, s.
  vm_compute in R. injection R as <- <-. eexists. split; [exact E|]. split; [reflexivity|]. vm_compute. intuition.
Qed.
(** The same stream; a third chunk has come, the data ring is full and thread 1 waits inside
    push when thread 2 calls stop. *)
Definition ex_b : list clabel := ex_a ++ [LReady 1] ++ d 1 3 ++ [LAdd 0 10] ++ f 0 3 ++ [LAdd 0 12] ++ f 0 3 ++ [LAlloc 1] ++ f 1 3 ++ [LAlloc 1] ++ f 1 3 ++ [LReady 1; LStop 2 0].
Definition ex_stop : list clabel := f 2 4 ++ d 2 4 ++ d 1 3 ++ [LUnlock 1; LRun 2; LRun 2] ++ d 2 3 ++ [LRun 2; LRun 2; LRun 2] ++ d 2 4 ++ [LRun 2].
Example C62_ex_stop : exists tr s, cexec 1 2 3 [10; 11; 12] tr s /\ nth_error (cl s) 2 = Some (KStopFree 0) /\ nth_error (cl s) 1 = Some (KReady 0 10 None false) /\ blocked (sd s) 1 /\ user_stop tr /\
  exists k s', runs s k s' /\ k = length ex_stop /\ exists tr', cexec 1 2 3 [10; 11; 12] (tr ++ tr') s' /\ In (StopRet 0) tr' /\ allocs 0 (tr ++ tr') = [10; 11; 10; 12] /\ sents 0 (tr ++ tr') = [10; 11] /\ burieds 0 (tr ++ tr') = [10; 12] /\ freeds 0 (tr ++ tr') = [12; 10] /\ mine s' = [].
Proof.
  destruct (crun (cinit 1 2 3 [10; 11; 12]) ex_b) as [[s ev]|] eqn:R; [|vm_compute in R; discriminate]. pose proof (crun_exec _ _ _ _ _ _ _ _ _ (cx_new 1 2 3 [10; 11; 12]) R) as E. cbn [app] in E. exists ev, s.
  vm_compute in R. injection R as <- <-. split; [exact E|]. split; [reflexivity|]. split; [reflexivity|]. split.
  { split; [eexists; split; [reflexivity|discriminate]|]. intros []; reflexivity. }
  split; [right; exists 0; vm_compute; intuition|].
  match type of E with cexec _ _ _ _ _ ?s => destruct (crun s ex_stop) as [[s' ev']|] eqn:R'; [|vm_compute in R'; discriminate]; pose proof (crun_exec _ _ _ _ _ _ _ _ _ E R') as E' end.
  exists (length ex_stop), s'. split.
  - clear E E'. assert (A : forallb internal ex_stop = true) by reflexivity. revert A R'. generalize ex_stop. match goal with |- forall l, _ -> crun ?s l = _ -> _ => generalize s end. clear. intros s l. revert s s' ev'. induction l as [|l ls IH]; intros s s' ev' A H; cbn in *.
    + injection H as <- <-. constructor.
    + apply andb_prop in A as [A1 A2]. destruct (cnext s l) as [[s1 e1]|] eqn:H1; [|discriminate]. destruct (crun s1 ls) as [[s2 e2]|] eqn:H2; [|discriminate]. injection H as <- <-. econstructor; eauto.
  - split; [reflexivity|]. exists ev'. split; [exact E'|]. vm_compute in R'. injection R' as <- <-. vm_compute. intuition.
Qed.
(** A stream that is made after the only other one has finished finds the data ring stopped. *)
Definition ex_late : list clabel := [LNew 0] ++ d 0 1 ++ [LLock 1 0; LNetStop 1; LRun 1] ++ d 1 4 ++ [LNew 0] ++ d 0 1 ++ [LAdd 0 10] ++ f 0 3 ++ [LLock 1 1; LAlloc 1] ++ f 1 3 ++ [LReady 1] ++ d 1 3.
Example C62_ex_late : exists tr s, cexec 1 2 3 [10] tr s /\ ~ user_stop tr /\ In (Buried 1 10) tr /\ In (Alloc 1 10) tr.
Proof.
  destruct (crun (cinit 1 2 3 [10]) ex_late) as [[s ev]|] eqn:R; [|vm_compute in R; discriminate]. pose proof (crun_exec _ _ _ _ _ _ _ _ _ (cx_new 1 2 3 [10]) R) as E. cbn [app] in E. exists ev, s.
  vm_compute in R. injection R as <- <-. split; [exact E|]. split; [|split; cbn; intuition]. intros [H|[i H]]; cbn in H; decompose [or] H; discriminate || contradiction.
Qed.
