(** C47: what a ring stream does with the heaps that the stream hands over. *)
From Coq Require Import List Arith Bool Lia.
From Verif Require Import ConcBase RingModel RingSpec RingProofs RingProps RingStreamModel RingStreamSpec RingStreamProofs.
Import ListNotations.

Section Props.
Context {V : Type} (eqV : forall a b : V, {a = b} + {a <> b}) (contiguous : V -> bool) (contiguous_only : bool).
Notation rs_exec := (rs_exec contiguous contiguous_only).
(** The heaps that are to be delivered *)
Definition wanted (h : V) : bool := if contiguous_only then contiguous h else true.
Lemma wanted_keep h : wanted h = keep contiguous contiguous_only h.
Proof. unfold wanted, keep. destruct contiguous_only; reflexivity. Qed.
Lemma filter_wanted l : filter wanted l = filter (keep contiguous contiguous_only) l.
Proof. apply filter_ext. exact wanted_keep. Qed.

(** Unless the user has called stop() and that has taken effect: the heaps handed
    over are, in order, those popped, those in the ring, and at most one that
    heap_ready is still pushing.  None is lost, whether or not the ring is full. *)
Theorem C47_lossless cap n tr s : rs_exec cap n tr s -> rs_ext s = false \/ stopped (rs_ring s) = false ->
  exists queued waiting, filter wanted (handed tr) = pops (of_ring tr) ++ queued ++ waiting /\ stored (rs_ring s) = map Some queued /\ length queued <= cap /\ length waiting <= 1 /\ (quiet s -> waiting = []).
Proof.
  intros E H. pose proof (rs_exec_inv eqV _ _ _ _ _ _ E) as I. destruct (C23_fifo eqV _ _ _ _ (i_ring _ _ _ _ _ _ I)) as (q & Q1 & Q2 & Q3). exists q, (pend s). rewrite filter_wanted, (i_main _ _ _ _ _ _ I H), Q1, <- app_assoc. split; [reflexivity|]. split; [exact Q3|]. split; [exact Q2|]. unfold pend. split.
  - destruct (rs_mutex s) as [t|]; [|cbn; lia]. destruct (nth_error (rs_cl s) t) as [c|]; [|cbn; lia]. destruct (nth_error (threads (rs_ring s)) t) as [p|]; [|cbn; lia]. destruct c; cbn [pend_of]; try (cbn; lia); destruct p; cbn; lia.
  - intro Qu. destruct (rs_mutex s) as [t|]; [|reflexivity]. destruct (nth_error (rs_cl s) t) as [c|] eqn:C; [|reflexivity]. rewrite (Qu t c C). destruct (nth_error (threads (rs_ring s)) t); reflexivity.
Qed.
(** In any case what gets into the ring is an initial part of what was handed over, *)
Theorem C47_prefix cap n tr s : rs_exec cap n tr s -> exists rest, filter wanted (handed tr) = pushes (of_ring tr) ++ rest.
Proof. intro E. pose proof (rs_exec_inv eqV _ _ _ _ _ _ E) as I. rewrite filter_wanted. apply (i_pre _ _ _ _ _ _ I). Qed.
(** and heaps are dropped only if they are not wanted or stop() was called. *)
Theorem C47_dropped cap n tr s h : rs_exec cap n tr s -> In h (dropped tr) -> wanted h = true -> rs_ext s = true /\ exists t, In (EStop t) (of_ring tr).
Proof.
  intros E J W. pose proof (rs_exec_inv eqV _ _ _ _ _ _ E) as I. rewrite wanted_keep in W. assert (D : In (Dropped h) tr) by (apply in_flat_map in J as (e & J & K); destruct e; try (destruct K; fail); destruct K as [<-|[]]; exact J). split.
  - destruct (rs_ext s) eqn:X; [reflexivity|]. rewrite (i_nodrop _ _ _ _ _ _ I X h D) in W. discriminate.
  - pose proof (i_fine _ _ _ _ _ _ I) as F. rewrite Forall_forall in F. specialize (F _ D). cbn in F. destruct F as [F|F]; [congruence|exact F].
Qed.

(** A consumer takes the heaps that it pops one after the other.  pop and try_pop
    return exactly those that are contiguous. *)
Theorem C47_consumer cap n tr s t p : rs_exec cap n tr s -> nth_error (threads (rs_ring s)) t = Some p ->
  (exists now, pops_by t (of_ring tr) = map fst (taken_by t tr) ++ now /\ length now <= 1 /\ (quiet s -> now = [])) /\
  (forall h, In (Skipped t h) tr -> contiguous h = false) /\ (forall h, In (Returned t false h) tr -> contiguous h = true).
Proof.
  intros E Hp. pose proof (rs_exec_inv eqV _ _ _ _ _ _ E) as I. pose proof (i_fine _ _ _ _ _ _ I) as F. rewrite Forall_forall in F. split; [|split].
  - exists (infl p). split; [now apply (i_pop _ _ _ _ _ _ I)|]. split; [destruct p; cbn; lia|]. intro Q. destruct (nth_error (rs_cl s) t) as [c|] eqn:C; [|exfalso; apply nth_error_None in C; rewrite (i_len _ _ _ _ _ _ I) in C; assert (t < length (threads (rs_ring s))) by (apply nth_error_Some; congruence); lia]. pose proof (i_cl _ _ _ _ _ _ I t c p C Hp) as O. rewrite (Q t c C) in O. cbn in O. now subst.
  - intros h J. exact (F _ J).
  - intros h J. destruct (F _ J) as [[X|X] _]; [discriminate|assumption].
Qed.
(** With contiguous_only, nothing that is not contiguous is ever returned. *)
Theorem C47_contiguous_only cap n tr s t live h : rs_exec cap n tr s -> contiguous_only = true -> In (Returned t live h) tr -> contiguous h = true.
Proof.
  intros E Co J. pose proof (rs_exec_inv eqV _ _ _ _ _ _ E) as I.
  pose proof (i_fine _ _ _ _ _ _ I) as F. rewrite Forall_forall in F. destruct (F _ J) as [_ K]. destruct (C23_fifo eqV _ _ _ _ (i_ring _ _ _ _ _ _ I)) as (q & Q1 & _). destruct (i_pre _ _ _ _ _ _ I) as (rest & R).
  assert (W : In h (filter (keep contiguous contiguous_only) (handed tr))) by (rewrite R, Q1; apply in_or_app; left; apply in_or_app; auto). apply filter_In in W as [_ W]. unfold keep in W. now rewrite Co in W.
Qed.

(** A stop that comes from the network loses nothing: when a consumer is told that
    the stream has stopped, everything that was handed over has been popped. *)
Theorem C47_end cap n tr s l s' ev t : rs_exec cap n tr s -> rs_next contiguous contiguous_only s l = Some (s', ev) -> In (Threw t RStopped) ev -> rs_ext s' = false ->
  filter wanted (handed tr) = pops (of_ring tr) /\ rs_done s' = true.
Proof.
  intros E S J X. pose proof (rs_exec_inv eqV _ _ _ _ _ _ E) as I. assert (Cl : forall x u o c, match @call V x u o c with Some (_, ev') => In (Threw t RStopped) ev' -> False | None => True end) by (intros x u o c; unfold call; destruct (ring_next _ _) as [[g2 e2]|]; [|trivial]; intro K; apply in_map_iff in K as (? & K & _); discriminate).
  destruct l as [u|u|u h0|u lv tr0|u|u|u sp]; cbn [rs_next] in S.
  - destruct (idle s u); [|discriminate]. destruct (rs_mutex s); [discriminate|]. injection S as <- <-. destruct J.
  - destruct (idle s u && holds s u); [|discriminate]. injection S as <- <-. destruct J.
  - destruct (idle s u && holds s u && negb (rs_done s)); [|discriminate]. destruct (keep contiguous contiguous_only h0); [|injection S as <- <-; destruct J as [J|[J|[]]]; discriminate]. specialize (Cl s u (OpTryPush h0) (KTry h0)). destruct (call _ _ _ _) as [[? ?]|] in S, Cl; [|discriminate]. injection S as <- <-. destruct J as [J|J]; [discriminate|destruct (Cl J)].
  - destruct (idle s u); [|discriminate]. specialize (Cl s u (pop_op tr0) (KPop lv tr0)). rewrite S in Cl. destruct (Cl J).
  - destruct (idle s u && holds s u && negb (rs_done s)); [|discriminate]. specialize (Cl (with_flags s true (rs_ext s)) u OpStop KStop). rewrite S in Cl. destruct (Cl J).
  - destruct (idle s u); [|discriminate]. specialize (Cl (with_flags s (rs_done s) true) u OpStop KStop). rewrite S in Cl. destruct (Cl J).
  - destruct (ring_next (rs_ring s) (LStep u sp)) as [[g e]|] eqn:R; [|discriminate]. destruct (nth_error (rs_cl s) u) as [c|] eqn:Hc; [|discriminate]. assert (N : forall l, In (Threw t RStopped) (map (@Ring V) l) -> False) by (intros l K; apply in_map_iff in K as (x & K & _); discriminate).
    pose proof (exec_next _ _ _ _ _ _ _ (i_ring _ _ _ _ _ _ I) R) as Ex. cbn [ring_next] in R. destruct (step_trans _ _ _ _ _ R) as (p & p' & Hp & _ & Tr & _). pose proof (i_cl _ _ _ _ _ _ I u c p Hc Hp) as Ok.
    destruct e as [|e0 [|e1 e2]]; [injection S as <- <-; destruct (N [] J)| |destruct e0; injection S as <- <-; destruct (N (_ :: _ :: _) J)]. destruct e0 as [|u' r| | |]; try (injection S as <- <-; destruct (N [_] J)). destruct (returned _ _ _ _ _) as [[s2 ev']|] eqn:Rt; [|discriminate]. injection S as <- <-. destruct J as [J|J]; [discriminate|].
    assert (Q : (exists live try, c = KPop live try) /\ r = RStopped /\ s2 = with_ring (with_ring s g u c) g u KIdle).
    { unfold returned in Rt. destruct c; destruct r; try (injection Rt as <- <-; destruct J as [J|[]]; try discriminate; injection J as <-; eauto); try (injection Rt as <- <-; destruct J).
      - specialize (Cl (with_blocked (with_ring s g u (KTry h)) (Datatypes.S (rs_blocked (with_ring s g u (KTry h))))) u (OpPush h) (KPush h)). rewrite Rt in Cl. destruct (Cl J).
      - destruct (live || contiguous v); [injection Rt as <- <-; destruct J as [J|[]]; discriminate|]. specialize (Cl (with_ring s g u (KPop live try)) u (pop_op try) (KPop live try)). destruct (call _ _ _ _) as [[? ?]|] in Rt, Cl; [|discriminate]. injection Rt as <- <-. destruct J as [J|J]; [discriminate|destruct (Cl J)]. }
    destruct Q as ((live & try & ->) & -> & ->). cbn [with_ring rs_ext rs_done] in *. assert (u' = u). { destruct Ok as [->|[->|[->|[->|[(v & ->)| ->]]]]]; cbn [trans] in Tr; try (destruct Tr as [_ Tr]; try discriminate); try (destruct Tr as [Tr|Tr]; congruence); try congruence. destruct Tr as [[_ Tr]|(v & _ & Tr)]; discriminate. } subst u'.
    destruct (exec_inv eqV _ _ _ _ (i_ring _ _ _ _ _ _ I)) as (m & D & F & HM & HI). destruct (exec_inv eqV _ _ _ _ Ex) as (m2 & D2 & F2 & HM2 & _). rewrite mon_run_app, HM in HM2. cbn [mon_run] in HM2. destruct (mon_step eqV cap m (ERet u RStopped)) as [m3|] eqn:MS; [|discriminate].
    assert (Hst : m_stopped m = true) by (cbn [mon_step] in MS; destruct (nth_error (m_th m) u) as [[|o| | |]|]; try discriminate; destruct o; cbn [ret_ok] in MS; try discriminate; destruct (m_stopped m); auto; discriminate).
    assert (Th : nth_error (m_th m) u = Some (TCalled OpPop) \/ nth_error (m_th m) u = Some (TCalled OpTryPop)).
    { destruct (Forall2_nth _ _ _ _ _ (iv_th _ _ _ _ _ HI) Hp) as (y & Hy & Rl). rewrite Hy. destruct Ok as [->|[->|[->|[->|[(v & ->)| ->]]]]]; cbn [rel] in Rl; destruct y as [|[]| | |]; try contradiction; auto. cbn [trans] in Tr. destruct Tr as [_ Tr]. discriminate. }
    destruct (C25_stopped_means_drained eqV _ _ _ _ _ Ex) as [_ Dr]. specialize (Dr m HM Th). assert (St : stopped (rs_ring s) = true) by (now rewrite (iv_stopped _ _ _ _ _ HI)). destruct (i_stop _ _ _ _ _ _ I St) as [Dn|Dn]; [|congruence]. split; [|exact Dn]. rewrite filter_wanted, (i_main _ _ _ _ _ _ I (or_introl X)), (i_done _ _ _ _ _ _ I Dn), app_nil_r. now symmetry.
Qed.

(** One consumer, no stop() by the user: when all is quiet and the ring is empty it
    has taken all the heaps, in the order in which they were handed over. *)
Theorem C47_complete cap n tr s c p : rs_exec cap n tr s -> rs_ext s = false -> quiet s -> stored (rs_ring s) = [] -> nth_error (threads (rs_ring s)) c = Some p -> (forall t v, In (EPop t v) (of_ring tr) -> t = c) ->
  map fst (taken_by c tr) = filter wanted (handed tr).
Proof.
  intros E X Q Em Hp On. destruct (C47_lossless cap n tr s E (or_introl X)) as (q & w & H1 & H2 & _ & _ & H5). rewrite (H5 Q), app_nil_r in H1. rewrite Em in H2. destruct q; [|discriminate]. rewrite app_nil_r in H1. destruct (C47_consumer cap n tr s c p E Hp) as [(now & N1 & _ & N3) _]. rewrite (N3 Q), app_nil_r in N1. rewrite H1, <- N1.
  clear -On. unfold pops_by, pops. induction (of_ring tr) as [|e l IH]; [reflexivity|]. cbn [flat_map]. rewrite IH by (intros; eapply On; cbn; eauto). f_equal. destruct e; try reflexivity. rewrite (On t v) by (cbn; auto). now rewrite Nat.eqb_refl.
Qed.

(** The thread that delivers heaps waits only while the ring is full. *)
Theorem C47_blocked cap n tr s t c : rs_exec cap n tr s -> (forall u, in_call (rs_ring s) u -> blocked (rs_ring s) u) -> nth_error (rs_cl s) t = Some c -> busy c -> stopped (rs_ring s) = false /\ ring_size (rs_ring s) = cap.
Proof.
  intros E B Hc Bu. pose proof (rs_exec_inv eqV _ _ _ _ _ _ E) as I. destruct (has_thread _ _ _ _ _ _ _ _ I Hc) as (p & Hp & Ok). assert (In : in_call (rs_ring s) t) by (exists p; split; [exact Hp|]; intros ->; destruct c; try (destruct Bu; fail); cbn in Ok; repeat destruct Ok as [Ok|Ok]; discriminate).
  destruct (exec_inv eqV _ _ _ _ (i_ring _ _ _ _ _ _ I)) as (m & D & F & HM & HI). destruct (C24_no_lost_wakeup eqV _ _ _ _ _ (i_ring _ _ _ _ _ _ I) HM B t In) as [St [(v & _ & L)|[T _]]].
  - split; [now rewrite (iv_stopped _ _ _ _ _ HI)|]. rewrite <- L. eapply size_q; apply HI.
  - exfalso. destruct (Forall2_nth _ _ _ _ _ (iv_th _ _ _ _ _ HI) Hp) as (y & Hy & Rl). rewrite T in Hy. injection Hy as <-. destruct c; try (destruct Bu; fail); cbn in Ok; repeat destruct Ok as [Ok|Ok]; subst; destruct Rl.
Qed.
End Props.

(** *** Example: a ring for one heap, a blocked reader, an incomplete heap and a stop
    from the network *)
Fixpoint rs_run {V} (contiguous : V -> bool) (co : bool) (s : rstream V) (ls : list (rlabel V)) : option (rstream V * list (revent V)) :=
  match ls with
  | [] => Some (s, [])
  | l :: ls => match rs_next contiguous co s l with Some (s', ev) => option_map (fun r => (fst r, ev ++ snd r)) (rs_run contiguous co s' ls) | None => None end
  end.
Lemma rs_run_exec {V} (contiguous : V -> bool) co cap n ls : forall tr s s' ev, rs_exec contiguous co cap n tr s -> rs_run contiguous co s ls = Some (s', ev) -> rs_exec contiguous co cap n (tr ++ ev) s'.
Proof.
  induction ls as [|l ls IH]; intros tr s s' ev H R; cbn [rs_run] in R; [injection R as <- <-; now rewrite app_nil_r|]. destruct (rs_next contiguous co s l) as [[s1 ev1]|] eqn:E; [|discriminate]. destruct (rs_run contiguous co s1 ls) as [[s2 ev2]|] eqn:E2; [|discriminate]. injection R as <- <-. cbn [fst snd]. rewrite app_assoc. eapply IH; [|exact E2]. eapply rx_next; eauto.
Qed.
Definition k (t n : nat) : list (rlabel nat) := repeat (LRing t false) n.
Definition ex_rs : list (rlabel nat) :=
  [LLock 0; LReady 0 10] ++ k 0 3 ++ [LReady 0 11] ++ k 0 2 ++            (* 10 is pushed; 11 has to wait *)
  [LPop 1 false false] ++ k 1 3 ++ k 0 3 ++                               (* 10 is popped, 11 is pushed *)
  [LPop 1 false false] ++ k 1 3 ++ [LReady 0 12] ++ k 0 3 ++ k 1 3 ++     (* 11 is not contiguous: go on to 12 *)
  [LStopReceived 0] ++ k 0 4 ++ [LUnlock 0; LPop 1 true false] ++ k 1 3.
Example C47_ex : exists tr s, rs_exec (fun h => negb (h =? 11)) false 1 2 tr s /\ handed tr = [10; 11; 12] /\ taken_by 1 tr = [(10, true); (11, false); (12, true)] /\ In (Threw 1 RStopped) tr /\ rs_blocked s = 1 /\ rs_ext s = false /\ quiet s /\ stored (rs_ring s) = [].
Proof.
  destruct (rs_run (fun h => negb (h =? 11)) false (rs_new 1 2) ex_rs) as [[s ev]|] eqn:E; [|vm_compute in E; discriminate]. exists ev, s. split; [apply (rs_run_exec _ _ 1 2 ex_rs [] (rs_new 1 2) s ev); [constructor|exact E]|].
  vm_compute in E. injection E as <- <-. split; [reflexivity|]. split; [reflexivity|]. split; [cbn; intuition|]. split; [reflexivity|]. split; [reflexivity|]. split; [|reflexivity]. intros [|[|t]] c H; cbn in H; [congruence|congruence|destruct t; discriminate].
Qed.
(** With contiguous_only the incomplete heap does not get into the ring *)
Example C47_ex2 : option_map (fun r => (dropped (snd r), stored (rs_ring (fst r)))) (rs_run (fun h => negb (h =? 11)) true (rs_new 2 2) ([LLock 0; LReady 0 10] ++ k 0 3 ++ [LReady 0 11])) = Some ([11], [Some 10]).
Proof. vm_compute. reflexivity. Qed.
(** A stop() by the user while the reader is blocked: its heap is dropped *)
Example C47_ex3 : option_map (fun r => (dropped (snd r), stored (rs_ring (fst r)))) (rs_run (fun _ => true) false (rs_new 1 2) ([LLock 0; LReady 0 10] ++ k 0 3 ++ [LReady 0 11] ++ k 0 2 ++ [LStop 1] ++ k 1 4 ++ k 0 3)) = Some ([11], [Some 10]).
Proof. vm_compute. reflexivity. Qed.

Print Assumptions C47_lossless.
Print Assumptions C47_prefix.
Print Assumptions C47_dropped.
Print Assumptions C47_consumer.
Print Assumptions C47_contiguous_only.
Print Assumptions C47_end.
Print Assumptions C47_complete.
Print Assumptions C47_blocked.
