(** Invariant of the in-process transport. *)
From Coq Require Import ZArith List Bool Arith Lia.
From Verif Require Import Base CodecModel PacketSpec RecvPacketModel RecvPacketProofs RecvPacketProps LiveHeapModel LiveHeapSpec LiveHeapProofs LiveHeapProps
  StreamModel StreamSpec StreamProofs StreamInvProofs StreamRunProofs StreamProps StreamE2EProofs ConcBase QueueModel QueueProps InprocModel InprocSpec.
Import ListNotations.

(** *** Copying *)
Open Scope Z_scope.
Lemma buffer_size_nonneg bufs : 0 <= buffer_size bufs.
Proof. induction bufs as [|b bs IH]; cbn [buffer_size fold_right]; [lia|]. pose proof (zlen_nonneg b). unfold buffer_size in IH. lia. Qed.
Lemma copy_concat bufs : copy_packet bufs = concat bufs.
Proof.
  unfold copy_packet. assert (G : forall n, buffer_size bufs <= n -> buffer_copy n bufs = concat bufs); [|apply G; lia].
  induction bufs as [|b bs IH]; intros n Hn; [reflexivity|]. cbn [buffer_copy concat]. pose proof (buffer_size_nonneg bs) as Hp. assert (Hb : buffer_size (b :: bs) = zlen b + buffer_size bs) by reflexivity.
  rewrite Z.min_r by lia. assert (Hs : slice b 0 (zlen b) = b) by (unfold slice, zlen; cbn [skipn Z.to_nat]; rewrite Nat2Z.id; apply firstn_all). rewrite Hs, IH by lia. reflexivity.
Qed.

(** *** Streams *)
Lemma step_none_stopped sc s rs ps s' rs' : reachable sc s rs -> sc_stop_item sc = false -> Forall decoded ps -> st_stopped s = false -> step sc s (Batch ps false) = Some (s', rs') -> st_stopped s' = false.
Proof.
  intros R Hi HD Hs E. cbn [step] in E. unfold do_batch in E. rewrite Hs in E. destruct (batch_packets sc s (batch_new s) ps) as [[[s1 b1] rs1]|] eqn:B; [|discriminate].
  assert (M : mid_batch sc s1 b1) by (exists s, rs, ps, rs1; auto). destruct (mid_sim _ _ _ M) as (_ & a & n & S & Ha). pose proof (rf_stopped _ _ _ (proj1 S)) as H1. rewrite Ha in H1.
  assert (F : forall x b i p y b' r, feed_entry sc x b i p = Some (y, b', r) -> ba_stopped b' = ba_stopped b).
  { intros x b i p y b' r. unfold feed_entry. rewrite Hi. destruct (nth_error _ i) as [[? [h|] ?]|]; try discriminate. destruct (add_packet _ _ _); try discriminate; [intro K; now injection K as <- <- <-|]. destruct (is_complete h0); [destruct (unlink_entry _ _ _); [|discriminate]|]; intro K; injection K as <- <- <-; cbn [ba_stopped andb]; apply orb_false_r. }
  assert (A : forall x b p y b' r, stream_add_packet sc x b p = Some (y, b', r) -> ba_stopped b' = ba_stopped b).
  { intros x b p y b' r. unfold stream_add_packet. destruct (_ && _); [intro K; now injection K as <- <- <-|]. destruct (if single_packet p then _ else _) as [[f d]|]; [|discriminate]. destruct f; [intro K; apply F in K; exact K|]. destruct (_ && _); [intro K; now injection K as <- <- <-|]. destruct (new_entry sc x p) as [[[? ?] ?]|]; [|discriminate]. intro K; apply F in K; exact K. }
  assert (Bs : forall l x b y b' r, batch_packets sc x b l = Some (y, b', r) -> ba_stopped b' = ba_stopped b).
  { induction l as [|p l IH]; intros x b y b' r; cbn [batch_packets]; [intro K; now injection K as <- <- <-|]. destruct (ba_stopped b) eqn:Eb; [intro K; now injection K as <- <- <-|]. destruct (stream_add_packet sc x b p) as [[[x1 bb] r1]|] eqn:E1; [|discriminate]. apply A in E1. destruct (batch_packets sc x1 bb l) as [[[x2 b2] r2]|] eqn:E2; [|discriminate]. apply IH in E2. intro K; injection K as <- <- <-. congruence. }
  apply Bs in B. cbn [batch_new ba_stopped] in B. rewrite B, Hs in E. cbn [orb] in E. unfold batch_end in E. cbn [ba_stopped ba_packets] in E. rewrite andb_false_r in E. injection E as <- <-. exact H1.
Qed.
Lemma run_snoc c ops o : forall s, run c s (ops ++ [o]) = match run c s ops with Some (s1, rs) => match step c s1 o with Some (s2, rs2) => Some (s2, rs ++ rs2) | None => None end | None => None end.
Proof.
  induction ops as [|x ops IH]; intro s; cbn [app run]; [destruct (step c s o) as [[? ?]|]; [now rewrite app_nil_r|reflexivity]|]. destruct (step c s x) as [[s1 r1]|]; [|reflexivity]. rewrite IH. destruct (run c s1 ops) as [[s2 r2]|]; [|reflexivity]. destruct (step c s2 o) as [[s3 r3]|]; [|reflexivity]. now rewrite app_assoc.
Qed.
Lemma run_ok c ops : config_ok c -> Forall op_decoded ops -> exists s rs, run c (stream_new c) ops = Some (s, rs).
Proof. intros Hc HD. destruct (run_sim c Hc ops 0 false _ _ (sim_new c false Hc) (ops_decoded_ok _ HD)) as (s & a & rs & st & E & _). eauto. Qed.
Lemma process_decoded d : bytes_ok d -> Forall decoded (process_one_packet d).
Proof. intro B. unfold process_one_packet. destruct (decode_packet d) as [| |h z] eqn:E; try constructor. destruct (z =? zlen d); constructor; [exists d, h, z; auto|constructor]. Qed.
Close Scope Z_scope.

(** *** The invariant *)
Lemma sent_app k a b : sent_to k (a ++ b) = sent_to k a ++ sent_to k b.
Proof. apply flat_map_app. Qed.
Lemma res_app w a b : results_of w (a ++ b) = results_of w a ++ results_of w b.
Proof. apply flat_map_app. Qed.

Definition thread_ok (N k : nat) (cur : nat -> option tpacket) (t : nat) (p : qpc (list Z)) : Prop :=
  (t < N -> p = match cur t with Some x => if Nat.eqb (tp_sub x) k then QAtPush (copy_packet (tp_bufs x)) else QIdle | None => QIdle end) /\
  (t = N -> p = QIdle \/ p = QAtTryPop \/ exists b, p = QTryLock b) /\
  (N < t -> p = QIdle \/ p = QAtStop).
Record chan_ok (sc : sconfig) (N M k : nat) (cur : nat -> option tpacket) (tr : list nevent) (c : chan) : Prop := {
  k_q : exists qtr, q_exec M qtr (c_q c);
  k_th : forall t p, nth_error (q_threads (c_q c)) t = Some p -> thread_ok N k cur t p;
  k_fifo : sent_to k tr = c_got c ++ q_data (c_q c);
  k_stop : q_stopped (c_q c) = true <-> In (QueueStopped k) tr;
  k_busy : nth_error (q_threads (c_q c)) N <> Some QIdle -> c_wait c = false /\ stopped_stream (c_stream c) = false;
  k_idle : nth_error (q_threads (c_q c)) N = Some QIdle -> c_wait c = false -> stopped_stream (c_stream c) = true;
  k_run : c_stream c = option_map fst (run sc (stream_new sc) (c_ops c));
  k_pkts : flat_map ops_of (c_ops c) = flat_map process_one_packet (c_got c);
  k_eof : In (Batch [] true) (c_ops c) -> q_stopped (c_q c) = true /\ q_data (c_q c) = [];
  k_each : forall o, In o (c_ops c) -> o = Stop \/ o = Flush \/ o = Batch [] true \/ o = Batch [] false \/ exists d, In d (c_got c) /\ o = Batch (process_one_packet d) false
}.
Record wr_ok (M : nat) (w : nat) (prog : list tpacket) (tr : list nevent) (x : wstate) : Prop := {
  r_prog : exists done, prog = done ++ (match w_cur x with Some p => [p] | None => [] end) ++ w_todo x /\ map wire done = map fst (results_of w tr);
  r_out : w_out x = map credit (results_of w tr)
}.
Definition cur_of (s : net) (w : nat) : option tpacket := match nth_error (n_writers s) w with Some x => w_cur x | None => None end.
Definition chron (tr : list nevent) : Prop :=
  forall tr1 e tr2, tr = tr1 ++ e :: tr2 -> match e with Aborted _ k _ => In (QueueStopped k) tr1 | Sent _ k _ => ~ In (QueueStopped k) tr1 | QueueStopped _ => True end.
Record ninv (scs : list sconfig) (progs : list (list tpacket)) (users : nat) (tr : list nevent) (s : net) : Prop := {
  v_nw : nw s = length progs;
  v_nc : length (n_chans s) = length scs;
  v_chan : forall k c sc, nth_error (n_chans s) k = Some c -> nth_error scs k = Some sc -> chan_ok sc (nw s) (length progs + 1 + users) k (cur_of s) tr c;
  v_wr : forall w x prog, nth_error (n_writers s) w = Some x -> nth_error progs w = Some prog -> wr_ok (length progs + 1 + users) w prog tr x;
  v_cur : forall w p, cur_of s w = Some p -> tp_sub p < length scs;
  v_chron : chron tr
}.

Lemma chron_snoc tr e : chron tr -> match e with Aborted _ k _ => In (QueueStopped k) tr | Sent _ k _ => ~ In (QueueStopped k) tr | QueueStopped _ => True end -> chron (tr ++ [e]).
Proof.
  intros C E tr1 e' tr2 H. destruct tr2 as [|y tr2] using rev_ind; [|clear IHtr2].
  - apply app_inj_tail in H as [<- <-]. exact E.
  - rewrite app_comm_cons, app_assoc in H. apply app_inj_tail in H as [H _]. exact (C _ _ _ H).
Qed.

Definition at_push (k : nat) (o : option tpacket) : qpc (list Z) :=
  match o with Some x => if Nat.eqb (tp_sub x) k then QAtPush (copy_packet (tp_bufs x)) else QIdle | None => QIdle end.
Definition about (k : nat) (e : nevent) : bool := match e with Sent _ k' _ | Aborted _ k' _ | QueueStopped k' => Nat.eqb k' k end.

Lemma chan_frame sc N M k cur cur' tr ev c : chan_ok sc N M k cur tr c -> (forall t, t < N -> at_push k (cur' t) = at_push k (cur t)) -> Forall (fun e => about k e = false) ev ->
  chan_ok sc N M k cur' (tr ++ ev) c.
Proof.
  intros [Q T F S B I R P E O] HC HE. constructor; try assumption.
  - intros t p Hp. destruct (T t p Hp) as (T1 & T2 & T3). split; [|auto]. intro L. rewrite (T1 L). symmetry. exact (HC t L).
  - rewrite sent_app. assert (Z : sent_to k ev = []); [|now rewrite Z, app_nil_r]. clear -HE. induction HE as [|e ev H HE IH]; [reflexivity|]. unfold sent_to in *. cbn [flat_map]. rewrite IH. destruct e; cbn [about] in H; try reflexivity. now rewrite H.
  - rewrite S, in_app_iff. split; [auto|]. intros [H|H]; [exact H|]. rewrite Forall_forall in HE. apply HE in H. cbn [about] in H. rewrite Nat.eqb_refl in H. discriminate.
Qed.

Lemma th_upd N k cur cur' l w p' : (forall t p, nth_error l t = Some p -> thread_ok N k cur t p) -> thread_ok N k cur' w p' -> (forall t, t <> w -> t < N -> at_push k (cur' t) = at_push k (cur t)) ->
  forall t p, nth_error (upd l w p') t = Some p -> thread_ok N k cur' t p.
Proof.
  intros H Hw HC t p Hp. rewrite nth_upd in Hp. destruct (Nat.eqb_spec t w) as [->|Ne]; [destruct (w <? length l); [injection Hp as <-; exact Hw|discriminate]|].
  destruct (H t p Hp) as (T1 & T2 & T3). split; [|auto]. intro L. rewrite (T1 L). symmetry. exact (HC t Ne L).
Qed.
Lemma upd_ne {A} (l : list A) t u p : u <> t -> nth_error (upd l t p) u = nth_error l u.
Proof. intro H. rewrite nth_upd. apply Nat.eqb_neq in H. now rewrite H. Qed.
Lemma upd_eq {A} (l : list A) t x p : nth_error l t = Some x -> nth_error (upd l t p) t = Some p.
Proof. intro H. rewrite nth_upd, Nat.eqb_refl. assert (L : t < length l) by (apply nth_error_Some; congruence). apply Nat.ltb_lt in L. now rewrite L. Qed.

(** A writer starts to add a packet to the queue *)
Lemma ok_send sc N M k cur cur' tr c w p q ev : chan_ok sc N M k cur tr c -> w < N -> cur' w = Some p -> tp_sub p = k -> (forall t, t <> w -> cur' t = cur t) ->
  q_next (c_q c) (QLCall w (QPush (copy_packet (tp_bufs p)))) = Some (q, ev) -> chan_ok sc N M k cur' tr (with_q c q).
Proof.
  intros [Q T F S B I R P E O] Hw Hc Hk Ho HN. pose proof HN as HN'. cbn [q_next] in HN. destruct (nth_error (q_threads (c_q c)) w) as [[]|] eqn:Hp; try discriminate. injection HN as <- <-.
  constructor; cbn [with_q c_q c_wait c_stream c_got c_ops q_set q_data q_stopped q_threads]; try assumption.
  - destruct Q as (qtr & Q). eexists. eapply q_exec_next; [exact Q|exact HN'].
  - apply th_upd with (cur := cur); [exact T| |intros t Ne _; now rewrite Ho]. split; [|split; intro; lia]. intros _. now rewrite Hc, Hk, Nat.eqb_refl.
  - rewrite upd_ne by lia. exact B.
  - rewrite upd_ne by lia. exact I.
Qed.
(** ... and is done *)
Lemma ok_push sc N M k cur cur' tr c w p q t r : chan_ok sc N M k cur tr c -> w < N -> cur w = Some p -> tp_sub p = k -> cur' w = None -> (forall t, t <> w -> cur' t = cur t) ->
  q_next (c_q c) (QLStep w false) = Some (q, [QRet t r]) ->
  (r = QRPushed /\ ~ In (QueueStopped k) tr /\ chan_ok sc N M k cur' (tr ++ [Sent w k (copy_packet (tp_bufs p))]) (with_q c q)) \/
  (r = QRStopped /\ In (QueueStopped k) tr /\ chan_ok sc N M k cur' (tr ++ [Aborted w k (copy_packet (tp_bufs p))]) (with_q c q)).
Proof.
  intros [Q T F S B I R P E O] Hw Hc Hk Hn Ho HN. pose proof HN as HN'. cbn [q_next] in HN. unfold q_step in HN. destruct (nth_error (q_threads (c_q c)) w) as [x|] eqn:Hp; [|discriminate].
  destruct (T w x Hp) as (T1 & _ & _). specialize (T1 Hw). rewrite Hc, Hk, Nat.eqb_refl in T1. subst x.
  assert (TH : forall t p0, nth_error (upd (q_threads (c_q c)) w QIdle) t = Some p0 -> thread_ok N k cur' t p0) by (apply th_upd with (cur := cur); [exact T| |intros u Ne _; now rewrite Ho]; split; [intros _; now rewrite Hn|split; intro; lia]).
  destruct (q_stopped (c_q c)) eqn:St; injection HN as <- <- <-; [right|left]; (split; [reflexivity|]).
  - split; [tauto|]. constructor; cbn [with_q c_q c_wait c_stream c_got c_ops q_set q_data q_stopped q_threads]; try assumption.
    + destruct Q as (qtr & Q). eexists. eapply q_exec_next; [exact Q|exact HN'].
    + rewrite sent_app. unfold sent_to at 2. cbn [flat_map]. now rewrite app_nil_r, F.
    + rewrite in_app_iff. rewrite S. split; [auto|]. intros [H|[H|[]]]; [exact H|discriminate].
    + rewrite upd_ne by lia. exact B.
    + rewrite upd_ne by lia. exact I.
  - assert (NS : ~ In (QueueStopped k) tr) by (intro K; apply S in K; discriminate). split; [exact NS|]. constructor; cbn [with_q c_q c_wait c_stream c_got c_ops q_set q_data q_stopped q_threads]; try assumption.
    + destruct Q as (qtr & Q). eexists. eapply q_exec_next; [exact Q|exact HN'].
    + rewrite sent_app. unfold sent_to at 2. cbn [flat_map]. rewrite Nat.eqb_refl. cbn [app]. rewrite F. now rewrite app_assoc.
    + rewrite in_app_iff. split; [discriminate|]. intros [H|[H|[]]]; [tauto|discriminate].
    + rewrite upd_ne by lia. exact B.
    + rewrite upd_ne by lia. exact I.
    + intro K. destruct (E K) as [E1 _]. discriminate.
Qed.
Lemma ok_stop_call sc N M k cur tr c t q ev : chan_ok sc N M k cur tr c -> N < t -> q_next (c_q c) (QLCall t QStop) = Some (q, ev) -> chan_ok sc N M k cur tr (with_q c q).
Proof.
  intros [Q T F S B I R P E O] Ht HN. pose proof HN as HN'. cbn [q_next] in HN. destruct (nth_error (q_threads (c_q c)) t) as [[]|] eqn:Hp; try discriminate. injection HN as <- <-.
  constructor; cbn [with_q c_q c_wait c_stream c_got c_ops q_set q_data q_stopped q_threads q_start]; try assumption.
  - destruct Q as (qtr & Q). eexists. eapply q_exec_next; [exact Q|exact HN'].
  - apply th_upd with (cur := cur); [exact T| |reflexivity]. split; [intro; lia|split; [intro; lia|auto]].
  - rewrite upd_ne by lia. exact B.
  - rewrite upd_ne by lia. exact I.
Qed.
Lemma ok_stop_step sc N M k cur tr c t q ev : chan_ok sc N M k cur tr c -> N < t -> q_next (c_q c) (QLStep t false) = Some (q, ev) -> chan_ok sc N M k cur (tr ++ [QueueStopped k]) (with_q c q).
Proof.
  intros [Q T F S B I R P E O] Ht HN. pose proof HN as HN'. cbn [q_next] in HN. unfold q_step in HN. destruct (nth_error (q_threads (c_q c)) t) as [x|] eqn:Hp; [|discriminate]. destruct (T t x Hp) as (_ & _ & T3). destruct (T3 Ht) as [->| ->]; [discriminate|].
  assert (G : exists n, q = q_set (c_q c) (q_data (c_q c)) true n false t QIdle) by (destruct (q_stopped (c_q c)); injection HN as <- _; eauto). destruct G as (n & ->).
  constructor; cbn [with_q c_q c_wait c_stream c_got c_ops q_set q_data q_stopped q_threads q_start]; try assumption.
  - destruct Q as (qtr & Q). eexists. eapply q_exec_next; [exact Q|exact HN'].
  - apply th_upd with (cur := cur); [exact T| |reflexivity]. split; [intro; lia|split; [intro; lia|auto]].
  - rewrite sent_app. unfold sent_to at 2. cbn [flat_map]. now rewrite app_nil_r, F.
  - rewrite in_app_iff. split; [intros _; right; now left|auto].
  - rewrite upd_ne by lia. exact B.
  - rewrite upd_ne by lia. exact I.
  - intro K. split; [reflexivity|]. apply E, K.
Qed.
(** The stream is used *)
Lemma use_run sc c got o : c_stream c = option_map fst (run sc (stream_new sc) (c_ops c)) -> c_stream (use sc c got o) = option_map fst (run sc (stream_new sc) (c_ops (use sc c got o))).
Proof. intro H. cbn [use c_stream c_ops]. rewrite run_snoc, H. destruct (run sc (stream_new sc) (c_ops c)) as [[s rs]|]; cbn [option_map apply_op fst]; [|reflexivity]. destruct (step sc s o) as [[? ?]|]; reflexivity. Qed.
Lemma flat_snoc {A B} (f : A -> list B) l x : flat_map f (l ++ [x]) = flat_map f l ++ f x.
Proof. rewrite flat_map_app. cbn [flat_map]. now rewrite app_nil_r. Qed.
Lemma flush_keeps sc s s' : flush_unlocked sc s = Some s' -> st_stopped s' = st_stopped s.
Proof.
  assert (D : forall x i, st_stopped (destroy_heap x i) = st_stopped x) by (intros x i; unfold destroy_heap; destruct (nth_error _ i); reflexivity).
  assert (U : forall x i y, unlink_entry sc x i = Some y -> st_stopped y = st_stopped x).
  { intros x i y. unfold unlink_entry. destruct (nth_error _ i) as [[[| |?] [h|] ?]|]; try discriminate; (destruct (find_prev _ _ _ _) as [pl|]; [|discriminate]; intro K; injection K as <-; destruct pl; reflexivity). }
  assert (J : forall x w i y, eject sc x w i = Some y -> st_stopped y = st_stopped x).
  { intros x w i y. unfold eject. destruct (nth_error _ i) as [[? [h|] ?]|]; try discriminate. destruct (unlink_entry sc x i) eqn:E; [|discriminate]. intro K; injection K as <-. rewrite D. apply U in E. exact E. }
  assert (F : forall n k x f y g, flush_steps sc n k x f = Some (y, g) -> st_stopped y = st_stopped x).
  { induction n as [|n IH]; intros k x f y g; cbn [flush_steps]; [intro K; now injection K as <- <-|]. destruct (nth_error (st_subs x) k) as [[? ?]|]; [|discriminate]. destruct (nth_error (st_subs x) (S k)) as [[? ?]|]; [|discriminate]. destruct (nth_error _ _) as [e|]; [|discriminate]. destruct (en_next e); [intro K; apply IH in K; exact K| |]; (destruct (eject sc _ _ _) eqn:E; [|discriminate]; intro K; apply IH in K; apply J in E; rewrite K, E; reflexivity). }
  assert (G : forall ks x f y g, flush_subs sc ks x f = Some (y, g) -> st_stopped y = st_stopped x).
  { induction ks as [|k ks IH]; intros x f y g; cbn [flush_subs]; [intro K; now injection K as <- <-|]. destruct (nth_error (st_subs x) k) as [[? ?]|]; [|discriminate]. destruct (nth_error (st_subs x) (S k)) as [[? ?]|]; [|discriminate]. destruct (flush_steps _ _ _ _ _) as [[x1 f1]|] eqn:E; [|discriminate]. intro K; apply IH in K. apply F in E. congruence. }
  unfold flush_unlocked. destruct (flush_subs _ _ _ _) as [[x f]|] eqn:E; [|discriminate]. intro K; injection K as <-. apply G in E. exact E.
Qed.
Lemma stopped_stays sc s o : stopped_stream s = true -> stopped_stream (apply_op sc s o) = true.
Proof.
  destruct s as [x|]; [|trivial]. cbn [stopped_stream apply_op]. intro H. destruct o as [ps e| |]; cbn [step].
  - unfold do_batch. now rewrite H.
  - destruct (flush_unlocked sc x) as [x'|] eqn:E; cbn [option_map stopped_stream]; [|reflexivity]. apply flush_keeps in E. now rewrite E.
  - unfold stop. rewrite H. exact H.
Qed.

(** The reader *)
Lemma ok_wake_stopped sc N M k cur tr c : chan_ok sc N M k cur tr c -> c_wait c = true -> stopped_stream (c_stream c) = true -> chan_ok sc N M k cur tr (with_wait c false).
Proof.
  intros [Q T F S B I R P E O] Hw Hs. constructor; cbn [with_wait c_q c_wait c_stream c_got c_ops]; try assumption; auto. intro K. destruct (B K). congruence.
Qed.
Lemma ok_wake sc N M k cur tr c q ev : chan_ok sc N M k cur tr c -> stopped_stream (c_stream c) = false -> q_next (c_q c) (QLCall N QTryPop) = Some (q, ev) -> chan_ok sc N M k cur tr (with_wait (with_q c q) false).
Proof.
  intros [Q T F S B I R P E O] Hs HN. pose proof HN as HN'. cbn [q_next] in HN. destruct (nth_error (q_threads (c_q c)) N) as [[]|] eqn:Hp; try discriminate. injection HN as <- <-.
  constructor; cbn [with_q with_wait c_q c_wait c_stream c_got c_ops q_set q_data q_stopped q_threads q_start]; try assumption; auto.
  - destruct Q as (qtr & Q). eexists. eapply q_exec_next; [exact Q|exact HN'].
  - apply th_upd with (cur := cur); [exact T| |reflexivity]. split; [intro; lia|split; [auto|intro; lia]].
  - rewrite (upd_eq _ _ _ _ Hp). discriminate.
Qed.
(** A use of the stream while no handler is running *)
Lemma ok_use sc N M k cur tr c o : chan_ok sc N M k cur tr c -> nth_error (q_threads (c_q c)) N = Some QIdle -> ops_of o = [] -> o = Stop \/ o = Flush \/ o = Batch [] false -> chan_ok sc N M k cur tr (use sc c [] o).
Proof.
  intros [Q T F S B I R P E O] Hi Hz Ho. constructor; try (cbn [use c_q c_got c_ops]; rewrite ?app_nil_r; assumption).
  - intro K. now destruct K.
  - intros _ Hw. apply stopped_stays. cbn [use c_wait] in Hw. auto.
  - now apply use_run.
  - cbn [use c_ops c_got]. now rewrite flat_snoc, Hz, !app_nil_r.
  - cbn [use c_ops c_q]. intro K. apply in_app_or in K as [K|[K|[]]]; [auto|]. subst o. destruct Ho as [Ho|[Ho|Ho]]; discriminate.
  - cbn [use c_ops c_got]. rewrite app_nil_r. intros o' K. apply in_app_or in K as [K|[<-|[]]]; [auto|]. tauto.
Qed.
Lemma ok_error sc N M k cur tr c : chan_ok sc N M k cur tr c -> nth_error (q_threads (c_q c)) N = Some QIdle -> chan_ok sc N M k cur tr (handled sc c QREmpty).
Proof.
  intros H Hi. pose proof (ok_use sc N M k cur tr c (Batch [] false) H Hi eq_refl (or_intror (or_intror eq_refl))) as [Q T F S B I R P E O]. constructor; try assumption.
  - intro K. now destruct K.
  - cbn [handled with_wait c_wait]. intros _ Hw. apply negb_false_iff in Hw. exact Hw.
Qed.

(** What try_pop does, one step at a time *)
Lemma try_pop_step (q : queue (list Z)) n sp q' ev : nth_error (q_threads q) n = Some QAtTryPop \/ (exists b, nth_error (q_threads q) n = Some (QTryLock b)) -> q_step q n sp = Some (q', ev) -> (exists qtr M, q_exec M qtr q) ->
  q_stopped q' = q_stopped q /\
  ((ev = [] /\ q_data q' = q_data q /\ exists p, q_threads q' = upd (q_threads q) n p /\ (p = QAtTryPop \/ exists b, p = QTryLock b)) \/
   (q_threads q' = upd (q_threads q) n QIdle /\ exists r, ev = [QRet n r] /\
    match r with
    | QRPopped d => q_data q = d :: q_data q'
    | QRStopped => q_stopped q = true /\ q_data q = [] /\ q_data q' = []
    | QREmpty => q_data q = [] /\ q_data q' = []
    | _ => False
    end)).
Proof.
  intros Hp E (qtr & M & X). destruct (q_exec_inv (list_eq_dec Z.eq_dec) M qtr q X) as (m & _ & [_ _ _ Hsem _]). unfold q_step in E. destruct Hp as [Hp|(b & Hp)]; rewrite Hp in E.
  - destruct (q_sem q) as [|k]; [|destruct sp]; injection E as <- <-; (split; [reflexivity|left]; split; [reflexivity|]; split; [reflexivity|]; eexists; split; [reflexivity|]; eauto).
  - destruct b; destruct (q_data q) as [|d l] eqn:Eq; injection E as <- <-; (split; [reflexivity|]).
    + right. split; [reflexivity|]. eexists. split; [reflexivity|]. assert (G := sumw_ge wT _ _ _ Hp). cbn [wT length] in G, Hsem. destruct (q_stopped q); [auto|exfalso; lia].
    + right. split; [reflexivity|]. eexists. split; [reflexivity|]. reflexivity.
    + right. split; [reflexivity|]. eexists. split; [reflexivity|]. destruct (q_stopped q); auto.
    + left. split; [reflexivity|]. split; [reflexivity|]. eexists. split; [reflexivity|]. auto.
Qed.
Lemma ok_read sc N M k cur tr c sp q ev : chan_ok sc N M k cur tr c -> q_next (c_q c) (QLStep N sp) = Some (q, ev) ->
  (ev = [] /\ chan_ok sc N M k cur tr (with_q c q)) \/ (exists r, ev = [QRet N r] /\ chan_ok sc N M k cur tr (handled sc (with_q c q) r)).
Proof.
  intros [Q T F S B I R P E O] HN. pose proof HN as HN'. cbn [q_next] in HN. destruct (nth_error (q_threads (c_q c)) N) as [x|] eqn:Hp; [|unfold q_step in HN; rewrite Hp in HN; discriminate].
  destruct (T N x Hp) as (_ & T2 & _). specialize (T2 eq_refl). assert (Hx : x <> QIdle) by (intros ->; unfold q_step in HN; rewrite Hp in HN; discriminate).
  assert (Hp' : nth_error (q_threads (c_q c)) N = Some QAtTryPop \/ (exists b, nth_error (q_threads (c_q c)) N = Some (QTryLock b))) by (destruct T2 as [->|[->|(b & ->)]]; [congruence|auto|eauto]).
  assert (QX : exists qtr, q_exec M qtr q) by (destruct Q as (qtr & Q); eexists; eapply q_exec_next; [exact Q|exact HN']).
  assert (B' : c_wait c = false /\ stopped_stream (c_stream c) = false) by (apply B; congruence). destruct B' as [B1 B2].
  destruct (try_pop_step _ _ _ _ _ Hp' HN (let (a, b) := Q in ex_intro _ a (ex_intro _ M b))) as (Es & [(-> & Ed & p & Et & Hpp)|(Et & r & -> & Hr)]).
  - left. split; [reflexivity|]. constructor; cbn [with_q c_q c_wait c_stream c_got c_ops]; rewrite ?Ed, ?Es; try assumption; auto.
    + rewrite Et. apply th_upd with (cur := cur); [exact T| |reflexivity]. split; [intro; lia|split; [auto|intro; lia]].
    + rewrite Et, (upd_eq _ _ _ _ Hp). intro K. injection K as ->. destruct Hpp as [Hpp|(? & Hpp)]; discriminate.
  - right. exists r. split; [reflexivity|].
    assert (TH : forall t p, nth_error (q_threads q) t = Some p -> thread_ok N k cur t p) by (rewrite Et; apply th_upd with (cur := cur); [exact T| |reflexivity]; split; [intro; lia|split; [auto|intro; lia]]).
    assert (TI : nth_error (q_threads q) N = Some QIdle) by (rewrite Et; now apply upd_eq with (x := x)).
    assert (Qq : c_q (handled sc (with_q c q) r) = q) by (unfold handled; destruct r; reflexivity).
    assert (Rr : c_stream (handled sc (with_q c q) r) = option_map fst (run sc (stream_new sc) (c_ops (handled sc (with_q c q) r)))) by (unfold handled; cbn [with_wait c_stream c_ops]; destruct r; now apply use_run).
    assert (Gg : c_got (handled sc (with_q c q) r) ++ q_data q = c_got c ++ q_data (c_q c)).
    { destruct r; cbn [handled with_wait use with_q c_got]; try contradiction; [rewrite Hr, <- app_assoc; reflexivity| |]; rewrite app_nil_r; [destruct Hr as (_ & -> & ->)|destruct Hr as (-> & ->)]; reflexivity. }
    constructor; rewrite ?Qq; try assumption.
    + now rewrite F.
    + now rewrite Es.
    + intro K. now destruct K.
    + intros _. unfold handled. cbn [with_wait c_wait c_stream]. intro K. now apply negb_false_iff in K.
    + destruct r; cbn [handled with_wait use with_q c_got c_ops]; rewrite flat_snoc, P, ?flat_map_app; cbn [ops_of flat_map]; rewrite ?app_nil_r; reflexivity.
    + rewrite Es. intro K. destruct r as [|d| | |]; cbn [handled with_wait use with_q c_ops] in K; apply in_app_or in K as [K|[K|[]]]; try contradiction; try discriminate.
      * destruct (E K) as [E1 E2]. rewrite Hr in E2. discriminate.
      * destruct Hr as (E1 & _ & E2). auto.
      * destruct Hr as (E1 & _ & E2). auto.
      * destruct Hr as (E1 & E2). destruct (E K). auto.
    + intros o K. destruct r as [|d| | |]; cbn [handled with_wait use with_q c_ops c_got] in *; rewrite ?app_nil_r; apply in_app_or in K as [K|[<-|[]]]; try contradiction; auto 6.
      * destruct (O o K) as [H|[H|[H|[H|(d' & H1 & H2)]]]]; auto. do 4 right. exists d'. split; [apply in_or_app; auto|exact H2].
      * do 4 right. exists d. split; [apply in_or_app; right; now left|reflexivity].
Qed.

(** *** The whole system *)
Lemma map_nth_some {A B} (f : A -> B) l n y : nth_error (map f l) n = Some y -> exists x, nth_error l n = Some x /\ y = f x.
Proof. rewrite nth_error_map. destruct (nth_error l n); [|discriminate]. intro H. injection H as <-. eauto. Qed.
Lemma ninv_new scs progs users : ninv scs progs users [] (net_new scs progs users).
Proof.
  assert (C : forall w, cur_of (net_new scs progs users) w = None).
  { intro w. unfold cur_of. cbn [net_new n_writers]. destruct (nth_error (map _ progs) w) as [x|] eqn:E; [|reflexivity]. apply map_nth_some in E as (? & _ & ->). reflexivity. }
  assert (L : nw (net_new scs progs users) = length progs) by (unfold nw; cbn [net_new n_writers]; now rewrite map_length).
  constructor; auto.
  - cbn [net_new n_chans]. now rewrite map_length.
  - intros k c sc Hc Hsc. rewrite L. cbn [net_new n_chans] in Hc. apply map_nth_some in Hc as (sc' & Hc & ->). rewrite Hsc in Hc. injection Hc as <-.
    assert (Rp : forall t p, nth_error (repeat (@QIdle (list Z)) (length progs + 1 + users)) t = Some p -> p = QIdle) by (intros t p H; apply nth_error_In, repeat_spec in H; exact H).
    constructor; cbn [chan_new c_q c_wait c_stream c_got c_ops queue_new q_data q_stopped q_threads]; auto.
    + exists []. constructor.
    + intros t p H. rewrite (Rp t p H). split; [intros _; now rewrite C|auto].
    + split; [discriminate|intros []].
    + intro K. exfalso. apply K. destruct (nth_error (repeat _ _) _) as [p|] eqn:Ep; [now rewrite (Rp _ _ Ep)|]. apply nth_error_None in Ep. rewrite repeat_length in Ep. lia.
    + intros o [].
  - intros w x prog Hx Hp. cbn [net_new n_writers] in Hx. apply map_nth_some in Hx as (p & Hx & ->). rewrite Hp in Hx. injection Hx as <-. constructor; [exists []; split; reflexivity|reflexivity].
  - intros w p H. rewrite C in H. discriminate.
  - intros tr1 e tr2 H. destruct tr1; discriminate.
Qed.

Lemma wr_frame M w prog tr ev x : wr_ok M w prog tr x -> results_of w ev = [] -> wr_ok M w prog (tr ++ ev) x.
Proof. intros [P O] H. constructor; rewrite res_app, H, app_nil_r; assumption. Qed.
Lemma cur_set_chan s k c : cur_of (set_chan s k c) = cur_of s.
Proof. reflexivity. Qed.
Lemma cur_set_writer s w x y : nth_error (n_writers s) w = Some y -> forall t, cur_of (set_writer s w x) t = if Nat.eqb t w then w_cur x else cur_of s t.
Proof.
  intros H t. unfold cur_of, set_writer. cbn [n_writers]. destruct (Nat.eqb_spec t w) as [->|Ne]; [now rewrite (upd_eq _ _ _ _ H)|now rewrite upd_ne].
Qed.

(** One queue changes, no writer *)
Lemma ninv_chan scs progs users tr s k c sc c' ev : ninv scs progs users tr s -> nth_error (n_chans s) k = Some c -> nth_error scs k = Some sc ->
  chan_ok sc (nw s) (length progs + 1 + users) k (cur_of s) (tr ++ ev) c' -> (ev = [] \/ ev = [QueueStopped k]) -> ninv scs progs users (tr ++ ev) (set_chan s k c').
Proof.
  intros [W L C R U H] Hc Hsc Ok Hev. constructor; rewrite ?cur_set_chan; auto.
  - cbn [set_chan n_chans]. now rewrite upd_length.
  - intros k0 c0 sc0. cbn [set_chan n_chans]. rewrite nth_upd. destruct (Nat.eqb_spec k0 k) as [->|Ne].
    + destruct (k <? length (n_chans s)); [|discriminate]. intros K Hk. injection K as <-. rewrite Hsc in Hk. injection Hk as <-. exact Ok.
    + intros K Hk. apply chan_frame with (cur := cur_of s); [apply C; assumption|reflexivity|]. destruct Hev as [->| ->]; repeat constructor. cbn [about]. apply Nat.eqb_neq. auto.
  - intros w x prog Hx Hp. apply wr_frame; [now apply R|]. destruct Hev as [->| ->]; reflexivity.
  - destruct Hev as [->| ->]; [now rewrite app_nil_r|]. now apply chron_snoc.
Qed.

Lemma ninv_next scs progs users tr s l s' ev : ninv scs progs users tr s -> n_next scs s l = Some (s', ev) -> ninv scs progs users (tr ++ ev) s'.
Proof.
  intros V E. pose proof V as [W L C R U H]. destruct l as [w|w|k t|k t|k|k|k sp|k st]; cbn [n_next] in E.
  - (* LSend *)
    destruct (nth_error (n_writers s) w) as [[[|p todo] [cur|] out]|] eqn:Hw; try discriminate. destruct (nth_error (n_chans s) (tp_sub p)) as [c|] eqn:Hc; [|discriminate].
    destruct (q_next (c_q c) _) as [[q qe]|] eqn:HQ; [|discriminate]. injection E as <- <-. rewrite app_nil_r.
    assert (HN : w < nw s) by (unfold nw; apply nth_error_Some; congruence). assert (HK : tp_sub p < length scs) by (rewrite <- L; apply nth_error_Some; congruence).
    set (s1 := set_chan s (tp_sub p) (with_q c q)). assert (Cw := cur_set_writer s1 w {| w_todo := todo; w_cur := Some p; w_out := out |} _ Hw). cbn [w_cur] in Cw. assert (C1 : forall t, cur_of s1 t = cur_of s t) by reflexivity.
    assert (C0 : cur_of s w = None) by (unfold cur_of; rewrite Hw; reflexivity).
    assert (LW : nw (set_writer s1 w {| w_todo := todo; w_cur := Some p; w_out := out |}) = nw s) by (unfold nw, set_writer; cbn [n_writers s1 set_chan]; apply upd_length).
    constructor.
    + now rewrite LW.
    + cbn [set_writer n_chans s1 set_chan]. now rewrite upd_length.
    + intros k c0 sc. rewrite LW. cbn [set_writer n_chans s1 set_chan]. rewrite nth_upd. destruct (Nat.eqb_spec k (tp_sub p)) as [->|Ne].
      * destruct (_ <? _); [|discriminate]. intros K Hsc. injection K as <-. apply ok_send with (cur := cur_of s) (w := w) (p := p) (ev := qe); auto; [rewrite Cw, Nat.eqb_refl; reflexivity|]. intros t Ne. apply Nat.eqb_neq in Ne. now rewrite Cw, Ne.
      * intros K Hsc. rewrite <- (app_nil_r tr). apply chan_frame with (cur := cur_of s); [now apply C| |constructor]. intros t _. rewrite Cw. destruct (Nat.eqb_spec t w) as [->|]; [|reflexivity]. rewrite C0. cbn [at_push]. assert (Nb : Nat.eqb (tp_sub p) k = false) by (apply Nat.eqb_neq; auto). now rewrite Nb.
    + intros w0 x prog. cbn [set_writer n_writers s1 set_chan]. rewrite nth_upd. destruct (Nat.eqb_spec w0 w) as [->|Ne]; [|apply R].
      destruct (_ <? _); [|discriminate]. intros K Hp. injection K as <-. destruct (R w _ prog Hw Hp) as [(done & P1 & P2) O]. cbn [w_cur w_todo w_out] in *. constructor; cbn [w_cur w_todo w_out]; [|exact O]. exists done. now split.
    + intros t p0. rewrite Cw. destruct (Nat.eqb t w); [intro K; injection K as <-; exact HK|]. apply U.
    + exact H.
  - (* LPush *)
    destruct (nth_error (n_writers s) w) as [[todo [p|] out]|] eqn:Hw; try discriminate. destruct (nth_error (n_chans s) (tp_sub p)) as [c|] eqn:Hc; [|discriminate].
    destruct (q_next (c_q c) _) as [[q [|[|t r] [|]]]|] eqn:HQ; try discriminate.
    assert (HN : w < nw s) by (unfold nw; apply nth_error_Some; congruence). assert (C0 : cur_of s w = Some p) by (unfold cur_of; rewrite Hw; reflexivity).
    destruct (nth_error scs (tp_sub p)) as [sc|] eqn:Hsc; [|apply nth_error_None in Hsc; specialize (U w p C0); lia].
    set (s1 := set_chan s (tp_sub p) (with_q c q)) in *. set (nx := fun o => {| w_todo := todo; w_cur := None; w_out := out ++ [o] |}) in *.
    assert (Cw : forall o t, cur_of (set_writer s1 w (nx o)) t = if Nat.eqb t w then None else cur_of s t) by (intros o t0; rewrite (cur_set_writer s1 w (nx o) _ Hw); reflexivity).
    assert (LW : forall o, nw (set_writer s1 w (nx o)) = nw s) by (intro o; unfold nw, set_writer; cbn [n_writers s1 set_chan]; apply upd_length).
    destruct (ok_push sc _ _ (tp_sub p) (cur_of s) (cur_of (set_writer s1 w (nx None))) tr c w p q t r (C _ _ _ Hc Hsc) HN C0 eq_refl ltac:(rewrite Cw, Nat.eqb_refl; reflexivity) ltac:(intros u Ne; apply Nat.eqb_neq in Ne; rewrite Cw, Ne; reflexivity) HQ) as [(-> & NS & Ok)|(-> & NS & Ok)].
    all: injection E as <- <-.
    all: match goal with |- ninv _ _ _ (_ ++ [?e]) (set_writer _ _ {| w_todo := _; w_cur := _; w_out := _ ++ [?o] |}) => set (e0 := e) in *; change {| w_todo := todo; w_cur := None; w_out := out ++ [o] |} with (nx o); set (oo := o) end.
    all: assert (RS : results_of w [e0] = [(tp_sub p, copy_packet (tp_bufs p), match oo with Some _ => true | None => false end)]) by (unfold results_of, e0, oo; cbn [flat_map]; rewrite Nat.eqb_refl; reflexivity).
    all: assert (RN : forall u, u <> w -> results_of u [e0] = []) by (intros u Ne; unfold results_of, e0; cbn [flat_map]; destruct (Nat.eqb_spec w u); [congruence|reflexivity]).
    all: assert (OC : oo = credit (tp_sub p, copy_packet (tp_bufs p), match oo with Some _ => true | None => false end)) by reflexivity.
    all: constructor; [rewrite LW; exact W|cbn [set_writer n_chans s1 set_chan]; rewrite upd_length; exact L| | | |].
    all: try (intros t0 p0; rewrite Cw; destruct (Nat.eqb t0 w); [discriminate|apply U]).
    all: try (apply chron_snoc; [exact H|exact NS]).
    all: try (intros w0 x prog; cbn [set_writer n_writers s1 set_chan]; rewrite nth_upd; destruct (Nat.eqb_spec w0 w) as [->|Ne]; [|intros K Hp; apply wr_frame; [now apply R|now apply RN]];
      destruct (_ <? _); [|discriminate]; intros K Hp; injection K as <-; destruct (R w _ prog Hw Hp) as [(done & P1 & P2) O]; cbn [w_cur w_todo w_out] in *; constructor; cbn [w_cur w_todo w_out nx]; rewrite res_app, RS, map_app;
      [exists (done ++ [p]); split; [rewrite P1, <- app_assoc; reflexivity|]; rewrite map_app, P2; unfold wire; cbn [map fst]; rewrite copy_concat; reflexivity|rewrite O; cbn [map]; rewrite <- OC; reflexivity]).
    all: intros k c0 sc0; rewrite LW; cbn [set_writer n_chans s1 set_chan]; rewrite nth_upd; destruct (Nat.eqb_spec k (tp_sub p)) as [->|Ne];
      [destruct (_ <? _); [|discriminate]; intros K Hsc0; injection K as <-; rewrite Hsc in Hsc0; injection Hsc0 as <-; rewrite <- (app_nil_r (tr ++ [e0])); apply chan_frame with (cur := cur_of (set_writer s1 w (nx None))); [exact Ok|intros u _; rewrite !Cw; reflexivity|constructor]
      |intros K Hsc0; apply chan_frame with (cur := cur_of s); [now apply C| |constructor; [|constructor]; unfold e0; cbn [about]; apply Nat.eqb_neq; auto];
       intros u _; rewrite Cw; destruct (Nat.eqb_spec u w) as [->|]; [|reflexivity]; rewrite C0; cbn [at_push]; assert (Nb : Nat.eqb (tp_sub p) k = false) by (apply Nat.eqb_neq; auto); now rewrite Nb].
  - (* LStopCall *)
    destruct (Nat.ltb_spec (nw s) t) as [Ht|]; [|discriminate]. destruct (nth_error (n_chans s) k) as [c|] eqn:Hc; [|discriminate]. destruct (q_next (c_q c) _) as [[q qe]|] eqn:HQ; [|discriminate]. injection E as <- <-.
    destruct (nth_error scs k) as [sc|] eqn:Hsc; [|apply nth_error_None in Hsc; assert (k < length (n_chans s)) by (apply nth_error_Some; congruence); lia].
    apply ninv_chan with (c := c) (sc := sc); auto. rewrite app_nil_r. eapply ok_stop_call; [apply C; assumption|exact Ht|exact HQ].
  - (* LStopStep *)
    destruct (Nat.ltb_spec (nw s) t) as [Ht|]; [|discriminate]. destruct (nth_error (n_chans s) k) as [c|] eqn:Hc; [|discriminate]. destruct (q_next (c_q c) _) as [[q qe]|] eqn:HQ; [|discriminate]. injection E as <- <-.
    destruct (nth_error scs k) as [sc|] eqn:Hsc; [|apply nth_error_None in Hsc; assert (k < length (n_chans s)) by (apply nth_error_Some; congruence); lia].
    apply ninv_chan with (c := c) (sc := sc); auto. eapply ok_stop_step; [apply C; assumption|exact Ht|exact HQ].
  - (* LWake *)
    destruct (nth_error (n_chans s) k) as [c|] eqn:Hc; [|discriminate].
    destruct (nth_error scs k) as [sc|] eqn:Hsc; [|apply nth_error_None in Hsc; assert (k < length (n_chans s)) by (apply nth_error_Some; congruence); lia].
    destruct (c_wait c) eqn:Wt; [|discriminate]. destruct (0 <? q_sem (c_q c)); [|discriminate]. cbn [andb] in E. destruct (stopped_stream (c_stream c)) eqn:St.
    + injection E as <- <-. apply ninv_chan with (c := c) (sc := sc); auto. rewrite app_nil_r. apply ok_wake_stopped; auto.
    + destruct (q_next (c_q c) _) as [[q qe]|] eqn:HQ; [|discriminate]. injection E as <- <-. apply ninv_chan with (c := c) (sc := sc); auto. rewrite app_nil_r. eapply ok_wake; eauto.
  - (* LError *)
    destruct (nth_error (n_chans s) k) as [c|] eqn:Hc; [|discriminate]. destruct (nth_error scs k) as [sc|] eqn:Hsc; [|discriminate]. destruct (c_wait c) eqn:Wt; [|discriminate]. pose proof (C _ _ _ Hc Hsc) as Ok. destruct (stopped_stream (c_stream c)) eqn:St.
    + injection E as <- <-. apply ninv_chan with (c := c) (sc := sc); auto. rewrite app_nil_r. apply ok_wake_stopped; auto.
    + injection E as <- <-. apply ninv_chan with (c := c) (sc := sc); auto. rewrite app_nil_r. apply ok_error; [exact Ok|].
      pose proof (k_busy _ _ _ _ _ _ _ Ok) as B. destruct (nth_error (q_threads (c_q c)) (nw s)) as [[]|]; try reflexivity; (destruct B as [B _]; [discriminate|congruence]).
  - (* LRead *)
    destruct (nth_error (n_chans s) k) as [c|] eqn:Hc; [|discriminate]. destruct (nth_error scs k) as [sc|] eqn:Hsc; [|discriminate]. pose proof (C _ _ _ Hc Hsc) as Ok.
    destruct (q_next (c_q c) _) as [[q qe]|] eqn:HQ; [|discriminate]. destruct (ok_read _ _ _ _ _ _ _ _ _ _ Ok HQ) as [[-> Ok']|(r & -> & Ok')]; injection E as <- <-; (apply ninv_chan with (c := c) (sc := sc); auto; rewrite app_nil_r; exact Ok').
  - (* LUser *)
    destruct (nth_error (n_chans s) k) as [c|] eqn:Hc; [|discriminate]. destruct (nth_error scs k) as [sc|] eqn:Hsc; [|discriminate]. destruct (reader_idle s c) eqn:Ri; [|discriminate]. injection E as <- <-. apply ninv_chan with (c := c) (sc := sc); auto. rewrite app_nil_r.
    apply ok_use; [apply C; assumption| |destruct st; reflexivity|destruct st; auto]. unfold reader_idle in Ri. destruct (nth_error (q_threads (c_q c)) (nw s)) as [[]|]; congruence.
Qed.
Theorem n_exec_inv scs progs users tr s : n_exec scs progs users tr s -> ninv scs progs users tr s.
Proof. induction 1 as [|tr s l s' ev H IH E]; [apply ninv_new|eapply ninv_next; eauto]. Qed.
