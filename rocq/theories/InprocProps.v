(** C48: the in-process transport. *)
From Coq Require Import ZArith List Bool Arith Lia.
From Verif Require Import Base CodecModel PacketSpec RecvPacketModel RecvPacketProofs RecvPacketProps SendPacketModel SendSpec SendPacketProofs SendGenProofs SendProps
  LiveHeapModel LiveHeapSpec LiveHeapProofs LiveHeapProps RecvHeapModel RecvHeapProofs RecvHeapProps ReassembleProofs E2EProofs E2EProps
  StreamModel StreamSpec StreamProofs StreamInvProofs StreamRunProofs StreamProps StreamE2EProofs StreamE2EProps ConcBase QueueModel QueueProps InprocModel InprocSpec InprocProofs.
Import ListNotations.

(** What the sender makes decodes to its full size. *)
Open Scope Z_scope.
Lemma packet_whole hab items rep cnt mps c pks pk : accepted hab items rep cnt mps c -> packets_of c pks -> count_fits c -> no_interleave c -> 0 <= cnt < 2 ^ hab -> g_psize c < 2 ^ hab ->
  Forall (fun it => 4 < item_id it /\ (addressed hab it = true -> item_data it <> [])) items -> In pk pks ->
  exists h, decode_packet (packet_bytes pk) = Accept h (zlen (packet_bytes pk)).
Proof.
  intros HA HPk Hcf Hni Hcnt HL Hit Hin. pose proof HA as (Hf & Hok & _ & _).
  destruct (accepted_run _ _ _ _ _ _ HA) as (Hc & Eh & Ei & Er & Ecn & Hm & pks' & infos & HP & R). rewrite (packets_of_unique _ _ _ HP HPk) in *. clear HP pks'. subst hab items rep cnt.
  set (hab := g_hab c) in *. set (items := g_items c) in *. set (L := g_psize c) in *.
  pose proof (run_wire c pks infos Hc R Hcf) as HW. pose proof (run_count c _ pks infos Hc eq_refl R Hcf) as HCt. destruct (Forall2_In_l _ _ _ _ HW Hin) as (i & Hi & E).
  pose proof (ro_tiles _ _ _ _ R) as HT. change (s_poff gen_init) with 0 in HT. pose proof (tiles_bounds _ _ _ HT) as [HL0 HB]. rewrite Forall_forall in HB. specialize (HB i Hi). fold L in HB.
  assert (HPL : zlen (heap_payload hab items) <= L).
  { pose proof (padded_length c Hc) as HPd. unfold padded in HPd. rewrite zlen_app in HPd. fold hab items L in HPd. pose proof (zlen_nonneg (repeat 0 (Z.to_nat (L - zlen (heap_payload hab items))))). lia. }
  assert (Hids : Forall (fun it => 4 < item_id it) items) by (eapply Forall_impl; [|exact Hit]; tauto).
  assert (HPtr : forall q, In q (pi_ptrs i) -> In q (sent_pointers hab L items)).
  { intro q. unfold hab, L, items. rewrite (sent_pointers_all c Hc). destruct (g_repeat c) eqn:ER.
    - pose proof (ro_repeat _ _ _ _ R ER) as HR. rewrite Forall_forall in HR. intro Hq. now rewrite (HR i Hi) in Hq.
    - pose proof (ro_ptrs _ _ _ _ R ER) as HR. change (Z.to_nat (s_nip gen_init)) with 0%nat in HR. cbn [skipn] in HR. intro Hq. rewrite <- HR. rewrite in_concat. exists (pi_ptrs i). split; [now apply in_map|exact Hq]. }
  rewrite Forall_forall in HCt. specialize (HCt i Hi). cbn in HCt.
  assert (HQ : forall q, In q (pi_ptrs i) -> word_ok q /\ kept hab q = true) by (intros q Hq; pose proof (sent_pointers_facts hab items L q Hf Hok HPL HL Hids (HPtr q Hq)); tauto).
  rewrite E. fold hab L. destruct (wire_at hab (g_cnt c) L (pi_off i) (pi_ptrs i) (pi_payload i)) as (PA & _ & _); try assumption; try lia; try (apply Forall_forall; intros q Hq; now apply HQ).
  destruct (C02_wellformed_accepted _ _ _ _ _ _ _ PA) as (h & HD & _). exists h. rewrite HD. f_equal. now rewrite zlen_wire.
Qed.
Close Scope Z_scope.

Section Props.
Context (scs : list sconfig) (progs : list (list tpacket)) (users : nat).
Context (configs_ok : Forall config_ok scs) (packets_ok : Forall (Forall (fun p => Forall bytes_ok (tp_bufs p))) progs).
Notation n_exec := (n_exec scs progs users).

(** The reader of a queue gets exactly the packets that were put into it, in that
    order; the rest is still in the queue. *)
Theorem C48_fifo tr s k c : n_exec tr s -> nth_error (n_chans s) k = Some c -> sent_to k tr = c_got c ++ q_data (c_q c).
Proof.
  intros E Hc. pose proof (n_exec_inv _ _ _ _ _ E) as V. destruct (nth_error scs k) as [sc|] eqn:Hsc; [|apply nth_error_None in Hsc; rewrite <- (v_nc _ _ _ _ _ V) in Hsc; apply nth_error_None in Hsc; congruence]. exact (k_fifo _ _ _ _ _ _ _ (v_chan _ _ _ _ _ V k c sc Hc Hsc)).
Qed.
(** A writer's packets are tried in order, each once, with the bytes of its buffers;
    bytes_sent and result of the items say what became of them. *)
Theorem C48_writer tr s w x prog : n_exec tr s -> nth_error (n_writers s) w = Some x -> nth_error progs w = Some prog ->
  (exists rest, map wire prog = map fst (results_of w tr) ++ rest /\ (w_todo x = [] -> w_cur x = None -> rest = [])) /\ w_out x = map credit (results_of w tr).
Proof.
  intros E Hx Hp. pose proof (n_exec_inv _ _ _ _ _ E) as V. destruct (v_wr _ _ _ _ _ V w x prog Hx Hp) as [(done & P1 & P2) O]. split; [|exact O].
  exists (map wire ((match w_cur x with Some p => [p] | None => [] end) ++ w_todo x)). split; [rewrite P1, map_app, P2; reflexivity|]. intros -> ->. reflexivity.
Qed.
(** A packet fails exactly when the queue has been stopped before. *)
Theorem C48_aborted tr s tr1 e tr2 : n_exec tr s -> tr = tr1 ++ e :: tr2 ->
  match e with Aborted _ k _ => In (QueueStopped k) tr1 | Sent _ k _ => ~ In (QueueStopped k) tr1 | QueueStopped _ => True end.
Proof. intros E H. exact (v_chron _ _ _ _ _ (n_exec_inv _ _ _ _ _ E) _ _ _ H). Qed.

Lemma got_ok tr s k c : n_exec tr s -> nth_error (n_chans s) k = Some c -> Forall bytes_ok (c_got c).
Proof.
  intros E Hc. assert (A : Forall bytes_ok (sent_to k tr)).
  { apply Forall_forall. intros d Hd. unfold sent_to in Hd. apply in_flat_map in Hd as (e & He & Hd). destruct e as [w k' d'|w k' d'|k']; [|destruct Hd|destruct Hd]. destruct (Nat.eqb k' k); [|destruct Hd]. destruct Hd as [->|[]].
    pose proof (n_exec_inv _ _ _ _ _ E) as V.
    assert (Lw : forall tr s, n_exec tr s -> In (Sent w k' d) tr -> w < length (n_writers s)).
    { clear. intros tr s X. induction X as [|tr s l s' ev X IH E]; [intros []|]. intro K. assert (Le : length (n_writers s') = length (n_writers s)).
      { clear - E. unfold n_next in E. destruct l; repeat match type of E with context [match ?b with _ => _ end] => destruct b; try discriminate end; injection E as <- <-; cbn [set_writer set_chan n_writers]; rewrite ?upd_length; reflexivity. }
      rewrite Le. apply in_app_or in K as [K|K]; [auto|]. clear IH Le. unfold n_next in E. destruct l as [w0|w0|k t|k t|k|k|k sp|k st].
      2: { destruct (nth_error (n_writers s) w0) as [[todo [p|] out]|] eqn:Hw; try discriminate. assert (L : w0 < length (n_writers s)) by (apply nth_error_Some; congruence). repeat match type of E with context [match ?b with _ => _ end] => destruct b; try discriminate end; injection E as <- <-; destruct K as [K|[]]; try discriminate; injection K as -> _ _; exact L. }
      all: repeat match type of E with context [match ?b with _ => _ end] => destruct b; try discriminate end; injection E as <- <-; try (destruct K as [K|K]; [discriminate|]); destruct K. }
    specialize (Lw tr s E He). destruct (nth_error (n_writers s) w) as [x|] eqn:Hx; [|apply nth_error_None in Hx; lia]. pose proof (v_nw _ _ _ _ _ V) as HN. unfold nw in HN. destruct (nth_error progs w) as [prog|] eqn:Hp; [|apply nth_error_None in Hp; lia].
    destruct (v_wr _ _ _ _ _ V w x prog Hx Hp) as [(done & P1 & P2) _]. assert (K : In (k', d) (map wire done)).
    { rewrite P2. apply in_map_iff. exists (k', d, true). split; [reflexivity|]. unfold results_of. apply in_flat_map. eexists. split; [exact He|]. cbn. rewrite Nat.eqb_refl. now left. }
    apply in_map_iff in K as (p & Kp & Kin). injection Kp as _ <-. rewrite Forall_forall in packets_ok. specialize (packets_ok prog (nth_error_In _ _ Hp)). rewrite Forall_forall in packets_ok. specialize (packets_ok p ltac:(rewrite P1; apply in_or_app; now left)). clear - packets_ok. induction packets_ok as [|b bs B Bs IH]; [constructor|]. cbn [concat]. apply bytes_ok_app. split; [exact B|exact (IH Bs)]. }
  rewrite (C48_fifo tr s k c E Hc) in A. apply Forall_app in A. apply A.
Qed.
Lemma ops_ok tr s k c : n_exec tr s -> nth_error (n_chans s) k = Some c -> Forall op_decoded (c_ops c).
Proof.
  intros E Hc. pose proof (n_exec_inv _ _ _ _ _ E) as V. destruct (nth_error scs k) as [sc|] eqn:Hsc; [|apply nth_error_None in Hsc; rewrite <- (v_nc _ _ _ _ _ V) in Hsc; apply nth_error_None in Hsc; congruence]. pose proof (v_chan _ _ _ _ _ V k c sc Hc Hsc) as Ok. pose proof (got_ok tr s k c E Hc) as G. rewrite Forall_forall in G.
  apply Forall_forall. intros o Ho. destruct (k_each _ _ _ _ _ _ _ Ok o Ho) as [->|[->|[->|[->|(d & Hd & ->)]]]]; cbn [op_decoded]; trivial. apply process_decoded. auto.
Qed.

(** What happens to the stream is what the packets do to it: each one that decodes to
    its full size is added, once, in order.  Nothing in the stream is undefined. *)
Theorem C48_stream tr s k c sc : n_exec tr s -> nth_error (n_chans s) k = Some c -> nth_error scs k = Some sc ->
  exists st rs, c_stream c = Some st /\ reachable sc st rs /\ run sc (stream_new sc) (c_ops c) = Some (st, rs) /\ flat_map ops_of (c_ops c) = flat_map process_one_packet (c_got c).
Proof.
  intros E Hc Hsc. pose proof (n_exec_inv _ _ _ _ _ E) as V. pose proof (v_chan _ _ _ _ _ V k c sc Hc Hsc) as Ok. pose proof (ops_ok tr s k c E Hc) as D. assert (Cf : config_ok sc) by (rewrite Forall_forall in configs_ok; apply configs_ok; eapply nth_error_In; eauto).
  destruct (run_ok sc (c_ops c) Cf D) as (st & rs & R). exists st, rs. pose proof (k_run _ _ _ _ _ _ _ Ok) as KR. rewrite R in KR. split; [exact KR|]. split; [split; [exact Cf|eauto]|]. split; [exact R|]. exact (k_pkts _ _ _ _ _ _ _ Ok).
Qed.

Lemma only_batches sc : sc_stop_item sc = false -> config_ok sc -> forall ops, Forall op_decoded ops -> (forall o, In o ops -> o = Flush \/ exists ps, o = Batch ps false) -> forall st rs, run sc (stream_new sc) ops = Some (st, rs) -> st_stopped st = false.
Proof.
  intros Hi Hc ops. induction ops as [|o ops IH] using rev_ind; intros D H st rs R; [cbn [run] in R; injection R as <- <-; reflexivity|]. apply Forall_app in D as [D1 D2]. inversion D2 as [|? ? D3 _]; subst. rewrite run_snoc in R. destruct (run sc (stream_new sc) ops) as [[s1 r1]|] eqn:R1; [|discriminate]. specialize (IH D1 ltac:(intros; apply H, in_or_app; auto) s1 r1 eq_refl). destruct (step sc s1 o) as [[s2 r2]|] eqn:S; [|discriminate]. injection R as <- <-.
  destruct (H o ltac:(apply in_or_app; right; now left)) as [->|(ps & ->)].
  - cbn [step] in S. destruct (flush_unlocked sc s1) eqn:F; [|discriminate]. injection S as <- <-. apply flush_keeps in F. congruence.
  - eapply step_none_stopped with (s := s1); eauto. split; [exact Hc|]. eauto.
Qed.
(** Unless the user stops it (or it is told to stop at a stop item), the stream stops
    only when the queue has been stopped and all its packets were received. *)
Theorem C48_stop tr s k c sc : n_exec tr s -> nth_error (n_chans s) k = Some c -> nth_error scs k = Some sc -> stopped_stream (c_stream c) = true -> ~ user_stops c -> sc_stop_item sc = false ->
  In (QueueStopped k) tr /\ c_got c = sent_to k tr.
Proof.
  intros E Hc Hsc St Nu Hi. pose proof (n_exec_inv _ _ _ _ _ E) as V. pose proof (v_chan _ _ _ _ _ V k c sc Hc Hsc) as Ok. destruct (C48_stream tr s k c sc E Hc Hsc) as (st & rs & E1 & [Cf _] & R & _). rewrite E1 in St. cbn [stopped_stream] in St.
  assert (X : In (Batch [] true) (c_ops c)).
  { assert (Dec : In (Batch [] true) (c_ops c) \/ ~ In (Batch [] true) (c_ops c)). { clear. induction (c_ops c) as [|o l IH]; [now right|]. destruct IH as [IH|IH]; [left; now right|]. destruct o as [[|p ps] [|]| |]; try (right; intros [K|K]; [discriminate|auto]). left. now left. }
    destruct Dec as [X|X]; [exact X|exfalso]. assert (F : st_stopped st = false); [|congruence]. eapply only_batches; [exact Hi|exact Cf|exact (ops_ok tr s k c E Hc)| |exact R]. intros o Ho. destruct (k_each _ _ _ _ _ _ _ Ok o Ho) as [->|[->|[->|[->|(d & _ & ->)]]]]; eauto; exfalso; auto. }
  destruct (k_eof _ _ _ _ _ _ _ Ok X) as [Q1 Q2]. split; [now apply (k_stop _ _ _ _ _ _ _ Ok)|]. rewrite (k_fifo _ _ _ _ _ _ _ Ok), Q2. now rewrite app_nil_r.
Qed.
(** No lost wakeups: as long as the stream has not stopped, the reader is either in
    its handler, where it can always go on, or waiting; and then it wakes up if there
    is a packet or the queue has been stopped. *)
Theorem C48_wakeup tr s k c sc : n_exec tr s -> nth_error (n_chans s) k = Some c -> nth_error scs k = Some sc -> stopped_stream (c_stream c) = false ->
  (c_wait c = false /\ exists r, n_next scs s (LRead k false) = Some r) \/
  (c_wait c = true /\ (q_data (c_q c) <> [] \/ In (QueueStopped k) tr -> exists r, n_next scs s (LWake k) = Some r)).
Proof.
  intros E Hc Hsc St. pose proof (n_exec_inv _ _ _ _ _ E) as V. pose proof (v_chan _ _ _ _ _ V k c sc Hc Hsc) as Ok. destruct (k_q _ _ _ _ _ _ _ Ok) as (qtr & Q). destruct (q_exec_inv (list_eq_dec Z.eq_dec) _ _ _ Q) as (m & _ & [_ _ Hth Hsem _]).
  assert (Lt : length (q_threads (c_q c)) = length progs + 1 + users).
  { clear - Q. induction Q as [|qtr q l q' ev Q IH N]; [apply repeat_length|]. rewrite <- IH. destruct l as [t o|t sp]; cbn [q_next] in N.
    - destruct (nth_error _ t) as [[]|]; try discriminate. injection N as <- <-. apply upd_length.
    - unfold q_step in N. repeat match type of N with context [match ?b with _ => _ end] => destruct b; try discriminate end; injection N as <- <-; apply upd_length. }
  destruct (nth_error (q_threads (c_q c)) (nw s)) as [p|] eqn:Hp; [|apply nth_error_None in Hp; rewrite (v_nw _ _ _ _ _ V) in Hp; lia].
  destruct (k_th _ _ _ _ _ _ _ Ok _ _ Hp) as (_ & T2 & _). cbn [n_next]. rewrite Hc, Hsc. cbn [q_next]. unfold q_step. rewrite Hp.
  destruct (T2 eq_refl) as [->|T3].
  - right. assert (Wt : c_wait c = true) by (destruct (c_wait c) eqn:Wt; [reflexivity|]; pose proof (k_idle _ _ _ _ _ _ _ Ok Hp Wt); congruence). split; [exact Wt|]. intro D. rewrite Wt, St.
    assert (Z : sumw wT (q_threads (c_q c)) = 0).
    { apply sumw_zero. intros t x Hx. destruct (k_th _ _ _ _ _ _ _ Ok _ _ Hx) as (X1 & X2 & X3). destruct (lt_eq_lt_dec t (nw s)) as [[L| ->]|L].
      - rewrite (X1 L). destruct (cur_of s t) as [y|]; [destruct (Nat.eqb _ _); reflexivity|reflexivity].
      - rewrite Hp in Hx. injection Hx as <-. reflexivity.
      - destruct (X3 L) as [->| ->]; reflexivity. }
    assert (P : 0 < q_sem (c_q c)). { destruct D as [D|D]; [destruct (q_data (c_q c)); [congruence|cbn [length] in Hsem; lia]|]. apply (k_stop _ _ _ _ _ _ _ Ok) in D. rewrite D in Hsem. lia. }
    apply Nat.ltb_lt in P. rewrite P. cbn [andb]. eauto.
  - left. split; [apply (k_busy _ _ _ _ _ _ _ Ok); rewrite Hp; intro K; injection K as ->; destruct T3 as [T3|(? & T3)]; discriminate|]. destruct T3 as [->|([|] & ->)].
    + destruct (q_sem (c_q c)); eauto.
    + destruct (q_data (c_q c)); eauto.
    + destruct (q_data (c_q c)); eauto.
Qed.

(** A heap whose packets all went through the queue, possibly mixed with packets of
    other heaps, is received complete with the items that were sent (see C07). *)
Theorem C48_end_to_end tr s k ch sc hab items rep cnt mps c pks :
  n_exec tr s -> nth_error (n_chans s) k = Some ch -> nth_error scs k = Some sc ->
  sc_allow_ooo sc = true -> sc_stop_item sc = false ->
  (* the user has not touched the stream, and all packets have been received *)
  ~ In Stop (c_ops ch) -> ~ In Flush (c_ops ch) -> ~ In (QueueStopped k) tr -> q_data (c_q ch) = [] ->
  accepted hab items rep cnt mps c -> packets_of c pks -> count_fits c -> no_interleave c -> (0 <= cnt < 2 ^ hab)%Z -> (g_psize c < 2 ^ hab)%Z ->
  Forall (fun it => (4 < item_id it)%Z /\ (addressed hab it = true -> item_data it <> [])) items ->
  (* all the packets of the heap were put into the queue, and other packets have other heap cnts *)
  (forall pk, In pk pks -> In (packet_bytes pk) (sent_to k tr)) ->
  (forall d p, In d (sent_to k tr) -> decode_rpkt d = Some p -> rp_cnt p = cnt -> exists pk, In pk pks /\ d = packet_bytes pk) ->
  (* not too many heaps at once *)
  (forall st, c_stream ch = Some st -> length (filter (in_sub sc (get_substream sc cnt)) (st_hist st)) <= sc_max_heaps sc) ->
  exists st o f, c_stream ch = Some st /\ In o (st_out st) /\ oh_why o = Complete /\ freeze (oh_heap o) = Some f /\ fr_cnt f = cnt /\
    slice (fr_payload f) 0 (zlen (heap_payload hab items)) = map Some (heap_payload hab items) /\
    forall id v, (exists it, In it (fr_items f) /\ ri_id it = id /\ ritem_value f it = Some v) <-> (exists it, In it items /\ item_id it = id /\ received_value hab it = v).
Proof.
  intros E Hch Hsc Hooo Hstop NS NF NQ Hd HA HPk Hcf Hni Hcnt HL Hit Hall Honly Hmax.
  destruct (C48_stream tr s k ch sc E Hch Hsc) as (st & rs & E1 & [Cf _] & R & HP). pose proof (C48_fifo tr s k ch E Hch) as F. rewrite Hd, app_nil_r in F. pose proof (n_exec_inv _ _ _ _ _ E) as V. pose proof (v_chan _ _ _ _ _ V k ch sc Hch Hsc) as Ok.
  assert (St : st_stopped st = false). { destruct (st_stopped st) eqn:X; [|reflexivity]. exfalso. apply NQ. eapply (C48_stop tr s k ch sc); eauto. now rewrite E1. }
  assert (HO : flat_map op_pkts (c_ops ch) = flat_map process_one_packet (sent_to k tr)) by (rewrite F, <- HP; reflexivity).
  assert (DP : forall d p, In p (process_one_packet d) -> decode_rpkt d = Some p).
  { intros d p. unfold process_one_packet, decode_rpkt. destruct (decode_packet d) as [| |h z]; try (intros []). destruct (z =? zlen d)%Z; [|intros []]. intros [->|[]]. reflexivity. }
  assert (PB : forall pk, In pk pks -> exists p, process_one_packet (packet_bytes pk) = [p] /\ decode_rpkt (packet_bytes pk) = Some p).
  { intros pk Hin. destruct (packet_whole _ _ _ _ _ _ _ _ HA HPk Hcf Hni Hcnt HL Hit Hin) as (h & Dk). exists (rpkt_of (packet_bytes pk) h). unfold process_one_packet, decode_rpkt. rewrite Dk, Z.eqb_refl. auto. }
  destruct (C07_through_stream_partial sc (stream_new sc) [] (c_ops ch) st rs hab items rep cnt mps c pks) as (o & f & O1 & _ & O2 & O3 & O4 & _ & O5 & O6); auto.
  - split; [exact Cf|]. exists []. split; [constructor|reflexivity].
  - intros u h K. exfalso. unfold live_heaps in K. apply in_flat_map in K as (en & K1 & K2). cbn [stream_new st_entries] in K1. apply repeat_spec in K1. subst en. destruct K2.
  - exact (ops_ok tr s k ch E Hch).
  - apply Forall_forall. intros o Ho. destruct (k_each _ _ _ _ _ _ _ Ok o Ho) as [->|[->|[->|[->|(d & _ & ->)]]]]; try exact Logic.I; contradiction.
  - rewrite HO. intros p Hp Hc. apply in_flat_map in Hp as (d & Hd1 & Hd2). apply DP in Hd2 as Hd3. destruct (Honly d p Hd1 Hd3 Hc) as (pk & Hpk & ->). eauto.
  - rewrite HO. intros pk Hpk. destruct (PB pk Hpk) as (p & P1 & P2). exists p. split; [|exact P2]. apply in_flat_map. exists (packet_bytes pk). split; [auto|]. rewrite P1. now left.
  - cbn [stream_new st_hist length skipn]. auto.
  - exists st, o, f. auto 8.
Qed.
End Props.

(** *** Example: two writers, two queues.  Writer 0 sends the two packets of heap 9
    (C07_ex) to queue 0, each in two buffers, then a packet to queue 1; writer 1 sends
    something that is not a packet to queue 0 in between.  Queue 0 is then stopped, and
    one more packet fails. *)
Fixpoint n_run (scs : list sconfig) (s : net) (ls : list nlabel) : option (net * list nevent) :=
  match ls with
  | [] => Some (s, [])
  | l :: ls => match n_next scs s l with Some (s', ev) => option_map (fun r => (fst r, ev ++ snd r)) (n_run scs s' ls) | None => None end
  end.
Lemma n_run_exec scs progs users ls : forall tr s s' ev, n_exec scs progs users tr s -> n_run scs s ls = Some (s', ev) -> n_exec scs progs users (tr ++ ev) s'.
Proof.
  induction ls as [|l ls IH]; intros tr s s' ev H R; cbn [n_run] in R; [injection R as <- <-; now rewrite app_nil_r|]. destruct (n_next scs s l) as [[s1 ev1]|] eqn:E; [|discriminate]. destruct (n_run scs s1 ls) as [[s2 ev2]|] eqn:E2; [|discriminate]. injection R as <- <-. cbn [fst snd]. rewrite app_assoc. eapply IH; [|exact E2]. eapply nx_next; eauto.
Qed.
Definition ex_bufs (d : list Z) : list (list Z) := [firstn 24 d; skipn 24 d].
Definition ex_pks : list (list Z) := map packet_bytes (run_pkts 48 ex_items 72).
Definition ex_progs : list (list tpacket) :=
  [map (fun d => {| tp_bufs := ex_bufs d; tp_sub := 0 |}) ex_pks ++ [{| tp_bufs := [nth 0 ex_pks []]; tp_sub := 1 |}; {| tp_bufs := [[7%Z]]; tp_sub := 0 |}];
   [{| tp_bufs := [[1; 2]; [3]]%Z; tp_sub := 0 |}]].
Definition ex_net0 : net := net_new [ex_sc3; ex_sc3] ex_progs 1.
Definition ex_sent : list nlabel := [LSend 0; LSend 1; LPush 0; LPush 1; LWake 0; LSend 0; LRead 0 false; LRead 0 false; LPush 0; LWake 0; LRead 0 true; LRead 0 false; LRead 0 false; LRead 0 false; LWake 0; LRead 0 false; LRead 0 false].
Definition ex_stop : list nlabel := [LSend 0; LStopCall 0 3; LPush 0; LStopStep 0 3; LSend 0; LPush 0; LWake 0; LRead 0 false; LRead 0 false].
Definition ex_mid_net : net * list nevent := match n_run [ex_sc3; ex_sc3] ex_net0 ex_sent with Some r => r | None => (ex_net0, []) end.
Definition ex_end_net : net * list nevent := match n_run [ex_sc3; ex_sc3] (fst ex_mid_net) ex_stop with Some r => r | None => (ex_net0, []) end.
Lemma ex_mid_run : n_run [ex_sc3; ex_sc3] ex_net0 ex_sent = Some ex_mid_net.
Proof. vm_compute. reflexivity. Qed.
Lemma ex_end_run : n_run [ex_sc3; ex_sc3] (fst ex_mid_net) ex_stop = Some ex_end_net.
Proof. vm_compute. reflexivity. Qed.
Lemma ex_progs_ok : Forall (Forall (fun p => Forall bytes_ok (tp_bufs p))) ex_progs.
Proof.
  assert (H : forallb (forallb (fun p => forallb (forallb (fun b => (0 <=? b) && (b <? 256)))%Z (tp_bufs p))) ex_progs = true) by (vm_compute; reflexivity).
  apply Forall_forall. intros pr Hp. rewrite forallb_forall in H. specialize (H pr Hp). apply Forall_forall. intros p Hq. rewrite forallb_forall in H. specialize (H p Hq). apply Forall_forall. intros d Hd. rewrite forallb_forall in H. apply bytes_ok_dec. now apply H.
Qed.
Definition ex_summary48 (s : net) (k : nat) :=
  match nth_error (n_chans s) k with
  | Some c => Some (length (c_got c), length (q_data (c_q c)), option_map (fun st => (st_stopped st, map (fun o => (oh_why o, lh_cnt (oh_heap o))) (st_out st))) (c_stream c))
  | None => None
  end.
(** All hypotheses of C48_end_to_end hold in the middle; at the end those of C48_stop. *)
Example C48_ex :
  n_exec [ex_sc3; ex_sc3] ex_progs 1 (snd ex_mid_net) (fst ex_mid_net) /\ sent_to 0 (snd ex_mid_net) = [nth 0 ex_pks []; [1; 2; 3]%Z; nth 1 ex_pks []] /\ ex_summary48 (fst ex_mid_net) 0 = Some (3, 0, Some (false, [(Complete, 9%Z)])) /\
  (forall d p, In d (sent_to 0 (snd ex_mid_net)) -> decode_rpkt d = Some p -> rp_cnt p = 9%Z -> exists pk, In pk (run_pkts 48 ex_items 72) /\ d = packet_bytes pk) /\
  n_exec [ex_sc3; ex_sc3] ex_progs 1 (snd ex_mid_net ++ snd ex_end_net) (fst ex_end_net) /\ ex_summary48 (fst ex_end_net) 0 = Some (3, 0, Some (true, [(Complete, 9%Z)])) /\ ex_summary48 (fst ex_end_net) 1 = Some (0, 1, Some (false, [])) /\
  results_of 0 (snd ex_mid_net ++ snd ex_end_net) = [(0, nth 0 ex_pks [], true); (0, nth 1 ex_pks [], true); (1, nth 0 ex_pks [], true); (0, [7%Z], false)].
Proof.
  assert (X : n_exec [ex_sc3; ex_sc3] ex_progs 1 (snd ex_mid_net) (fst ex_mid_net)).
  { pose proof ex_mid_run as E. destruct ex_mid_net as [s tr]. exact (n_run_exec _ _ _ _ [] ex_net0 s tr (nx_new _ _ _) E). }
  assert (S : sent_to 0 (snd ex_mid_net) = [nth 0 ex_pks []; [1; 2; 3]%Z; nth 1 ex_pks []]) by (vm_compute; reflexivity).
  split; [exact X|]. split; [exact S|]. split; [vm_compute; reflexivity|]. split.
  { rewrite S. assert (E : exists a b, run_pkts 48 ex_items 72 = [a; b]) by (do 2 eexists; vm_compute; reflexivity). destruct E as (a & b & E). unfold ex_pks. rewrite E. cbn [map nth]. intros d p [<-|[<-|[<-|[]]]] Hd _; [exists a; cbn; auto|vm_compute in Hd; discriminate|exists b; cbn; auto]. }
  split. { pose proof ex_end_run as E. destruct ex_end_net as [s tr]. exact (n_run_exec _ _ _ _ _ _ s tr X E). }
  split; [vm_compute; reflexivity|]. split; vm_compute; reflexivity.
Qed.

Print Assumptions C48_fifo.
Print Assumptions C48_writer.
Print Assumptions C48_aborted.
Print Assumptions C48_stream.
Print Assumptions C48_stop.
Print Assumptions C48_wakeup.
Print Assumptions C48_end_to_end.
