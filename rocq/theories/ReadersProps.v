(** C58: the readers of whole packets (UDP, capture files, memory) give the stream exactly
    the packets that were received. *)
From Coq Require Import ZArith List Bool Arith Lia.
From Verif Require InprocProofs InprocProps.
From Verif Require Import Base CodecModel PacketSpec RecvPacketModel RecvPacketProofs RecvPacketProps SendPacketModel SendSpec SendPacketProofs SendGenProofs SendProps
  LiveHeapModel LiveHeapSpec LiveHeapProofs LiveHeapProps RecvHeapModel RecvHeapProofs RecvHeapProps ReassembleProofs E2EProofs E2EProps
  StreamModel StreamSpec StreamProofs StreamInvProofs StreamRunProofs StreamProps StreamE2EProofs StreamE2EProps RawModel RawSpec RawProps ReadersModel ReadersSpec ReadersProofs.
Import ListNotations.
Open Scope Z_scope.

Lemma handled_some o s rs w : handled o = Some (s, rs, w) -> o = Some (s, rs) /\ w = negb (st_stopped s).
Proof. unfold handled. destruct o as [[s' rs']|]; [|discriminate]. intro H. injection H as <- <- <-. auto. Qed.
Lemma reachable_run sc ops s rs : config_ok sc -> Forall op_decoded ops -> run sc (stream_new sc) ops = Some (s, rs) -> reachable sc s rs.
Proof. intros. split; [assumption|]. eauto. Qed.
Lemma step_some sc ops s rs o : config_ok sc -> Forall op_decoded ops -> op_decoded o -> run sc (stream_new sc) ops = Some (s, rs) -> exists s' rs', step sc s o = Some (s', rs').
Proof.
  intros C D Do R. destruct (InprocProofs.run_ok sc (ops ++ [o]) C) as (s2 & r2 & E); [apply Forall_app; auto|]. rewrite InprocProofs.run_snoc, R in E. destruct (step sc s o) as [[s' rs']|]; [eauto|discriminate].
Qed.

(** ** UDP *)
Section Udp.
Context (sc : sconfig) (gro : bool) (max : Z) (Cf : config_ok sc).
Lemma does_decoded l o : does gro max l o -> op_decoded o.
Proof. intros [ms dss C B| |[|]]; cbn [op_decoded]; try exact I; [now apply wholes_decoded|constructor]. Qed.
Lemma all_decoded ls ops : Forall2 (does gro max) ls ops -> Forall op_decoded ops.
Proof. induction 1 as [|l o ls ops D _ IH]; constructor; [now apply (does_decoded l)|exact IH]. Qed.

(** Whatever comes in, in calls of any size, with or without receive offload, mixed with
    the user stopping or flushing the stream: nothing is undefined, and the stream gets,
    as one batch per call, each datagram that is one packet of at most max_size bytes,
    once and in order.  The reader waits for more as long as the stream has not stopped. *)
Theorem C58_udp ls ops : Forall2 (does gro max) ls ops ->
  u_run sc gro max ls (u_new sc) <> UFault /\
  forall u, u_run sc gro max ls (u_new sc) = UOk u -> run sc (stream_new sc) ops = Some (u_stream u, u_rs u) /\ (st_stopped (u_stream u) = false -> u_wait u = true).
Proof.
  intro H.
  assert (G : forall ls ops, Forall2 (does gro max) ls ops -> forall pre u, Forall op_decoded pre -> run sc (stream_new sc) pre = Some (u_stream u, u_rs u) -> (st_stopped (u_stream u) = false -> u_wait u = true) ->
    u_run sc gro max ls u <> UFault /\ forall u', u_run sc gro max ls u = UOk u' -> run sc (stream_new sc) (pre ++ ops) = Some (u_stream u', u_rs u') /\ (st_stopped (u_stream u') = false -> u_wait u' = true)).
  { clear ls ops H. induction 1 as [|l o ls ops D Ds IH]; intros pre u P R W.
    - cbn [u_run]. split; [discriminate|]. intros u' E. injection E as <-. rewrite app_nil_r. auto.
    - pose proof (does_decoded _ _ D) as Do. cbn [u_run]. pose proof (reachable_run sc pre _ _ Cf P R) as Re. destruct (step_some sc pre _ _ o Cf P Do R) as (s' & rs' & S).
      assert (Nx : u_step sc gro max u l = UBlocked \/ exists u1, u_step sc gro max u l = UOk u1 /\ u_stream u1 = s' /\ u_rs u1 = u_rs u ++ rs' /\ (st_stopped s' = false -> u_wait u1 = true)).
      { assert (Hd : forall r ps, udp_handler sc gro max r (u_stream u) = handled (do_batch sc (u_stream u) ps false) -> step sc (u_stream u) (Batch ps false) = Some (s', rs') ->
          u_handle sc gro max u r = UBlocked \/ exists u1, u_handle sc gro max u r = UOk u1 /\ u_stream u1 = s' /\ u_rs u1 = u_rs u ++ rs' /\ (st_stopped s' = false -> u_wait u1 = true)).
        { intros r ps E S1. unfold u_handle. destruct (u_wait u); [|now left]. right. rewrite E. cbn [step] in S1. rewrite S1. cbn [handled]. eexists. split; [reflexivity|]. cbn [u_stream u_rs u_wait]. split; [reflexivity|]. split; [reflexivity|]. now intros ->. }
        destruct D as [ms dss C B| |st].
        - apply (Hd (Some ms) _ (recv_batch sc gro max _ _ ms dss Re C B) S).
        - apply (Hd None _ (fail_batch sc gro max _ _ Re) S).
        - right. cbn [u_step]. rewrite S. eexists. split; [reflexivity|]. cbn [u_stream u_rs u_wait]. split; [reflexivity|].
          assert (rs' = []). { destruct st; cbn [step] in S; [destruct (stop sc (u_stream u))|destruct (flush_unlocked sc (u_stream u))]; try discriminate; now injection S as _ <-. }
          subst rs'. rewrite app_nil_r. split; [reflexivity|]. intro N. apply W. destruct (st_stopped (u_stream u)) eqn:X; [|reflexivity]. exfalso. pose proof (C20_after_stop sc _ _ [if st then Stop else Flush] Re X) as (s2 & R2 & N2 & _); [constructor; [exact Do|constructor]|]. cbn [run] in R2. rewrite S in R2. injection R2 as ->. congruence. }
      destruct Nx as [Nx|(u1 & Nx & E1 & E2 & E3)]; rewrite Nx; [split; [discriminate|discriminate]|]. specialize (IH (pre ++ [o]) u1). rewrite <- app_assoc in IH. apply IH.
      + apply Forall_app; auto.
      + rewrite InprocProofs.run_snoc, R, S, E1, E2. reflexivity.
      + now rewrite E1. }
  apply (G ls ops H [] (u_new sc)); [constructor|reflexivity|reflexivity].
Qed.
End Udp.

(** ** Capture files *)
Lemma Forall2_skip {A B} (P : A -> B -> Prop) n : forall l m, Forall2 P l m -> Forall2 P (skipn n l) (skipn n m).
Proof. induction n as [|n IH]; intros l m H; [exact H|]. destruct H; cbn [skipn]; [constructor|auto]. Qed.
Lemma Forall_skip {A} (P : A -> Prop) n (l : list A) : Forall P l -> Forall P (skipn n l).
Proof. intro H. rewrite <- (firstn_skipn n l) in H. apply Forall_app in H. tauto. Qed.
(** Batches of packets, and one more at the end of the input *)
Definition until_eof (pss : list (list rpkt)) (ps : list rpkt) : list op := map (fun l => Batch l false) pss ++ [Batch ps true].
Lemma eof_stops sc s rs0 ps s' rs : reachable sc s rs0 -> Forall decoded ps -> do_batch sc s ps true = Some (s', rs) -> st_stopped s' = true.
Proof.
  intros R D E. destruct (st_stopped s) eqn:N; [unfold do_batch in E; rewrite N in E; now injection E as <- _|]. pose proof (end_batch sc s rs0 ps true R D N) as B. rewrite E in B. destruct (feed _ _ _); [|discriminate]. cbn [finish] in B. destruct (batch_end _ _ _); [|discriminate]. injection B as _ _ B. cbn [is_stopped set_stop k_b ba_stopped negb] in B. unfold is_stopped in B. cbn [set_stop k_b ba_stopped negb] in B. destruct (st_stopped s'); [reflexivity|discriminate].
Qed.
Lemma run_stopped sc s rs0 ops : reachable sc s rs0 -> st_stopped s = true -> Forall is_batch ops -> run sc s ops = Some (s, []).
Proof.
  intros R N. induction ops as [|o ops IH]; intro H; [reflexivity|]. inversion H as [|? ? H1 H2]; subst. destruct o as [ps e| |]; try contradiction. cbn [run step]. unfold do_batch. rewrite N, (IH H2). reflexivity.
Qed.
Lemma batches_batches pss ps : Forall is_batch (until_eof pss ps).
Proof. unfold until_eof. apply Forall_app. split; [|repeat constructor]. apply Forall_forall. intros o Ho. apply in_map_iff in Ho as (l & <- & _). exact I. Qed.
Lemma batches_decoded pss ps : Forall (Forall decoded) pss -> Forall decoded ps -> Forall op_decoded (until_eof pss ps).
Proof. intros H1 H2. unfold until_eof. apply Forall_app. split; [|constructor; [exact H2|constructor]]. apply Forall_forall. intros o Ho. apply in_map_iff in Ho as (l & <- & Hl). rewrite Forall_forall in H1. cbn [op_decoded]. auto. Qed.

(** The file is read to its end; then the stream is stopped.  The stream gets the datagrams
    of the file that are packets, once and in order; frames that were cut off, and
    those that do not hold a UDP datagram, are left out. *)
Theorem C58_pcap sc k file dss : config_ok sc -> Forall entry_ok file -> Forall2 (entry_datagrams k) file dss ->
  exists calls s rs pss ps, (forall n, (calls <= n)%nat -> pcap_all sc k n (stream_new sc) [] file = Some (s, rs)) /\
    run sc (stream_new sc) (until_eof pss ps) = Some (s, rs) /\ concat pss ++ ps = flat_map any_size (concat dss) /\ Forall (Forall decoded) pss /\ Forall decoded ps /\ st_stopped s = true.
Proof.
  intros Cf OK E.
  assert (G : forall m file dss, (length file <= m)%nat -> Forall entry_ok file -> Forall2 (entry_datagrams k) file dss -> forall pre s0 rs0, Forall (Forall decoded) pre -> run sc (stream_new sc) (map (fun l => Batch l false) pre) = Some (s0, rs0) -> st_stopped s0 = false ->
    exists calls s rs pss ps, (forall n, (calls <= n)%nat -> pcap_all sc k n s0 rs0 file = Some (s, rs)) /\ run sc (stream_new sc) (until_eof (pre ++ pss) ps) = Some (s, rs) /\ concat pss ++ ps = flat_map any_size (concat dss) /\ Forall (Forall decoded) pss /\ Forall decoded ps /\ st_stopped s = true).
  { clear file dss OK E. induction m as [m IH] using lt_wf_ind. intros file dss L OK E pre s0 rs0 Dp R N. pose proof (entries_bytes k _ _ OK E) as BB.
    assert (Dpre : Forall op_decoded (map (fun l => Batch l false) pre)) by (apply Forall_forall; intros o Ho; apply in_map_iff in Ho as (l & <- & Hl); rewrite Forall_forall in Dp; cbn [op_decoded]; auto).
    pose proof (reachable_run sc _ _ _ Cf Dpre R) as Re. destruct (run_batch sc k s0 rs0 file dss Re N OK E) as (file' & P & F). set (e := (length file <? pcap_batch)%nat) in *. set (ps1 := flat_map any_size (concat (firstn pcap_batch dss))) in *.
    assert (D1 : Forall decoded ps1) by (apply wholes_any; now apply Forall_take). destruct (step_some sc _ _ _ (Batch ps1 e) Cf Dpre D1 R) as (s1 & rs1 & S). cbn [step] in S. rewrite S in P. specialize (F s1 rs1 S).
    assert (EL : length file = length dss) by (clear - E; induction E; cbn [length]; congruence). destruct (Nat.ltb_spec (length file) pcap_batch) as [LT|GE].
    - (* the last call *)
      exists 1%nat, s1, (rs0 ++ rs1), [], ps1. assert (St : st_stopped s1 = true) by exact (eof_stops sc s0 rs0 ps1 s1 rs1 Re D1 S). split; [intros [|n] Hn; [lia|]; cbn [pcap_all]; rewrite P, St; reflexivity|].
      rewrite app_nil_r. split; [unfold until_eof; rewrite InprocProofs.run_snoc, R; cbn [step]; unfold e in S; rewrite S; reflexivity|]. split; [cbn [concat app]; unfold ps1; rewrite firstn_all2 by lia; reflexivity|]. repeat split; trivial.
    - assert (PQ : ps1 ++ flat_map any_size (concat (skipn pcap_batch dss)) = flat_map any_size (concat dss)) by (unfold ps1; rewrite <- flat_map_app, <- concat_app, firstn_skipn; reflexivity).
      assert (R1 : run sc (stream_new sc) (map (fun l => Batch l false) (pre ++ [ps1])) = Some (s1, rs0 ++ rs1)) by (rewrite map_app; cbn [map]; rewrite InprocProofs.run_snoc, R; cbn [step]; unfold e in S; rewrite S; reflexivity).
      assert (Dp1 : Forall (Forall decoded) (pre ++ [ps1])) by (apply Forall_app; auto). destruct (st_stopped s1) eqn:N1.
      + (* the stream has stopped by itself *)
        exists 1%nat, s1, (rs0 ++ rs1), [ps1], (flat_map any_size (concat (skipn pcap_batch dss))). split; [intros [|n] Hn; [lia|]; cbn [pcap_all]; rewrite P; reflexivity|].
        assert (D2 : Forall decoded (flat_map any_size (concat (skipn pcap_batch dss)))) by (apply wholes_any; now apply Forall_skip). split.
        { unfold until_eof. rewrite InprocProofs.run_snoc, R1. cbn [step]. unfold do_batch. rewrite N1, app_nil_r. reflexivity. }
        split; [cbn [concat]; rewrite app_nil_r; exact PQ|]. auto.
      + rewrite (F eq_refl) in P. destruct (IH (length (skipn pcap_batch file))) with (file := skipn pcap_batch file) (dss := skipn pcap_batch dss) (pre := pre ++ [ps1]) (s0 := s1) (rs0 := rs0 ++ rs1) as (calls & s & rs & pss & ps & Q1 & Q2 & Q3 & Q4 & Q5 & Q6); auto.
        * rewrite skipn_length. unfold pcap_batch in *. lia.
        * now apply Forall_skip.
        * now apply Forall2_skip.
        * exists (Datatypes.S calls), s, rs, (ps1 :: pss), ps. split; [intros [|n] Hn; [lia|]; cbn [pcap_all]; rewrite P; cbn [negb]; apply Q1; lia|]. rewrite <- app_assoc in Q2. split; [exact Q2|]. split; [cbn [concat]; rewrite <- app_assoc, Q3; exact PQ|]. auto. }
  destruct (G (length file) file dss (le_n _) OK E [] (stream_new sc) [] ltac:(constructor) eq_refl eq_refl) as (calls & s & rs & pss & ps & Q). exists calls, s, rs, pss, ps. exact Q.
Qed.

(** ** Memory *)
(** Any bytes are, in exactly one way, packets one after the other and a rest that does not
    start with a packet.  The stream gets these packets, and is stopped. *)
Theorem C58_mem sc d : config_ok sc -> bytes_ok d ->
  exists ds rest, packets_in d ds rest /\ (forall ds' rest', packets_in d ds' rest' -> ds' = ds /\ rest' = rest) /\
    exists s rs, mem_handler sc (stream_new sc) d = Some (s, rs, false) /\ run sc (stream_new sc) [Batch (flat_map any_size ds) true] = Some (s, rs).
Proof.
  intros Cf B. destruct (packets_in_exists (length d) d (le_n _) B) as (ds & rest & P). exists ds, rest. split; [exact P|]. split.
  - destruct P as (-> & F & N). clear Cf. induction ds as [|p ds IH] in B, F |- *; intros ds' rest' (E & F' & N').
    + cbn [concat app] in *. destruct ds' as [|p' ds']; [split; [reflexivity|symmetry; exact E]|]. inversion F' as [|? ? F1 _]; subst. exfalso. apply (N p' (concat ds' ++ rest')); [|exact F1]. now rewrite app_assoc.
    + inversion F as [|? ? F1 F2]; subst. cbn [concat] in *. rewrite <- app_assoc in *. destruct ds' as [|p' ds']; [exfalso; cbn [concat app] in E; apply (N' p (concat ds ++ rest)); [now rewrite <- E|exact F1]|]. inversion F' as [|? ? F1' F2']; subst. cbn [concat] in E. rewrite <- app_assoc in E.
      apply bytes_ok_app in B as (Bp & Br). assert (Br' : bytes_ok (concat ds' ++ rest')) by (assert (X : bytes_ok (p' ++ concat ds' ++ rest')) by (rewrite <- E; now apply bytes_ok_app); apply bytes_ok_app in X; tauto).
      destruct (full_prefix p _ F1 Br) as (h & E1). destruct (full_prefix p' _ F1' Br') as (h' & E2). rewrite E, E2 in E1. injection E1 as _ L. unfold zlen in L.
      assert (p = p') as <-. { apply (f_equal (firstn (length p))) in E. rewrite !firstn_app in E. replace (length p - length p)%nat with 0%nat in E by lia. replace (length p - length p')%nat with 0%nat in E by lia. cbn [firstn] in E. rewrite !app_nil_r, firstn_all in E. rewrite E. replace (length p) with (length p') by lia. apply firstn_all. }
      apply app_inv_head in E. destruct (IH Br F2 ds' rest') as (-> & ->); [split; [exact E|]; split; assumption|]. auto.
  - destruct (step_some sc [] (stream_new sc) [] (Batch (flat_map any_size ds) true) Cf ltac:(constructor)) as (s & rs & S); [apply fulls_decoded, P|reflexivity|]. exists s, rs.
    assert (Re : reachable sc (stream_new sc) []) by (split; [exact Cf|]; exists []; split; [constructor|reflexivity]). rewrite (mem_batch sc _ [] d ds rest Re B P). cbn [step] in S. rewrite S. cbn [handled]. split.
    + rewrite (eof_stops sc _ [] _ _ _ Re (fulls_decoded _ (proj1 (proj2 P))) S). reflexivity.
    + cbn [run step]. rewrite S. now rewrite app_nil_r.
Qed.

(** ** From the sender's packets to the heap *)
Definition only_grows (s s' : stream) : Prop := st_hist s' = st_hist s /\ incl (st_out s) (st_out s').
Lemma flush_grows sc s s' : flush_unlocked sc s = Some s' -> only_grows s s'.
Proof.
  assert (T : forall a b c, only_grows a b -> only_grows b c -> only_grows a c) by (intros a b c [H1 H2] [H3 H4]; split; [congruence|]; eapply incl_tran; eauto).
  assert (D : forall x i, only_grows x (destroy_heap x i)) by (intros x i; unfold destroy_heap; destruct (nth_error _ i); split; try reflexivity; apply incl_refl).
  assert (U : forall x i y, unlink_entry sc x i = Some y -> only_grows x y).
  { intros x i y. unfold unlink_entry. destruct (nth_error _ i) as [[[| |?] [h|] ?]|]; try discriminate; (destruct (find_prev _ _ _ _) as [pl|]; [|discriminate]; intro K; injection K as <-; destruct pl; split; try reflexivity; apply incl_refl). }
  assert (J : forall x w i y, eject sc x w i = Some y -> only_grows x y).
  { intros x w i y. unfold eject. destruct (nth_error _ i) as [[? [h|] ?]|]; try discriminate. destruct (unlink_entry sc x i) eqn:E; [|discriminate]. intro K; injection K as <-. apply U in E. eapply T; [exact E|]. eapply T; [|apply D]. split; [reflexivity|]. unfold heap_ready. cbn [st_out]. try (intros o Ho; apply in_or_app; now left). }
  assert (F : forall n k x f y g, flush_steps sc n k x f = Some (y, g) -> only_grows x y).
  { induction n as [|n IH]; intros k x f y g; cbn [flush_steps]; [intro K; injection K as <- <-; split; [reflexivity|apply incl_refl]|]. destruct (nth_error (st_subs x) k) as [[? ?]|]; [|discriminate]. destruct (nth_error (st_subs x) (S k)) as [[? ?]|]; [|discriminate]. destruct (nth_error _ _) as [e|]; [|discriminate].
    destruct (en_next e); [intro K; apply IH in K; exact K| |]; (destruct (eject sc _ _ _) eqn:E; [|discriminate]; intro K; apply IH in K; apply J in E; eapply T; [exact E|exact K]). }
  assert (G : forall ks x f y g, flush_subs sc ks x f = Some (y, g) -> only_grows x y).
  { induction ks as [|k ks IH]; intros x f y g; cbn [flush_subs]; [intro K; injection K as <- <-; split; [reflexivity|apply incl_refl]|]. destruct (nth_error (st_subs x) k) as [[? ?]|]; [|discriminate]. destruct (nth_error (st_subs x) (S k)) as [[? ?]|]; [|discriminate]. destruct (flush_steps _ _ _ _ _) as [[x1 f1]|] eqn:E; [|discriminate]. intro K; apply IH in K. apply F in E. eapply T; eauto. }
  unfold flush_unlocked. destruct (flush_subs _ _ _ _) as [[x f]|] eqn:E; [|discriminate]. intro K; injection K as <-. apply G in E. exact E.
Qed.
(** Stopping at the end of a batch does to the heaps what a stop after it would do. *)
Lemma eof_after sc s rs0 ps s' rs : reachable sc s rs0 -> Forall decoded ps -> sc_stop_item sc = false -> st_stopped s = false -> do_batch sc s ps true = Some (s', rs) ->
  exists s1, do_batch sc s ps false = Some (s1, rs) /\ only_grows s1 s'.
Proof.
  intros R D Hi N E. unfold do_batch in E |- *. rewrite N in E |- *. destruct (batch_packets sc s (batch_new s) ps) as [[[s1 b1] r1]|] eqn:B; [|discriminate]. rewrite orb_true_r in E. rewrite orb_false_r. unfold batch_end in E |- *. cbn [ba_stopped ba_packets ba_complete ba_evicted ba_single ba_dist] in *.
  destruct (stop_received sc s1) as [s2|] eqn:S; [|discriminate]. unfold stop_received in S. apply flush_grows in S. assert (E' : only_grows s1 s' /\ r1 = rs).
  { destruct (_ && _); injection E as <- <-; split; try reflexivity; exact S. }
  destruct E' as (G & ->). clear E S.
  destruct (ba_stopped b1) eqn:X.
  - exfalso. (* without stop items a batch does not stop *)
    assert (Q : exists s3 r3, do_batch sc s ps false = Some (s3, r3)). { destruct R as (Cf & ops & Do & Ro). destruct (step_some sc ops s _ (Batch ps false) Cf Do D Ro) as (a & b & Q). eauto. }
    destruct Q as (s3 & r3 & Q). pose proof (InprocProofs.step_none_stopped sc s rs0 ps s3 r3 R Hi D N Q) as N3. unfold do_batch in Q. rewrite N, B in Q. unfold batch_end in Q. cbn [ba_stopped] in Q. rewrite X in Q. cbn [orb] in Q. unfold stop_received in Q. destruct (flush_unlocked sc _) as [s4|] eqn:F; [|discriminate]. apply InprocProofs.flush_keeps in F. cbn [set_stopped st_stopped] in F. destruct (_ && _); injection Q as <- _; cbn [set_stats st_stopped] in N3; congruence.
  - rewrite andb_false_r. eexists. split; [reflexivity|]. destruct G as (G1 & G2). split; [exact G1|exact G2].
Qed.
Lemma run_batches_live sc pss s rs : config_ok sc -> sc_stop_item sc = false -> Forall (Forall decoded) pss -> run sc (stream_new sc) (map (fun l => Batch l false) pss) = Some (s, rs) -> st_stopped s = false.
Proof.
  intros Cf Hi D R. eapply InprocProps.only_batches; [exact Hi|exact Cf| | |exact R].
  - apply Forall_forall. intros o Ho. apply in_map_iff in Ho as (l & <- & Hl). rewrite Forall_forall in D. cbn [op_decoded]. auto.
  - intros o Ho. apply in_map_iff in Ho as (l & <- & _). right. eauto.
Qed.

Section EndToEnd.
Context (sc : sconfig) (hab : Z) (items : list item) (rep : bool) (cnt mps : Z) (c : gen_cfg) (pks : list packet).
Context (Cf : config_ok sc) (Hooo : sc_allow_ooo sc = true) (Hstop : sc_stop_item sc = false).
Context (HA : accepted hab items rep cnt mps c) (HPk : packets_of c pks) (Hcf : count_fits c) (Hni : no_interleave c) (Hcnt : 0 <= cnt < 2 ^ hab) (HL : g_psize c < 2 ^ hab).
Context (Hit : Forall (fun it => 4 < item_id it /\ (addressed hab it = true -> item_data it <> [])) items).

(** The heap that was sent has been received complete, with its items (see C07). *)
Definition received (s : stream) : Prop :=
  exists o f, In o (st_out s) /\ oh_why o = Complete /\ freeze (oh_heap o) = Some f /\ fr_cnt f = cnt /\
    slice (fr_payload f) 0 (zlen (heap_payload hab items)) = map Some (heap_payload hab items) /\
    forall id v, (exists it, In it (fr_items f) /\ ri_id it = id /\ ritem_value f it = Some v) <-> (exists it, In it items /\ item_id it = id /\ received_value hab it = v).
(** All packets of the heap are among these datagrams, and other packets have other counts. *)
Definition all_there (ds : list (list Z)) : Prop :=
  (forall pk, In pk pks -> In (packet_bytes pk) ds) /\
  (forall d p, In d ds -> In p (any_size d) -> rp_cnt p = cnt -> exists pk, In pk pks /\ d = packet_bytes pk).
(** Not too many heaps at once *)
Definition room (s : stream) : Prop := (length (filter (in_sub sc (get_substream sc cnt)) (st_hist s)) <= sc_max_heaps sc)%nat.

Lemma packet_any pk : In pk pks -> exists p, decode_rpkt (packet_bytes pk) = Some p /\ forall m, zlen (packet_bytes pk) <= m -> whole m (packet_bytes pk) = [p].
Proof.
  intro Hin. destruct (InprocProps.packet_whole _ _ _ _ _ _ _ _ HA HPk Hcf Hni Hcnt HL Hit Hin) as (h & Dk). exists (rpkt_of (packet_bytes pk) h). unfold decode_rpkt. rewrite Dk. split; [reflexivity|]. intros m Hm. unfold whole. rewrite Dk, Z.eqb_refl.
  destruct (Z.leb_spec (zlen (packet_bytes pk)) m); [|lia]. destruct (Z.ltb_spec 0 (zlen (packet_bytes pk))) as [_|X]; [reflexivity|]. exfalso.
  assert (X0 : packet_bytes pk = []) by (destruct (packet_bytes pk); [reflexivity|rewrite zlen_cons in X; pose proof (zlen_nonneg l); lia]). rewrite X0 in Dk. vm_compute in Dk. discriminate.
Qed.
Lemma whole_sound m d p : In p (whole m d) -> decode_rpkt d = Some p.
Proof. unfold whole, decode_rpkt. destruct (_ && _); [|intros []]. destruct (decode_packet d) as [| |h z]; try (intros []). destruct (z =? zlen d); [|intros []]. intros [->|[]]. reflexivity. Qed.
Lemma whole_any m d p : In p (whole m d) -> In p (any_size d).
Proof. unfold any_size, whole. rewrite Z.leb_refl, andb_true_r. destruct (0 <? zlen d); [|intros []]. destruct (zlen d <=? m); [tauto|intros []]. Qed.
Lemma batches_receive (sel : list Z -> Z) ds ops s rs : Forall op_decoded ops -> Forall is_batch ops -> run sc (stream_new sc) ops = Some (s, rs) -> st_stopped s = false ->
  flat_map op_pkts ops = flat_map (fun d => whole (sel d) d) ds -> (forall pk, In pk pks -> zlen (packet_bytes pk) <= sel (packet_bytes pk)) -> all_there ds -> room s -> received s.
Proof.
  intros Do Bo R N EO Hsel (Hall & Honly) Hroom.
  destruct (C07_through_stream_partial sc (stream_new sc) [] ops s rs hab items rep cnt mps c pks) as (o & f & O1 & _ & O2 & O3 & O4 & _ & O5 & O6); auto.
  - split; [exact Cf|]. exists []. split; [constructor|reflexivity].
  - intros u h K. exfalso. unfold live_heaps in K. apply in_flat_map in K as (en & K1 & K2). cbn [stream_new st_entries] in K1. apply repeat_spec in K1. subst en. destruct K2.
  - rewrite EO. intros p Hp Hc. apply in_flat_map in Hp as (d & Hd1 & Hd2). destruct (Honly d p Hd1 (whole_any _ _ _ Hd2) Hc) as (pk & Hpk & ->). apply whole_sound in Hd2. eauto.
  - rewrite EO. intros pk Hpk. destruct (packet_any pk Hpk) as (p & P1 & P2). exists p. split; [|exact P1]. apply in_flat_map. exists (packet_bytes pk). split; [auto|]. rewrite P2 by auto. now left.
  - exists o, f. auto 8.
Qed.
Lemma eof_receive ds pss ps s rs : Forall (Forall decoded) pss -> Forall decoded ps -> run sc (stream_new sc) (until_eof pss ps) = Some (s, rs) ->
  concat pss ++ ps = flat_map any_size ds -> all_there ds -> room s -> received s.
Proof.
  intros D1 D2 R EO HT HR. unfold until_eof in R. rewrite InprocProofs.run_snoc in R. destruct (run sc (stream_new sc) (map _ pss)) as [[s0 rs0]|] eqn:R0; [|discriminate]. cbn [step] in R. destruct (do_batch sc s0 ps true) as [[s1 rs1]|] eqn:B; [|discriminate]. injection R as -> <-.
  pose proof (run_batches_live sc pss s0 rs0 Cf Hstop D1 R0) as N0.
  assert (Dpre : Forall op_decoded (map (fun l => Batch l false) pss)) by (apply Forall_forall; intros o Ho; apply in_map_iff in Ho as (l & <- & Hl); rewrite Forall_forall in D1; cbn [op_decoded]; auto).
  pose proof (reachable_run sc _ _ _ Cf Dpre R0) as Re. destruct (eof_after sc s0 rs0 ps s rs1 Re D2 Hstop N0 B) as (s2 & B2 & G1 & G2).
  assert (R2 : run sc (stream_new sc) (map (fun l => Batch l false) (pss ++ [ps])) = Some (s2, rs0 ++ rs1)) by (rewrite map_app; cbn [map]; rewrite InprocProofs.run_snoc, R0; cbn [step]; rewrite B2; reflexivity).
  assert (X : received s2).
  { eapply (batches_receive (@zlen Z) ds); [| |exact R2| | |intros; lia|exact HT|unfold room; rewrite <- G1; exact HR].
    - apply Forall_forall. intros o Ho. apply in_map_iff in Ho as (l & <- & Hl). cbn [op_decoded]. apply in_app_or in Hl as [Hl|[<-|[]]]; [rewrite Forall_forall in D1; auto|exact D2].
    - apply Forall_forall. intros o Ho. apply in_map_iff in Ho as (l & <- & Hl). exact I.
    - eapply run_batches_live; [exact Cf|exact Hstop| |exact R2]. apply Forall_app; auto.
    - change (fun d => whole (zlen d) d) with any_size. rewrite <- EO. rewrite map_app, flat_map_app. cbn [map flat_map op_pkts]. rewrite app_nil_r. f_equal. clear. induction pss as [|l pss IH]; [reflexivity|]. cbn [map flat_map op_pkts concat]. now rewrite IH. }
  destruct X as (o & f & O1 & O). exists o, f. split; [now apply G2|exact O].
Qed.

(** By UDP: the packets may arrive in any order, repeatedly, among other datagrams,
    coalesced or not, in any number of calls. *)
Theorem C58_udp_end_to_end gro max mss dsss : Forall2 (Forall2 (carries gro max)) mss dsss -> Forall (Forall (Forall bytes_ok)) dsss -> mps <= max -> all_there (concat (concat dsss)) ->
  (forall u, u_run sc gro max (map URecv mss) (u_new sc) = UOk u -> room (u_stream u)) ->
  exists u, u_run sc gro max (map URecv mss) (u_new sc) = UOk u /\ received (u_stream u) /\ u_wait u = true.
Proof.
  intros C B Hm HT HR. set (ops := map (fun dss => Batch (flat_map (whole max) (concat dss)) false) dsss).
  assert (Dz : forall mss dsss, Forall2 (Forall2 (carries gro max)) mss dsss -> Forall (Forall (Forall bytes_ok)) dsss -> Forall2 (does gro max) (map URecv mss) (map (fun dss => Batch (flat_map (whole max) (concat dss)) false) dsss)).
  { clear. induction 1 as [|ms dss mss dsss C1 C2 IH]; intro B; [constructor|]. inversion B; subst. constructor; [now constructor|auto]. }
  assert (Un : forall pss, Forall (Forall decoded) pss -> forall s rs, run sc (stream_new sc) (map (fun l => Batch l false) pss) = Some (s, rs) -> st_stopped s = false) by (intros pss D s rs; now apply run_batches_live).
  assert (Ok : forall mss dsss, Forall2 (Forall2 (carries gro max)) mss dsss -> Forall (Forall (Forall bytes_ok)) dsss -> exists u, u_run sc gro max (map URecv mss) (u_new sc) = UOk u /\ st_stopped (u_stream u) = false).
  { clear mss dsss C B HT HR ops. intros mss. induction mss as [|ms mss IH] using rev_ind; intros dsss C B.
    - exists (u_new sc). split; reflexivity.
    - apply Forall2_app_inv_l in C as (d1 & d2 & C1 & C2 & ->). inversion C2 as [|? dss ? d3 C3 C4]; subst. inversion C4; subst. apply Forall_app in B as (B1 & B2). destruct (IH d1 C1 B1) as (u & E & N).
      pose proof (Dz _ _ C1 B1) as Z1. pose proof (C58_udp sc gro max Cf _ _ Z1) as (_ & K). destruct (K u E) as (_ & W). specialize (W N).
      assert (Z2 : Forall2 (does gro max) (map URecv (mss ++ [ms])) (map (fun dss => Batch (flat_map (whole max) (concat dss)) false) (d1 ++ [dss]))) by (apply Dz; [apply Forall2_app; auto|apply Forall_app; auto]).
      pose proof (C58_udp sc gro max Cf _ _ Z2) as (NF & K2).
      assert (A : forall l u0 l2, u_run sc gro max (l ++ l2) u0 = match u_run sc gro max l u0 with UOk u1 => u_run sc gro max l2 u1 | r => r end).
      { clear. induction l as [|x l IH]; intros u0 l2; [reflexivity|]. cbn [app u_run]. destruct (u_step sc gro max u0 x); auto. }
      destruct (u_run sc gro max (map URecv (mss ++ [ms])) (u_new sc)) as [| |u2] eqn:E2; [congruence| |].
      + exfalso. rewrite map_app, A, E in E2. cbn [map u_run u_step] in E2. unfold u_handle in E2. rewrite W in E2. destruct (udp_handler _ _ _ _ _) as [[[? ?] ?]|]; discriminate.
      + exists u2. split; [reflexivity|]. destruct (K2 u2 eq_refl) as (R2 & _). eapply (Un (map (fun dss => flat_map (whole max) (concat dss)) (d1 ++ [dss]))); [|rewrite map_map; exact R2].
        apply Forall_forall. intros l Hl. apply in_map_iff in Hl as (x & <- & Hx). apply wholes_decoded. apply in_app_or in Hx as [Hx|[<-|[]]]; [rewrite Forall_forall in B1; auto|now inversion B2]. }
  destruct (Ok mss dsss C B) as (u & E & N). exists u. split; [exact E|]. destruct (C58_udp sc gro max Cf _ _ (Dz _ _ C B)) as (_ & K). destruct (K u E) as (R & W). split; [|auto].
  apply (batches_receive (fun _ => max) (concat (concat dsss)) ops _ (u_rs u)); trivial.
  - unfold ops. apply Forall_forall. intros o Ho. apply in_map_iff in Ho as (l & <- & Hl). cbn [op_decoded]. apply wholes_decoded. rewrite Forall_forall in B. auto.
  - unfold ops. apply Forall_forall. intros o Ho. apply in_map_iff in Ho as (l & <- & Hl). exact I.
  - unfold ops. clear. induction dsss as [|dss dsss IH]; [reflexivity|]. cbn [map flat_map op_pkts concat]. now rewrite IH, concat_app, flat_map_app.
  - intros pk Hpk. destruct (C04_packets_fit_and_carry_payload _ _ _ _ _ _ HA) as (pks' & P' & K4 & _). rewrite (packets_of_unique _ _ _ P' HPk) in K4. rewrite Forall_forall in K4. destruct (K4 pk Hpk) as (? & ? & ? & ? & K5). cbv beta. lia.
  - auto.
Qed.
(** Through a capture file, as frames of any kind, among others *)
Theorem C58_pcap_end_to_end k file dss s rs n : Forall entry_ok file -> Forall2 (entry_datagrams k) file dss -> all_there (concat dss) -> pcap_all sc k n (stream_new sc) [] file = Some (s, rs) -> room s -> received s.
Proof.
  intros OK E HT P HR. destruct (C58_pcap sc k file dss Cf OK E) as (calls & s1 & rs1 & pss & ps & Q1 & Q2 & Q3 & Q4 & Q5 & _).
  assert (Mono : forall n m s0 rs0 f r, (n <= m)%nat -> pcap_all sc k n s0 rs0 f = Some r -> pcap_all sc k m s0 rs0 f = Some r).
  { clear. induction n as [|n IH]; intros [|m] s0 rs0 f r L X; cbn [pcap_all] in *; try discriminate; [lia|]. destruct (pcap_run sc k s0 f) as [[[[s1 r1] ag] f1]|]; [|discriminate]. destruct ag; [|exact X]. apply IH; [lia|exact X]. }
  apply (Mono n (Nat.max n calls)) in P; [|lia]. rewrite Q1 in P by lia. injection P as -> ->. exact (eof_receive _ _ _ _ _ Q4 Q5 Q2 Q3 HT HR).
Qed.
(** From memory: packets one after the other *)
Theorem C58_mem_end_to_end ds rest s rs w : Forall full ds -> bytes_ok rest -> no_packet_first rest -> all_there ds -> mem_handler sc (stream_new sc) (concat ds ++ rest) = Some (s, rs, w) -> room s -> received s.
Proof.
  intros F Br N HT M HR. assert (B : bytes_ok (concat ds ++ rest)) by (apply bytes_ok_app; split; [apply bytes_ok_concat; eapply Forall_impl; [|exact F]; now intros ? []|exact Br]).
  destruct (C58_mem sc _ Cf B) as (ds' & rest' & P & U & s' & rs' & M' & R). destruct (U ds rest) as (<- & <-); [split; [reflexivity|]; split; assumption|]. rewrite M in M'. injection M' as <- <- _.
  apply (eof_receive ds [] (flat_map any_size ds) s rs); trivial; [now apply fulls_decoded].
Qed.
End EndToEnd.

(** *** Examples *)
(** The two packets of heap 9 (C07_ex), the second coalesced with a copy of itself; then a
    datagram that is too long, one with bytes after its packet, an empty one and noise.
    The user flushes in between, and at the end stops the stream. *)
Definition ex_pks : list (list Z) := Eval vm_compute in map packet_bytes (run_pkts 48 ex_items 72).
Definition ex_p0 : list Z := Eval vm_compute in nth 0 ex_pks [].
Definition ex_p1 : list Z := Eval vm_compute in nth 1 ex_pks [].
Definition ex_mss : list (list msg) := Eval vm_compute in
  [[{| m_data := ex_p0; m_seg := None |}]; [{| m_data := []; m_seg := None |}; {| m_data := ex_p1 ++ ex_p1; m_seg := Some (zlen ex_p1) |}; {| m_data := ex_p0 ++ [1]; m_seg := None |}]; [{| m_data := [83; 4]; m_seg := None |}; {| m_data := repeat 0 100; m_seg := None |}]].
Definition ex_dsss : list (list (list (list Z))) := Eval vm_compute in
  [[[ex_p0]]; [[[]]; [ex_p1; ex_p1]; [ex_p0 ++ [1]]]; [[[83; 4]]; [repeat 0 100]]].
Definition ex_u : ureader := Eval vm_compute in match u_run ex_sc3 true 72 (map URecv ex_mss) (u_new ex_sc3) with UOk u => u | _ => u_new ex_sc3 end.
Lemma bytes_by d : forallb (fun b => (0 <=? b) && (b <? 256)) d = true -> bytes_ok d.
Proof. intro H. now apply bytes_ok_dec. Qed.
Example C58_udp_ex :
  Forall2 (Forall2 (carries true 72)) ex_mss ex_dsss /\ Forall (Forall (Forall bytes_ok)) ex_dsss /\ zlen ex_p0 = 72 /\
  u_run ex_sc3 true 72 (map URecv ex_mss) (u_new ex_sc3) = UOk ex_u /\ u_wait ex_u = true /\ map (fun o => (oh_why o, lh_cnt (oh_heap o))) (st_out (u_stream ex_u)) = [(Complete, 9)] /\
  u_rs ex_u = [true; true; true] /\
  (exists u, u_run ex_sc3 true 72 [URecv (nth 0 ex_mss []); UUser false; UFail; URecv (nth 1 ex_mss []); UUser true; URecv (nth 2 ex_mss [])] (u_new ex_sc3) = UOk u /\ u_wait u = false /\ map (fun o => (oh_why o, lh_cnt (oh_heap o))) (st_out (u_stream u)) = [(Flushed, 9); (Flushed, 9)]).
Proof.
  split; [|split; [|split; [vm_compute; reflexivity|split; [vm_compute; reflexivity|split; [reflexivity|split; [vm_compute; reflexivity|split; [reflexivity|]]]]]]].
  - unfold ex_mss, ex_dsss. repeat match goal with |- Forall2 (Forall2 _) _ _ => constructor | |- Forall2 _ (_ :: _) _ => constructor | |- Forall2 _ [] _ => constructor end; try (apply carries_whole; reflexivity).
    match goal with |- carries _ _ _ [?a; ?b] => change (carries true 72 {| m_data := concat [a; b]; m_seg := Some (zlen a) |} [a; b]) end. apply carries_seg; [reflexivity|reflexivity|]. cbn [GsoSpec.coalesced]. repeat split; vm_compute; try reflexivity; discriminate.
  - unfold ex_dsss. repeat match goal with |- Forall (Forall _) _ => constructor | |- Forall bytes_ok _ => constructor end; apply bytes_by; reflexivity.
  - eexists. split; [vm_compute; reflexivity|]. split; reflexivity.
Qed.
(** A capture file: 66 frames that are cut off or hold something else, then one packet, a
    read error, and the other packet with bytes after the datagram.  So two calls. *)
Definition ex_frame (d : list Z) : list Z :=
  [1;0;94;100;1;2; 2;0;0;0;0;1; 8;0] ++ [69;0;0;28 + zlen d; 0;7;64;0; 4;17;0;0; 10;0;0;1; 239;100;1;2] ++ [4;0;31;64;0;8 + zlen d;0;0] ++ d.
Definition ex_file : list entry := Eval vm_compute in
  repeat (Frame (ex_frame ex_p1) (zlen (ex_frame ex_p1) + 1)) 30 ++ repeat (Frame [1; 2; 3] 3) 36 ++ [Frame (ex_frame ex_p0) (zlen (ex_frame ex_p0)); ReadError; Frame (ex_frame ex_p1 ++ [0; 0]) (zlen (ex_frame ex_p1) + 2)].
Definition ex_file_ds : list (list (list Z)) := Eval vm_compute in repeat [] 66 ++ [[ex_p0]; []; [ex_p1]].
Definition parsed (k : link) (e : entry) : list (list Z) :=
  match e with
  | Frame bytes len => if zlen bytes <? len then [] else match udp_from k (slice bytes 0 len) with POk b => [slice (slice bytes 0 len) (pb_off b) (pb_len b)] | _ => [] end
  | ReadError => []
  end.
Lemma entry_parse k bytes len : bytes_ok bytes -> entry_datagrams k (Frame bytes len) (parsed k (Frame bytes len)).
Proof.
  intro B. pose proof (bytes_ok_slice bytes 0 len B) as BF. unfold entry_datagrams. cbn [parsed]. destruct (Z.ltb_spec (zlen bytes) len) as [L|L].
  - right. split; [|reflexivity]. intros d (H & _). lia.
  - destruct (C39_parse k _ BF) as (NF & P). destruct (udp_from k (slice bytes 0 len)) as [|e|[off n]]; [congruence| |].
    + right. split; [|reflexivity]. intros d (_ & off & n & H & _). apply P in H. discriminate.
    + left. exists (slice (slice bytes 0 len) off n). split; [|reflexivity]. split; [exact L|]. exists off, n. split; [now apply P|reflexivity].
Qed.
Lemma all_parsed k file : Forall entry_ok file -> Forall2 (entry_datagrams k) file (map (parsed k) file).
Proof. induction 1 as [|e file E _ IH]; [constructor|]. constructor; [|exact IH]. destruct e; [apply entry_parse, E|]. right. split; [intros d []|reflexivity]. Qed.
Definition ex_pcap : stream * list bool := Eval vm_compute in match pcap_all ex_sc3 Ethernet 2 (stream_new ex_sc3) [] ex_file with Some r => r | None => (stream_new ex_sc3, []) end.
Example C58_pcap_ex : Forall entry_ok ex_file /\ Forall2 (entry_datagrams Ethernet) ex_file ex_file_ds /\ pcap_all ex_sc3 Ethernet 2 (stream_new ex_sc3) [] ex_file = Some ex_pcap /\ pcap_all ex_sc3 Ethernet 1 (stream_new ex_sc3) [] ex_file = None /\
  map (fun o => (oh_why o, lh_cnt (oh_heap o))) (st_out (fst ex_pcap)) = [(Complete, 9)] /\ st_stopped (fst ex_pcap) = true.
Proof.
  assert (Hok : Forall entry_ok ex_file).
  { unfold ex_file. repeat (constructor; [first [exact I|split; [apply bytes_by; vm_compute; reflexivity|discriminate]]|]). constructor. }
  split; [exact Hok|]. split; [|split; [vm_compute; reflexivity|split; [vm_compute; reflexivity|split; reflexivity]]].
  replace ex_file_ds with (map (parsed Ethernet) ex_file) by (vm_compute; reflexivity). now apply all_parsed.
Qed.
(** Memory: the packets and a piece of another *)
Definition ex_memory : list Z := Eval vm_compute in ex_p1 ++ ex_p0 ++ firstn 30 ex_p1.
Definition ex_mem_r : stream * list bool * bool := Eval vm_compute in match mem_handler ex_sc3 (stream_new ex_sc3) ex_memory with Some r => r | None => (stream_new ex_sc3, [], true) end.
Example C58_mem_ex : bytes_ok ex_memory /\ packets_in ex_memory [ex_p1; ex_p0] (firstn 30 ex_p1) /\ mem_handler ex_sc3 (stream_new ex_sc3) ex_memory = Some ex_mem_r /\ snd ex_mem_r = false /\ snd (fst ex_mem_r) = [true; true] /\
  map (fun o => (oh_why o, lh_cnt (oh_heap o))) (st_out (fst (fst ex_mem_r))) = [(Complete, 9)] /\ st_stopped (fst (fst ex_mem_r)) = true.
Proof.
  assert (B : bytes_ok ex_memory) by (apply bytes_by; vm_compute; reflexivity). split; [exact B|]. split; [|split; [vm_compute; reflexivity|repeat split]]. split; [reflexivity|]. split.
  - constructor; [|constructor; [|constructor]]; (split; [apply bytes_by; vm_compute; reflexivity|eexists; vm_compute; reflexivity]).
  - apply reject_no_packet; [apply bytes_by|]; vm_compute; reflexivity.
Qed.
(** The hypotheses of the end-to-end theorems hold for these. *)
Example C58_there_ex : exists c, accepted 48 ex_items false 9 72 c /\ packets_of c (run_pkts 48 ex_items 72) /\ all_there 9 (run_pkts 48 ex_items 72) (concat (concat ex_dsss)) /\ all_there 9 (run_pkts 48 ex_items 72) (concat ex_file_ds) /\ all_there 9 (run_pkts 48 ex_items 72) [ex_p1; ex_p0] /\
  room ex_sc3 9 (u_stream ex_u) /\ room ex_sc3 9 (fst ex_pcap) /\ room ex_sc3 9 (fst (fst ex_mem_r)).
Proof.
  destruct C07_ex as (c & A & P & _). exists c. split; [exact A|]. split; [exact P|].
  assert (E : exists a b, run_pkts 48 ex_items 72 = [a; b] /\ packet_bytes a = ex_p0 /\ packet_bytes b = ex_p1) by (do 2 eexists; split; [vm_compute; reflexivity|split; vm_compute; reflexivity]). destruct E as (a & b & -> & Ea & Eb).
  assert (G : forall ds, In ex_p0 ds -> In ex_p1 ds -> Forall (fun d => d = ex_p0 \/ d = ex_p1 \/ any_size d = []) ds -> all_there 9 [a; b] ds).
  { intros ds H0 H1 H. split; [intros pk [<-|[<-|[]]]; congruence|]. rewrite Forall_forall in H. intros d p Hd Hp _. destruct (H d Hd) as [-> |[-> |N]]; [exists a; split; [left; reflexivity|symmetry; exact Ea]|exists b; split; [right; left; reflexivity|symmetry; exact Eb]|rewrite N in Hp; destruct Hp]. }
  split; [|split; [|split]].
  - apply G; [now left|right; right; now left|]. unfold ex_dsss. cbn [concat app]. repeat constructor; first [left; reflexivity|right; left; reflexivity|right; right; vm_compute; reflexivity].
  - apply G; [now left|right; now left|]. unfold ex_file_ds. cbn [concat app]. repeat constructor; first [left; reflexivity|right; left; reflexivity].
  - apply G; [right; now left|now left|]. repeat constructor; first [left; reflexivity|right; left; reflexivity].
  - unfold room. repeat split; vm_compute; auto.
Qed.

Print Assumptions C58_udp.
Print Assumptions C58_pcap.
Print Assumptions C58_mem.
Print Assumptions C58_udp_end_to_end.
Print Assumptions C58_pcap_end_to_end.
Print Assumptions C58_mem_end_to_end.

