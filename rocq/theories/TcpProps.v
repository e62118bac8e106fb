(** C28 and C29: reception over TCP. *)
From Coq Require Import ZArith List Lia Bool.
From Coq Require Import ZifyBool ZifyNat.
From Verif Require Import Base CodecModel CodecProofs CodecProps PacketSpec RecvPacketModel RecvPacketProofs RecvPacketProps
  SendPacketModel SendSpec SendPacketProofs SendGenProofs SendProps LiveHeapModel LiveHeapSpec LiveHeapProofs LiveHeapProps ReassembleProofs E2EProofs E2EProps StreamE2EProofs
  TcpModel TcpSpec TcpProofs.
Import ListNotations.
Open Scope Z_scope.

(** C28: whatever the portions in which the bytes arrive, the packets delivered
    are those of the byte stream (up to the one that stops the stream). *)
Theorem C28_segmentation : forall max fill stop bytes t,
  0 < max -> zlen fill = 64 * max -> bytes_ok fill -> tcp_reach max fill stop bytes t ->
  tr_hist t = until_stop stop [] (stream_packets max (64 * max) bytes).
Proof.
  intros max fill stop bytes t Hm Hl Hb H. pose proof (win_eq max) as Hw. rewrite <- Hw in *.
  pose proof (reach_ok max stop Hm fill bytes t Hl Hb H) as []. rewrite <- (app_nil_r bytes), ri_future by constructor.
  destruct (tr_active t) eqn:Ea.
  - destruct (ri_active eq_refl) as [HW _]. rewrite (waiting_done max Hm _ ri_tcp HW). cbn [until_stop]. now destruct (stop (tr_hist t)).
  - now rewrite until_stop_stopped by now apply ri_stop.
Qed.
Print Assumptions C28_segmentation.
(** In particular two runs that received the same bytes agree. *)
Theorem C28_same : forall max fill1 fill2 stop bytes t1 t2,
  0 < max -> zlen fill1 = 64 * max -> bytes_ok fill1 -> zlen fill2 = 64 * max -> bytes_ok fill2 ->
  tcp_reach max fill1 stop bytes t1 -> tcp_reach max fill2 stop bytes t2 -> tr_hist t1 = tr_hist t2.
Proof.
  intros max fill1 fill2 stop bytes t1 t2 Hm L1 B1 L2 B2 H1 H2.
  now rewrite (C28_segmentation _ _ _ _ _ Hm L1 B1 H1), (C28_segmentation _ _ _ _ _ Hm L2 B2 H2).
Qed.
Print Assumptions C28_same.
(** No access outside the buffer, no overlapping copy, no failed assertion, and
    the loop ends. *)
Theorem C28_safe : forall max fill stop bytes t chunk,
  0 < max -> zlen fill = 64 * max -> bytes_ok fill -> tcp_reach max fill stop bytes t -> may_receive max t chunk ->
  exists t', receive max stop t chunk = Some t'.
Proof.
  intros max fill stop bytes t chunk Hm Hl Hb H HM. rewrite <- (win_eq max) in Hl.
  destruct (receive_ok max stop Hm bytes t chunk (reach_ok max stop Hm fill bytes t Hl Hb H) HM) as (t' & E & _). eauto.
Qed.
Print Assumptions C28_safe.

(** The bytes of one acceptable packet with a unique payload length. *)
Definition tcp_packet (max : Z) (d : list Z) : Prop :=
  exists hab rsv ptrs payload cnt hlen off,
    packet_at d hab ptrs payload cnt hlen off /\ d = wire_packet hab rsv ptrs payload /\ bytes_ok d /\
    first_imm hab PAYLOAD_LENGTH_ID ptrs = Some (zlen payload) /\ zlen d <= max.

Lemma wire_probe hab rsv ptrs payload : flavour_ok hab = true -> Forall word_ok ptrs -> zlen ptrs < 65536 ->
  first_imm hab PAYLOAD_LENGTH_ID ptrs = Some (zlen payload) ->
  get_packet_size (wire_packet hab rsv ptrs payload) = Some (zlen (wire_packet hab rsv ptrs payload)).
Proof.
  intros Hf Hw Hn Hi. pose proof (zlen_wire hab rsv ptrs payload) as HL. pose proof (zlen_nonneg ptrs). pose proof (zlen_nonneg payload).
  pose proof (flavour_ok_range _ Hf) as Hh.
  unfold get_packet_size. destruct (Z.ltb_spec (zlen (wire_packet hab rsv ptrs payload)) 8); [lia|].
  pose proof (decode_header_wire hab rsv ptrs payload [] Hf Hn) as HD. rewrite app_nil_r in HD. rewrite HD.
  destruct (Z.ltb_spec (zlen (wire_packet hab rsv ptrs payload)) (zlen ptrs * 8 + 8)); [lia|].
  rewrite find_payload_length_first by (rewrite ?Z2Nat.id; lia).
  pose proof (ptrs_at_wire hab rsv ptrs payload [] Hw) as HP. rewrite app_nil_r in HP.
  replace (Z.to_nat (zlen ptrs)) with (length ptrs) by (unfold zlen; lia). rewrite HP, Hi. cbn [or_else].
  destruct (Z.eqb_spec (zlen payload) (-1)); [lia|]. f_equal. lia.
Qed.
Lemma tcp_packet_facts max d : tcp_packet max d ->
  bytes_ok d /\ get_packet_size d = Some (zlen d) /\ 8 <= zlen d <= max /\ (exists r, decode_rpkt d = Some r /\ whole_packet d = [r]) /\
  exists hab n, header_at d hab n /\ 8 + 8 * n <= zlen d.
Proof.
  intros (hab & rsv & ptrs & payload & cnt & hlen & off & PA & E & Hb & Hi & Hl).
  pose proof (zlen_wire hab rsv ptrs payload) as HL. pose proof (zlen_nonneg ptrs). pose proof (zlen_nonneg payload).
  destruct (C02_wellformed_accepted _ _ _ _ _ _ _ PA) as (h & HD & _). pose proof PA as [Hf Hw Hc (rsv' & rest & Hr & Hd) _ _ _ _ _].
  split; [exact Hb|]. split; [rewrite E; apply wire_probe; assumption|]. split; [rewrite E in Hl |- *; lia|]. split.
  - exists (rpkt_of d h). unfold decode_rpkt, whole_packet. rewrite HD. split; [reflexivity|].
    destruct (Z.eqb_spec (8 + 8 * zlen ptrs + zlen payload) (zlen d)) as [|X]; [reflexivity|]. exfalso. apply X. rewrite E. lia.
  - exists hab, (zlen ptrs). split; [|rewrite E; lia]. split; [exact Hf|]. split; [lia|]. exists rsv', (flat_map (be_encode 8) ptrs ++ payload ++ rest). split; [exact Hr|].
    rewrite Hd. unfold wire_packet. now rewrite <- !app_assoc.
Qed.
Lemma header_at_unique d hab n hab' n' : bytes_ok d -> header_at d hab n -> header_at d hab' n' -> hab = hab' /\ n = n'.
Proof.
  intros Hb H H'. pose proof (header_at_n _ _ _ H) as L. apply (decode_header_iff d hab n Hb L) in H. apply (decode_header_iff d hab' n' Hb L) in H'.
  rewrite H in H'. now injection H' as <- <-.
Qed.
Lemma header_at_app d e hab n : header_at d hab n -> header_at (d ++ e) hab n.
Proof.
  intros (Hf & Hn & rsv & rest & Hr & ->). split; [exact Hf|]. split; [exact Hn|]. exists rsv, (rest ++ e). split; [exact Hr|]. now rewrite <- !app_assoc.
Qed.
Lemma header_at_firstn d k hab n : bytes_ok d -> header_at (firstn k d) hab n -> header_at d hab n.
Proof. intros _ H. rewrite <- (firstn_skipn k d). now apply header_at_app. Qed.
Lemma zskip_app (d e : list Z) : zskip (zlen d) (d ++ e) = e.
Proof. unfold zskip, zlen. rewrite Nat2Z.id. rewrite skipn_app, skipn_all, Nat.sub_diag. reflexivity. Qed.
Lemma stream_of_packets max ds d' k : 0 < max -> Forall (tcp_packet max) ds -> tcp_packet max d' -> (k < length d')%nat ->
  map Some (stream_packets max (64 * max) (concat ds ++ firstn k d')) = map decode_rpkt ds /\
  headers_fit max (64 * max) (concat ds ++ firstn k d').
Proof.
  intros Hm Hds Hd' Hk. assert (Hdiv : 64 * max / 2 = 32 * max) by (replace (64 * max) with (32 * max * 2) by lia; apply Z.div_mul; lia).
  induction Hds as [|d ds Hd Hds IH]; cbn [concat map app].
  - destruct (tcp_packet_facts max d' Hd') as (Hb & HP & HL & _ & hab & n & HH & Hn).
    assert (HN : ref_step max (64 * max) (firstn k d') = None).
    { unfold ref_step. assert (Hfl : zlen (firstn k d') < zlen d') by (unfold zlen; rewrite firstn_length; lia). rewrite slice_0_all by lia.
      assert (Hbf : bytes_ok (firstn k d')) by (unfold bytes_ok in *; rewrite Forall_forall in *; intros x Hx; apply Hb; eapply In_firstn; exact Hx).
      destruct (get_packet_size (firstn k d')) as [r|] eqn:EP; [|reflexivity].
      destruct (Z.eqb_spec r 0) as [->|Hr]; [destruct (Z.leb_spec (64 * max) (zlen (firstn k d'))); [lia|reflexivity]|].
      pose proof (get_packet_size_app _ (skipn k d') r Hbf Hr EP) as X. rewrite firstn_skipn, HP in X. injection X as <-.
      destruct (Z.ltb_spec (zlen d') 0); [lia|]. destruct (Z.ltb_spec max (zlen d')); [lia|]. destruct (Z.ltb_spec (zlen (firstn k d')) (zlen d')); [reflexivity|lia]. }
    split.
    + rewrite (stream_packets_step max (64 * max) Hm eq_refl), HN. reflexivity.
    + apply (headers_fit_step max (64 * max) Hm eq_refl). rewrite HN. split; [|exact I]. intros hab' n' HH'.
      apply header_at_firstn in HH'; [|exact Hb]. destruct (header_at_unique _ _ _ _ _ Hb HH HH') as [_ <-]. lia.
  - destruct IH as [IH1 IH2]. destruct (tcp_packet_facts max d Hd) as (Hb & HP & HL & (r & HR & HW) & hab & n & HH & Hn).
    rewrite <- app_assoc. set (tl := concat ds ++ firstn k d') in *.
    assert (HS : ref_step max (64 * max) (d ++ tl) = Some ([r], tl)).
    { rewrite (ref_step_app max (64 * max) d tl (zlen d)) by (assumption || lia).
      destruct (Z.ltb_spec (zlen d) 0); [lia|]. destruct (Z.ltb_spec max (zlen d)); [lia|].
      destruct (Z.ltb_spec (zlen (d ++ tl)) (zlen d)) as [X|X]; [rewrite zlen_app in X; pose proof (zlen_nonneg tl); lia|].
      rewrite zskip_app, slice_app_l, slice_full by lia. now rewrite HW. }
    split.
    + rewrite (stream_packets_step max (64 * max) Hm eq_refl), HS, HR. cbn [app map]. now rewrite IH1.
    + apply (headers_fit_step max (64 * max) Hm eq_refl). rewrite HS. split; [|exact IH2]. intros hab' n' HH'.
      assert (HH2 : header_at d hab' n').
      { destruct HH' as (F & N & rsv & rest & R & E). split; [exact F|]. split; [exact N|]. exists rsv, (skipn 8 d). split; [exact R|].
        rewrite <- (firstn_skipn 8 d) at 1.
        assert (X : firstn 8 (d ++ tl) = firstn 8 d). { rewrite firstn_app. replace (8 - length d)%nat with 0%nat by (unfold zlen in HL; lia). now rewrite firstn_O, app_nil_r. }
        rewrite <- X, E. rewrite !be_encode_2. reflexivity. }
      destruct (header_at_unique _ _ _ _ _ Hb HH HH2) as [_ <-]. lia.
Qed.
(** C28: a stream of acceptable packets is delivered packet by packet, with an
    unfinished packet at the end held back. *)
Theorem C28_packets : forall max fill stop ds d' k t,
  0 < max -> zlen fill = 64 * max -> bytes_ok fill -> Forall (tcp_packet max) ds -> tcp_packet max d' -> (k < length d')%nat ->
  (forall h, stop h = false) ->
  tcp_reach max fill stop (concat ds ++ firstn k d') t -> map Some (tr_hist t) = map decode_rpkt ds.
Proof.
  intros max fill stop ds d' k t Hm Hl Hb Hds Hd' Hk Hst H. rewrite (C28_segmentation _ _ _ _ _ Hm Hl Hb H).
  rewrite <- (proj1 (stream_of_packets max ds d' k Hm Hds Hd' Hk)). f_equal.
  set (l := stream_packets _ _ _). clearbody l. change l with ([] ++ l) at 2. generalize (@nil rpkt) as acc. induction l as [|p l IH]; intro acc; cbn [until_stop]; rewrite Hst.
  - now rewrite app_nil_r.
  - rewrite IH. now rewrite <- app_assoc.
Qed.
Print Assumptions C28_packets.
(** And the packets of the sender are acceptable. *)
Theorem C28_sender : forall hab items rep cnt mps c pks max,
  accepted hab items rep cnt mps c -> packets_of c pks -> count_fits c -> no_interleave c ->
  0 <= cnt < 2 ^ hab -> g_psize c < 2 ^ hab -> Forall (fun it => 4 < item_id it) items -> mps <= max ->
  Forall (fun pk => tcp_packet max (packet_bytes pk)) pks.
Proof.
  intros hab items rep cnt mps c pks max HA HPk Hcf Hni Hcnt HL Hids Hmx.
  assert (HSz : Forall (fun pk => zlen (packet_bytes pk) <= mps) pks).
  { destruct (C04_packets_fit_and_carry_payload _ _ _ _ _ _ HA) as (pks' & HP' & HF & _). rewrite (packets_of_unique _ _ _ HP' HPk) in HF.
    eapply Forall_impl; [|exact HF]. intros pk (ptrs & payload & off & pad & H). tauto. }
  pose proof HA as (Hf & Hok & _ & _).
  destruct (accepted_run _ _ _ _ _ _ HA) as (Hc & Eh & Ei & Er & Ecn & Hm & pks' & infos & HP & R).
  rewrite (packets_of_unique _ _ _ HP HPk) in *. clear HP pks'. subst hab items rep cnt.
  pose proof (run_wire c pks infos Hc R Hcf) as HW.
  pose proof (run_count c _ pks infos Hc eq_refl R Hcf) as HCt.
  pose proof (ro_tiles _ _ _ _ R) as HT. change (s_poff gen_init) with 0 in HT.
  pose proof (tiles_bounds _ _ _ HT) as [HL0 HB]. rewrite Forall_forall in HB.
  pose proof (run_no_interleave c pks infos Hc R (no_interleave_mode c Hc Hni)) as HPay. rewrite Forall_forall in HPay.
  set (hab := g_hab c) in *. set (L := g_psize c) in *.
  assert (HPL : zlen (heap_payload hab (g_items c)) <= L).
  { pose proof (padded_length c Hc) as HPd. unfold padded in HPd. rewrite zlen_app in HPd. fold hab L in HPd.
    pose proof (zlen_nonneg (repeat 0 (Z.to_nat (L - zlen (heap_payload hab (g_items c)))))). lia. }
  assert (HPtr : forall i q, In i infos -> In q (pi_ptrs i) -> In q (sent_pointers hab L (g_items c))).
  { intros i q Hi Hq. unfold hab, L. rewrite (sent_pointers_all c Hc). destruct (g_repeat c) eqn:ER.
    - pose proof (ro_repeat _ _ _ _ R ER) as HR. rewrite Forall_forall in HR. now rewrite (HR i Hi) in Hq.
    - pose proof (ro_ptrs _ _ _ _ R ER) as HR. change (Z.to_nat (s_nip gen_init)) with 0%nat in HR. cbn [skipn] in HR.
      rewrite <- HR. apply in_concat. exists (pi_ptrs i). split; [now apply in_map|exact Hq]. }
  assert (HWB : bytes_ok (padded c)).
  { unfold padded. fold hab. apply bytes_ok_app. split.
    - apply Forall_forall. intros b Hb. unfold heap_payload in Hb. apply in_flat_map in Hb as (it & Hi & Hb).
      apply filter_In in Hi as [Hi _]. rewrite Forall_forall in Hok. specialize (Hok it Hi).
      destruct it as [id v|id data]; cbn [item_data] in Hb; [destruct Hb|]. destruct Hok as [_ Hok]. unfold bytes_ok in Hok. rewrite Forall_forall in Hok. now apply Hok.
    - apply Forall_forall. intros b Hb. apply repeat_spec in Hb. subst b. unfold byte_ok. lia. }
  apply Forall_forall. intros pk Hpk. destruct (Forall2_In_l _ _ _ _ HW Hpk) as (i & Hi & E). fold hab L in E.
  specialize (HB i Hi). rewrite Forall_forall in HCt. specialize (HCt i Hi). cbn in HCt. specialize (HPay i Hi). rewrite Forall_forall in HSz. specialize (HSz pk Hpk).
  assert (HQ : forall q, In q (pi_ptrs i) -> word_ok q /\ kept hab q = true).
  { intros q Hq. destruct (sent_pointers_facts hab (g_items c) L q Hf Hok HPL HL Hids) as (A & B & _); [now apply (HPtr i)|]. auto. }
  destruct (wire_at hab (g_cnt c) L (pi_off i) (pi_ptrs i) (pi_payload i)) as (PA & FI & _); try assumption; try (unfold L in *; lia).
  { apply Forall_forall. intros q Hq. now apply HQ. }
  { apply Forall_forall. intros q Hq. now apply HQ. }
  exists hab, 0, (special_ptrs hab (g_cnt c) L (pi_off i) (zlen (pi_payload i)) ++ pi_ptrs i), (pi_payload i), (g_cnt c), (Some L), (pi_off i).
  split; [now rewrite E|]. split; [exact E|]. split; [|split; [exact FI|lia]].
  rewrite E. apply wire_bytes_ok; [exact Hf|]. rewrite HPay. now apply bytes_ok_slice.
Qed.
Print Assumptions C28_sender.

(** C29.  With buffers of the default size (65536 * 64 bytes), or in general if
    max_size is at least 16384, there is always room for more data. *)
Theorem C29_room_partial : forall max fill stop bytes t,
  16384 <= max -> zlen fill = 64 * max -> bytes_ok fill -> tcp_reach max fill stop bytes t -> tr_active t = true ->
  0 < room max (tr_tcp t).
Proof.
  intros max fill stop bytes t Hm Hl Hb H Ha. pose proof (win_eq max) as Hw. rewrite <- Hw in *.
  apply (waiting_room max stop ltac:(lia) t bytes); [eapply reach_ok; (eassumption || lia)|exact Ha|].
  assert (Hdiv : bufsize max / 2 = 32 * max) by (rewrite Hw; replace (64 * max) with (32 * max * 2) by lia; apply Z.div_mul; lia).
  clear - Hm Hdiv Hw. unfold headers_fit. generalize (S (length bytes)) as fuel. intro fuel. revert bytes. induction fuel as [|fuel IH]; intro d; [exact I|].
  rewrite small_headers_step. split; [|destruct (ref_step max (bufsize max) d) as [[ps d']|]; [apply IH|exact I]].
  intros hab n (_ & Hn & _). lia.
Qed.
Print Assumptions C29_room_partial.
(** For any max_size the same holds for streams that consist of packets no
    longer than max_size. *)
Theorem C29_room_packets_partial : forall max fill stop ds d' k t,
  0 < max -> zlen fill = 64 * max -> bytes_ok fill -> Forall (tcp_packet max) ds -> tcp_packet max d' -> (k < length d')%nat ->
  tcp_reach max fill stop (concat ds ++ firstn k d') t -> tr_active t = true -> 0 < room max (tr_tcp t).
Proof.
  intros max fill stop ds d' k t Hm Hl Hb Hds Hd' Hk H Ha. pose proof (win_eq max) as Hw.
  apply (waiting_room max stop Hm t (concat ds ++ firstn k d')); [eapply reach_ok; try eassumption; lia|exact Ha|]. rewrite Hw. now apply stream_of_packets.
Qed.
Print Assumptions C29_room_packets_partial.

(** But with a small max_size, a header that announces more item pointers than
    fit behind it in the buffer makes the reader issue zero-length receives
    for ever: 8 bytes of junk, then a header announcing 65535 items. *)
Definition bad_stream : list Z := repeat 0 8 ++ [83; 4; 2; 6; 0; 0; 255; 255] ++ repeat 0 2544.
Theorem C29_refuted : exists max fill bytes t,
  0 < max /\ zlen fill = 64 * max /\ bytes_ok fill /\ bytes_ok bytes /\ tcp_reach max fill (fun _ => false) bytes t /\
  tr_active t = true /\ room max (tr_tcp t) = 0 /\
  forall chunk, may_receive max t chunk -> chunk = [] /\ receive max (fun _ => false) t chunk = Some t.
Proof.
  assert (HB : bytes_ok bad_stream).
  { unfold bad_stream. apply bytes_ok_app. split; [apply Forall_forall; intros x Hx; apply repeat_spec in Hx; subst x; unfold byte_ok; lia|].
    apply bytes_ok_app. split; [|apply Forall_forall; intros x Hx; apply repeat_spec in Hx; subst x; unfold byte_ok; lia].
    repeat (apply Forall_cons; [unfold byte_ok; lia|]). apply Forall_nil. }
  set (t0 := {| tr_tcp := tcp_new 40 (repeat 0 2560); tr_hist := []; tr_active := true |}).
  set (t := {| tr_tcp := {| tc_buf := bad_stream; tc_head := 8; tc_tail := 2560; tc_pkt := 0; tc_skip := 0 |}; tr_hist := []; tr_active := true |}).
  assert (H0 : reader_start 40 (repeat 0 2560) = Some t0) by reflexivity.
  assert (HR : receive 40 (fun _ => false) t0 bad_stream = Some t) by (vm_compute; reflexivity).
  exists 40, (repeat 0 2560), ([] ++ bad_stream), t. split; [lia|]. split; [vm_compute; reflexivity|].
  split; [apply Forall_forall; intros x Hx; apply repeat_spec in Hx; subst x; unfold byte_ok; lia|]. split; [exact HB|]. split.
  { apply (tcp_reach_recv 40 (repeat 0 2560) (fun _ => false) [] t0 bad_stream t); [now constructor| |exact HR].
    split; [reflexivity|]. split; [exact HB|]. split; [vm_compute; discriminate|]. intro E. discriminate E. }
  split; [reflexivity|]. split; [reflexivity|]. intros chunk (_ & _ & Hl & _). change (room 40 (tr_tcp t)) with 0 in Hl.
  destruct chunk as [|b l]; [|rewrite zlen_cons in Hl; pose proof (zlen_nonneg l); lia]. split; [reflexivity|]. vm_compute. reflexivity.
Qed.
Print Assumptions C29_refuted.

(** Non-vacuity: a packet split into three receives, with junk before it. *)
Definition ex_tcp_stream : list Z := repeat 7 8 ++ firstn 51 ex_data ++ firstn 20 ex_data.
Definition run_chunks (max : Z) (t : option treader) (chunks : list (list Z)) : option treader :=
  fold_left (fun t ch => match t with Some t => receive max (fun _ => false) t ch | None => None end) chunks t.
Example C28_ex :
  option_map (fun t => (zlen (tr_hist t), tr_active t, room 51 (tr_tcp t)))
    (run_chunks 51 (reader_start 51 (repeat 0 (Z.to_nat (64 * 51)))) [firstn 9 ex_tcp_stream; firstn 30 (skipn 9 ex_tcp_stream); skipn 39 ex_tcp_stream])
  = Some (1, true, 3185) /\
  tcp_packet 51 (firstn 51 ex_data) /\ zlen (stream_packets 51 (64 * 51) ex_tcp_stream) = 1.
Proof.
  split; [vm_compute; reflexivity|]. split; [|vm_compute; reflexivity].
  exists 48, 0, ex_ptrs, [1; 2; 3], 5, (Some 3), 0. split.
  - constructor; try reflexivity; [unfold ex_ptrs; repeat constructor; vm_compute; congruence|exists 0, []; split; [lia|vm_compute; reflexivity]|intros l [= <-]; vm_compute; congruence].
  - split; [vm_compute; reflexivity|]. split; [|split; [vm_compute; reflexivity|vm_compute; congruence]].
    repeat (apply Forall_cons; [unfold byte_ok; lia|]). apply Forall_nil.
Qed.
