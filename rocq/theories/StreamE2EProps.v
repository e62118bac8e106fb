(** C07 through a receive stream: a heap whose packets are mixed with those of
    other heaps is handed over complete, with the items that were sent. *)
From Coq Require Import ZArith List Lia Bool Permutation.
From Coq Require Import ZifyBool ZifyNat.
From Verif Require Import Base CodecModel CodecProofs CodecProps PacketSpec RecvPacketModel RecvPacketProofs RecvPacketProps
  SendPacketModel SendSpec SendPacketProofs SendGenProofs SendProps
  LiveHeapModel LiveHeapSpec LiveHeapProofs LiveHeapProps RecvHeapModel RecvHeapProofs RecvHeapProps ReassembleProofs E2EProofs E2EProps
  StreamModel StreamSpec StreamProofs StreamInvProofs StreamRunProofs StreamProps StreamE2EProofs.
Import ListNotations.
Open Scope Z_scope.

(** The decoded packets of an accepted heap. *)
Lemma sender_family hab items rep cnt mps c pks :
  accepted hab items rep cnt mps c -> packets_of c pks -> count_fits c -> no_interleave c ->
  0 <= cnt < 2 ^ hab -> g_psize c < 2 ^ hab ->
  Forall (fun it => 4 < item_id it /\ (addressed hab it = true -> item_data it <> [])) items ->
  exists fam, family hab (g_psize c) (padded c) fam /\ (forall p, In p fam -> rp_cnt p = cnt) /\ fam <> [] /\
    forall p, In p fam <-> exists pk, In pk pks /\ decode_rpkt (packet_bytes pk) = Some p.
Proof.
  intros HA HPk Hcf Hni Hcnt HL Hit.
  pose proof HA as (Hf & Hok & _ & _).
  destruct (accepted_run _ _ _ _ _ _ HA) as (Hc & Eh & Ei & Er & Ecn & Hm & pks' & infos & HP & R).
  rewrite (packets_of_unique _ _ _ HP HPk) in *. clear HP pks'. subst hab items rep cnt.
  set (hab := g_hab c) in *. set (items := g_items c) in *. set (L := g_psize c) in *.
  pose proof (run_wire c pks infos Hc R Hcf) as HW.
  pose proof (run_count c _ pks infos Hc eq_refl R Hcf) as HCt.
  pose proof (ro_tiles _ _ _ _ R) as HT. change (s_poff gen_init) with 0 in HT.
  pose proof (tiles_bounds _ _ _ HT) as [HL0 HB]. rewrite Forall_forall in HB.
  pose proof (run_no_interleave c pks infos Hc R (no_interleave_mode c Hc Hni)) as HPay. rewrite Forall_forall in HPay.
  assert (HPL : zlen (heap_payload hab items) <= L).
  { pose proof (padded_length c Hc) as HPd. unfold padded in HPd. rewrite zlen_app in HPd. fold hab items L in HPd.
    pose proof (zlen_nonneg (repeat 0 (Z.to_nat (L - zlen (heap_payload hab items))))). lia. }
  assert (Hids : Forall (fun it => 4 < item_id it) items) by (eapply Forall_impl; [|exact Hit]; tauto).
  assert (HPos : forall i, In i infos -> 0 < zlen (pi_payload i)).
  { pose proof (ro_sized _ _ _ _ R) as HS. clear - HS. intros i Hi.
    destruct (Forall2_In_r _ _ _ _ HS Hi) as (pk & _ & Hz). exact (pz_payload _ _ _ Hz). }
  (* pointers over all packets *)
  assert (HPtr : forall q, (exists i, In i infos /\ In q (pi_ptrs i)) <-> In q (sent_pointers hab L items)).
  { intro q. unfold hab, L, items. rewrite (sent_pointers_all c Hc). destruct (g_repeat c) eqn:ER.
    - pose proof (ro_repeat _ _ _ _ R ER) as HR. rewrite Forall_forall in HR. split.
      + intros (i & Hi & Hq). now rewrite (HR i Hi) in Hq.
      + intro Hq. destruct infos as [|i infos].
        * exfalso. cbn [tiles] in HT. fold L in HT. pose proof (co_psize c Hc) as HZ.
          assert (0 <= zlen (g_items c) / g_m c) by (apply Z.div_pos; [apply zlen_nonneg|pose proof (co_m c Hc); lia]).
          fold L in HZ. lia.
        * exists i. split; [now left|]. now rewrite (HR i (or_introl eq_refl)).
    - pose proof (ro_ptrs _ _ _ _ R ER) as HR. change (Z.to_nat (s_nip gen_init)) with 0%nat in HR. cbn [skipn] in HR.
      rewrite <- HR. rewrite in_concat. split.
      + intros (i & Hi & Hq). exists (pi_ptrs i). split; [now apply in_map|exact Hq].
      + intros (l & Hl & Hq). apply in_map_iff in Hl as (i & <- & Hi). exists i. split; assumption. }
  (* payload bytes *)
  assert (HBy : forall it, In it items -> bytes_ok (item_data it)).
  { intros it Hin. rewrite Forall_forall in Hok. specialize (Hok it Hin). destruct it; cbn in *; [constructor|tauto]. }
  assert (HWB : bytes_ok (padded c)).
  { unfold padded. fold hab items. apply bytes_ok_app. split.
    - apply Forall_forall. intros b Hb. unfold heap_payload in Hb. apply in_flat_map in Hb as (it & Hi & Hb).
      apply filter_In in Hi as [Hi _]. specialize (HBy it Hi). unfold bytes_ok in HBy. rewrite Forall_forall in HBy. now apply HBy.
    - apply Forall_forall. intros b Hb. apply repeat_spec in Hb. subst b. unfold byte_ok. lia. }
  (* decoding *)
  assert (HDec : forall i, In i infos ->
    let d := wire_packet hab 0 (special_ptrs hab (g_cnt c) L (pi_off i) (zlen (pi_payload i)) ++ pi_ptrs i) (pi_payload i) in
    decode_rpkt d = Some (rpkt_info hab (g_cnt c) L i) /\ decoded (rpkt_info hab (g_cnt c) L i)).
  { intros i Hi. specialize (HB i Hi). rewrite Forall_forall in HCt. specialize (HCt i Hi). cbn in HCt.
    assert (HQ : forall q, In q (pi_ptrs i) -> word_ok q /\ kept hab q = true /\ (is_immediate q = false -> get_address hab q <= L)).
    { intros q Hq. apply (sent_pointers_facts hab items L q Hf Hok HPL HL Hids). apply HPtr. eauto. }
    apply wire_decodes; try assumption; try (unfold L in *; lia).
    - apply Forall_forall. intros q Hq. now apply HQ.
    - apply Forall_forall. intros q Hq. now apply HQ.
    - rewrite (HPay i Hi). now apply bytes_ok_slice. }
  (* the family *)
  set (mk := rpkt_info hab (g_cnt c) L) in *.
  assert (F : family hab L (padded c) (map mk infos)).
  { constructor; try (apply Forall_forall; intros p Hp; apply in_map_iff in Hp as (i & <- & Hi)).
    - now apply HDec.
    - reflexivity.
    - reflexivity.
    - cbn [mk rpkt_info rp_plen]. now apply HPos.
    - unfold mk, rpkt_info. cbn [rp_payload rp_off rp_plen]. now apply HPay.
    - intros p q Hp Hq (x & Hx & Hy). apply in_map_iff in Hp as (i & <- & Hi). apply in_map_iff in Hq as (j & <- & Hj).
      f_equal. unfold carries, mk, rpkt_info in Hx, Hy. cbn [rp_off rp_plen] in Hx, Hy. exact (tiles_inj _ _ _ i j x HT Hi Hj Hx Hy).
    - intros x Hx. destruct (tiles_cover _ _ _ x HT Hx) as (i & Hi & Hxi). exists (mk i). split; [now apply in_map|exact Hxi].
    - exact (padded_length c Hc).
    - intros p q Hp Hq Hi. apply in_map_iff in Hp as (i & <- & Hin). cbn [mk rpkt_info rp_ptrs] in Hq.
      apply (sent_pointers_facts hab items L q Hf Hok HPL HL Hids); [|exact Hi]. apply HPtr. eauto. }
  exists (map mk infos). split; [exact F|]. split; [intros p Hp; apply in_map_iff in Hp as (i & <- & _); reflexivity|]. split.
  - destruct infos as [|i infos]; [|discriminate]. exfalso. cbn [tiles] in HT. fold L in HT. pose proof (co_psize c Hc) as HZ.
    assert (0 <= zlen (g_items c) / g_m c) by (apply Z.div_pos; [apply zlen_nonneg|pose proof (co_m c Hc); lia]).
    fold L in HZ. lia.
  - intro p. split.
    + intro Hp. apply in_map_iff in Hp as (i & <- & Hi). destruct (Forall2_In_r _ _ _ _ HW Hi) as (pk & Hpk & E).
      exists pk. split; [exact Hpk|]. rewrite E. now apply HDec.
    + intros (pk & Hpk & Hd). destruct (Forall2_In_l _ _ _ _ HW Hpk) as (i & Hi & E). rewrite E in Hd.
      destruct (HDec i Hi) as [HD1 _]. fold hab L in Hd. rewrite HD1 in Hd. injection Hd as <-. now apply in_map.
Qed.

Lemma choose_bytes pks ps : (forall p, In p ps -> exists pk, In pk pks /\ decode_rpkt (packet_bytes pk) = Some p) ->
  exists ds, map decode_rpkt ds = map Some ps /\ forall d, In d ds -> exists pk, In pk pks /\ d = packet_bytes pk.
Proof.
  induction ps as [|p ps IH]; intro H; [exists []; split; [reflexivity|intros ? []]|].
  destruct (H p (or_introl eq_refl)) as (pk & Hpk & Hd). destruct IH as (ds & E & Hds); [intros q Hq; apply H; now right|].
  exists (packet_bytes pk :: ds). cbn [map]. rewrite Hd, E. split; [reflexivity|]. intros d [<-|Hin]; [eauto|now apply Hds].
Qed.

Theorem C07_through_stream_partial : forall sc s0 rs0 ops s1 rs1 hab items rep cnt mps c pks,
  (* any stream state without an unfinished heap of that count *)
  reachable sc s0 rs0 -> sc_allow_ooo sc = true -> sc_stop_item sc = false ->
  (forall u h, In (u, h) (live_heaps s0) -> lh_cnt h <> cnt) ->
  (* a heap accepted by the sender, as in C07 *)
  accepted hab items rep cnt mps c -> packets_of c pks -> count_fits c -> no_interleave c ->
  0 <= cnt < 2 ^ hab -> g_psize c < 2 ^ hab ->
  Forall (fun it => 4 < item_id it /\ (addressed hab it = true -> item_data it <> [])) items ->
  (* batches of packets, of this and other heaps, that do not stop the stream *)
  Forall op_decoded ops -> Forall is_batch ops -> run sc s0 ops = Some (s1, rs1) -> st_stopped s1 = false ->
  (* with this count only packets of the heap, each at least once, in any order *)
  (forall p, In p (flat_map op_pkts ops) -> rp_cnt p = cnt ->
     exists pk, In pk pks /\ decode_rpkt (packet_bytes pk) = Some p) ->
  (forall pk, In pk pks -> exists p, In p (flat_map op_pkts ops) /\ decode_rpkt (packet_bytes pk) = Some p) ->
  (* no more than max_heaps heaps of the substream are started meanwhile *)
  (length (filter (in_sub sc (get_substream sc cnt)) (skipn (length (st_hist s0)) (st_hist s1))) <= sc_max_heaps sc)%nat ->
  exists o f, In o (st_out s1) /\ ~ In o (st_out s0) /\ oh_why o = Complete /\
    freeze (oh_heap o) = Some f /\ fr_cnt f = cnt /\ fr_hab f = hab /\
    slice (fr_payload f) 0 (zlen (heap_payload hab items)) = map Some (heap_payload hab items) /\
    forall id v,
      (exists it, In it (fr_items f) /\ ri_id it = id /\ ritem_value f it = Some v) <->
      (exists it, In it items /\ item_id it = id /\ received_value hab it = v).
Proof.
  intros sc s0 rs0 ops s1 rs1 hab items rep cnt mps c pks HR0 Hooo Hstop Hnone HA HPk Hcf Hni Hcnt HL Hit Hdec Hb HRun Hst Honly Hall Hss.
  destruct (sender_family hab items rep cnt mps c pks HA HPk Hcf Hni Hcnt HL Hit) as (fam & F & HC & Hne & Hfam).
  pose proof (proj1 HR0) as Hcfg. destruct (reachable_sim sc s0 rs0 HR0) as (a & st & HS).
  assert (HnH : st_hist s0 = as_hist a) by exact (rf_hist _ _ _ (proj1 HS)). rewrite HnH in Hss.
  assert (HW : waiting cnt (length (as_hist a)) a []).
  { left. split; [reflexivity|]. intros x Hx. apply (Hnone (ah_uid x)). apply (live_heaps_iff sc s0 a _ _ (proj1 HS)). eauto. }
  destruct (run_delivers sc Hcfg Hooo Hstop F cnt HC (length (as_hist a)) ops _ _ _ _ _ _ [] HS (ops_decoded_ok _ Hdec) Hb HRun Hst)
    as (a1 & st1 & HS1 & _ & HD).
  { intros p Hp Hc. apply Hfam. now apply Honly. }
  { intros q []. }
  { apply Nat.le_refl. }
  rewrite (rf_hist _ _ _ (proj1 HS1)) in Hss. cbn [app] in HD.
  pose proof (ai_base _ _ (gd_inv _ _ _ _ (proj2 HS1))) as HB1. pose proof (ai_base _ _ (gd_inv _ _ _ _ (proj2 HS))) as HB0.
  assert (HX : @delivered hab (g_psize c) (padded c) fam cnt (length (as_hist a)) a1).
  { destruct (HD Hss (or_intror HW)) as [HX|HX]; [exact HX|exfalso].
    set (seen := heap_pkts cnt (flat_map op_pkts ops)) in *.
    assert (Hin : forall p, In p fam -> In p seen).
    { intros p Hp. apply Hfam in Hp as Hp2. destruct Hp2 as (pk & Hpk & Hd). destruct (Hall pk Hpk) as (p' & Hp' & Hd'). rewrite Hd in Hd'. injection Hd' as <-.
      apply filter_In. split; [exact Hp'|]. rewrite (HC p Hp). apply Z.eqb_refl. }
    assert (Hout : forall p, In p seen -> In p fam).
    { intros p Hp. apply filter_In in Hp as [Hp Hc]. apply Hfam. apply Honly; [exact Hp|]. clear - Hc. lia. }
    destruct HX as [[E _]|(Hns & x & Hx & _ & Hoff)].
    - destruct fam as [|p fam']; [contradiction|]. specialize (Hin p (or_introl eq_refl)). rewrite E in Hin. destruct Hin.
    - apply find_some in Hx as [Hx _]. destruct (ab_live _ _ HB1 x Hx) as (_ & X2 & X3).
      destruct (built_family sc Hooo Hstop F cnt HC _ _ _ seen X2 Hoff Hns Hout) as [J1 _]. rewrite X3 in J1. discriminate (proj2 J1 Hin). }
  destruct HX as (o & Ho & Hwhy & Huid & (_ & _ & Hcomp & _) & p0 & ps & bs & HRe & Hps).
  destruct (choose_bytes pks (p0 :: ps)) as (ds & Eds & Hds).
  { intros p Hp. apply Hfam. now apply Hps. }
  assert (Hdn : ds <> []) by (intros ->; discriminate).
  destruct (C07_end_to_end_partial hab items rep cnt mps c pks ds HA HPk Hcf Hni Hcnt HL Hit Hdn Hds) as (rps & h & E1 & E2 & _ & E3).
  assert (rps = p0 :: ps).
  { rewrite Eds in E1. clear - E1. revert E1. generalize (p0 :: ps). clear. intro l. revert rps. induction l as [|x l IH]; intros [|y r] E; try discriminate; [reflexivity|].
    cbn [map] in E. injection E as -> E. f_equal. now apply IH. }
  subst rps. cbn [hd] in E2. unfold reaches in E2, HRe. rewrite HRe in E2. injection E2 as <- _.
  destruct (E3 Hcomp) as (f & Hf). exists o, f. split; [rewrite (rf_out _ _ _ (proj1 HS1)); exact Ho|].
  split; [|split; [exact Hwhy|exact Hf]].
  intro Ho0. rewrite (rf_out _ _ _ (proj1 HS)) in Ho0. destruct (ab_out _ _ HB0 o Ho0) as (O1 & _).
  pose proof (nth_hist_lt _ _ _ O1). lia.
Qed.
Print Assumptions C07_through_stream_partial.

(** Non-vacuity: the two packets of heap 9 (C07_ex), last first and one of them
    twice, among packets of heaps 11 and 13; room for three heaps. *)
Definition ex_sc3 : sconfig :=
  {| sc_max_heaps := 3; sc_substreams := 1; sc_allow_unsized := false; sc_allow_ooo := true; sc_stop_item := false |}.
Definition ex_e2e_ops : list op :=
  match run_rps (map packet_bytes (run_pkts 48 ex_items 72)) with
  | [p; q] => [Batch [ex_sp 11 0 [1]; q; ex_sp 13 0 [2]] false; Batch [ex_sp 11 2 [3; 4]; q; p] false; Batch [ex_sp 11 1 [2]] false]
  | _ => []
  end.
Definition ex_e2e_end : stream * list bool :=
  match run ex_sc3 (stream_new ex_sc3) ex_e2e_ops with Some r => r | None => (stream_new ex_sc3, []) end.
Lemma decode_rpkt_decoded d r : bytes_ok d -> decode_rpkt d = Some r -> decoded r.
Proof.
  intros Hb H. unfold decode_rpkt in H. destruct (decode_packet d) as [| |h z] eqn:E; try discriminate. injection H as <-.
  exists d, h, z. auto.
Qed.
Lemma ex_e2e_decode : map decode_rpkt (map packet_bytes (run_pkts 48 ex_items 72)) =
  map Some (run_rps (map packet_bytes (run_pkts 48 ex_items 72))).
Proof. vm_compute. reflexivity. Qed.
Example C07_through_stream_ex :
  reachable ex_sc3 (stream_new ex_sc3) [] /\ Forall op_decoded ex_e2e_ops /\ Forall is_batch ex_e2e_ops /\
  run ex_sc3 (stream_new ex_sc3) ex_e2e_ops = Some ex_e2e_end /\ st_stopped (fst ex_e2e_end) = false /\
  (forall p, In p (flat_map op_pkts ex_e2e_ops) -> rp_cnt p = 9 ->
     exists pk, In pk (run_pkts 48 ex_items 72) /\ decode_rpkt (packet_bytes pk) = Some p) /\
  (forall pk, In pk (run_pkts 48 ex_items 72) -> exists p, In p (flat_map op_pkts ex_e2e_ops) /\ decode_rpkt (packet_bytes pk) = Some p) /\
  (length (filter (in_sub ex_sc3 (get_substream ex_sc3 9)) (st_hist (fst ex_e2e_end))) <= sc_max_heaps ex_sc3)%nat /\
  map (fun o => (oh_why o, lh_cnt (oh_heap o))) (st_out (fst ex_e2e_end)) = [(Complete, 9); (Complete, 11)].
Proof.
  split; [split; [unfold config_ok, ex_sc3; cbn; repeat split; lia|]; exists []; split; [constructor|reflexivity]|].
  split.
  { unfold ex_e2e_ops. destruct (run_rps _) as [|p [|q [|? ?]]] eqn:E; try apply Forall_nil.
    assert (Hp : decoded p /\ decoded q).
    { assert (HF : Forall decoded (run_rps (map packet_bytes (run_pkts 48 ex_items 72)))).
      { unfold run_rps. apply Forall_forall. intros r Hr. apply in_map_iff in Hr as (d & <- & Hd).
        destruct (decode_rpkt d) as [r|] eqn:Ed; [|exfalso].
        - assert (Hb : bytes_ok d).
          { assert (HB : forallb (fun d => forallb (fun b => (0 <=? b) && (b <? 256)) d) (map packet_bytes (run_pkts 48 ex_items 72)) = true)
              by (vm_compute; reflexivity). rewrite forallb_forall in HB. apply bytes_ok_dec. now apply HB. }
          exact (decode_rpkt_decoded d r Hb Ed).
        - pose proof ex_e2e_decode as HD. assert (Hin : In (decode_rpkt d) (map decode_rpkt (map packet_bytes (run_pkts 48 ex_items 72)))) by now apply in_map.
          rewrite HD, Ed in Hin. apply in_map_iff in Hin as (? & ? & _). discriminate. }
      rewrite E in HF. inversion HF as [|? ? H1 H2]; subst. inversion H2; subst. auto. }
    destruct Hp as [Hp Hq].
    assert (H1 : forall c o l, In (c, o, l) [(11, 0, [1]); (13, 0, [2]); (11, 2, [3; 4]); (11, 1, [2])] -> decoded (ex_sp c o l)).
    { intros c o l HI. cbn [In] in HI. repeat destruct HI as [HI|HI]; try (injection HI as <- <- <-; ex_dec). destruct HI. }
    apply Forall_cons; [|apply Forall_cons; [|apply Forall_cons; [|apply Forall_nil]]]; cbn [op_decoded];
      repeat (apply Forall_cons; [first [assumption|apply H1; cbn; tauto]|]); apply Forall_nil. }
  split; [unfold ex_e2e_ops; destruct (run_rps _) as [|p [|q [|? ?]]]; repeat constructor|].
  split; [vm_compute; reflexivity|]. split; [vm_compute; reflexivity|].
  assert (E : exists pk1 pk2 p1 p2, run_pkts 48 ex_items 72 = [pk1; pk2] /\ decode_rpkt (packet_bytes pk1) = Some p1 /\
    decode_rpkt (packet_bytes pk2) = Some p2 /\ run_rps (map packet_bytes (run_pkts 48 ex_items 72)) = [p1; p2]).
  { do 4 eexists. split; [vm_compute; reflexivity|]. split; [vm_compute; reflexivity|]. split; vm_compute; reflexivity. }
  destruct E as (pk1 & pk2 & p1 & p2 & E1 & E2 & E3 & E4).
  assert (Eops : ex_e2e_ops = [Batch [ex_sp 11 0 [1]; p2; ex_sp 13 0 [2]] false; Batch [ex_sp 11 2 [3; 4]; p2; p1] false; Batch [ex_sp 11 1 [2]] false]).
  { unfold ex_e2e_ops. now rewrite E4. }
  rewrite Eops, E1. cbn [flat_map op_pkts app].
  assert (Hno : forall c o l p, In (c, o, l) [(11, 0, [1]); (13, 0, [2]); (11, 2, [3; 4]); (11, 1, [2])] -> ex_sp c o l = p -> rp_cnt p = 9 -> False).
  { intros c o l p HI <-. cbn [In] in HI. repeat destruct HI as [HI|HI]; try (injection HI as <- <- <-; vm_compute; discriminate). destruct HI. }
  split.
  { intros p Hp Hc. destruct Hp as [H|[H|[H|[H|[H|[H|[H|[]]]]]]]];
    first [subst p; exists pk2; split; [right; left; reflexivity|exact E3]
          |subst p; exists pk1; split; [left; reflexivity|exact E2]
          |exfalso; refine (Hno _ _ _ _ _ H Hc); cbn [In]; tauto]. }
  split. { intros pk [<-|[<-|[]]]; [exists p1|exists p2]; split; try assumption; cbn; tauto. }
  split; vm_compute; [repeat constructor|reflexivity].
Qed.
