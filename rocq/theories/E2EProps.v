(** C07: a heap that is packetised, reordered, duplicated, reassembled and
    frozen. *)
From Coq Require Import ZArith List Lia Bool.
From Coq Require Import ZifyBool ZifyNat.
From Verif Require Import Base CodecModel CodecProofs CodecProps PacketSpec RecvPacketModel RecvPacketProofs RecvPacketProps
  SendPacketModel SendSpec SendPacketProofs SendGenProofs SendProps
  LiveHeapModel LiveHeapSpec LiveHeapProofs LiveHeapProps RecvHeapModel RecvHeapProofs RecvHeapProps ReassembleProofs E2EProofs.
Import ListNotations.
Open Scope Z_scope.

Definition bytes_eqb (a b : list Z) : bool := if list_eq_dec Z.eq_dec a b then true else false.

Lemma bytes_eqb_eq a b : bytes_eqb a b = true <-> a = b.
Proof. unfold bytes_eqb. destruct (list_eq_dec Z.eq_dec a b); split; congruence. Qed.

Lemma first_time_map {A B} (e1 : A -> A -> bool) (e2 : B -> B -> bool) (f : A -> B) l : forall seen,
  (forall x y, In x (l ++ seen) -> In y (l ++ seen) -> e1 x y = e2 (f x) (f y)) ->
  first_time e1 seen l = first_time e2 (map f seen) (map f l).
Proof.
  induction l as [|x l IH]; intros seen H; cbn [map first_time]; [reflexivity|]. f_equal.
  - f_equal.
    assert (HX : forall s, (forall y, In y s -> In y seen) -> existsb (e1 x) s = existsb (e2 (f x)) (map f s)).
    { induction s as [|y s IHs]; intro Hs; cbn [existsb map]; [reflexivity|].
      rewrite IHs by (intros z Hz; apply Hs; now right). f_equal. apply H; [now left|].
      right. apply in_or_app. right. apply Hs. now left. }
    apply HX. auto.
  - apply IH. intros y z Hy Hz. apply H.
    + apply in_app_or in Hy as [Hy|[<-|Hy]]; [right; apply in_or_app; now left|now left|right; apply in_or_app; now right].
    + apply in_app_or in Hz as [Hz|[<-|Hz]]; [right; apply in_or_app; now left|now left|right; apply in_or_app; now right].
Qed.

(** Two infos of a tiling with non-empty payloads that share a byte are the same. *)
Lemma tiles_inj infos : forall off stop i j x,
  tiles off infos stop -> In i infos -> In j infos ->
  pi_off i <= x < pi_off i + zlen (pi_payload i) -> pi_off j <= x < pi_off j + zlen (pi_payload j) -> i = j.
Proof.
  induction infos as [|k infos IH]; intros off stop i j x Ht Hi Hj Hx Hy; [destruct Hi|].
  cbn [tiles] in Ht. destruct Ht as [Hk Ht].
  pose proof (tiles_bounds _ _ _ Ht) as [_ HB]. rewrite Forall_forall in HB.
  destruct Hi as [->|Hi], Hj as [->|Hj].
  - reflexivity.
  - exfalso. specialize (HB j Hj). lia.
  - exfalso. specialize (HB i Hi). lia.
  - exact (IH _ _ i j x Ht Hi Hj Hx Hy).
Qed.

Lemma tiles_cover infos : forall off stop x,
  tiles off infos stop -> off <= x < stop -> exists i, In i infos /\ pi_off i <= x < pi_off i + zlen (pi_payload i).
Proof.
  induction infos as [|k infos IH]; intros off stop x Ht Hx; cbn [tiles] in Ht; [lia|].
  destruct Ht as [Hk Ht]. destruct (Z.lt_ge_cases x (off + zlen (pi_payload k))) as [H|H].
  - exists k. split; [now left|lia].
  - destruct (IH _ _ x Ht ltac:(lia)) as (i & Hi & Hi2). exists i. split; [now right|exact Hi2].
Qed.

(** The receiver's view of the packet with contents [i]. *)
Definition rpkt_info (hab cnt L : Z) (i : pinfo) : rpkt :=
  {| rp_hab := hab; rp_cnt := cnt; rp_hlen := L; rp_off := pi_off i; rp_plen := zlen (pi_payload i);
     rp_ptrs := pi_ptrs i; rp_payload := pi_payload i |}.

Lemma Forall2_In_l {A B} (R : A -> B -> Prop) l m x : Forall2 R l m -> In x l -> exists y, In y m /\ R x y.
Proof.
  induction 1 as [|a b l m H HF IH]; intro Hx; [destruct Hx|]. destruct Hx as [->|Hx].
  - exists b. split; [now left|exact H].
  - destruct (IH Hx) as (y & Hy & HR). exists y. split; [now right|exact HR].
Qed.
Lemma Forall2_In_r {A B} (R : A -> B -> Prop) l m y : Forall2 R l m -> In y m -> exists x, In x l /\ R x y.
Proof.
  induction 1 as [|a b l m H HF IH]; intro Hy; [destruct Hy|]. destruct Hy as [->|Hy].
  - exists a. split; [now left|exact H].
  - destruct (IH Hy) as (x & Hx & HR). exists x. split; [now right|exact HR].
Qed.

Lemma sent_pointers_all c : cfg_ok c -> sent_pointers (g_hab c) (g_psize c) (g_items c) = all_pointers c.
Proof.
  intro Hc. unfold sent_pointers, all_pointers. f_equal.
  destruct (g_null c) eqn:E.
  - destruct (co_null c Hc E) as [_ H]. destruct (_ <? _) eqn:E2; [reflexivity|lia].
  - pose proof (co_real c Hc E) as H. destruct (_ <? _) eqn:E2; [lia|reflexivity].
Qed.

Lemma sent_pointers_facts hab items L q :
  flavour_ok hab = true -> Forall (item_ok hab) items -> zlen (heap_payload hab items) <= L -> L < 2 ^ hab ->
  Forall (fun it => 4 < item_id it) items -> In q (sent_pointers hab L items) ->
  word_ok q /\ kept hab q = true /\ (is_immediate q = false -> get_address hab q <= L).
Proof.
  intros Hf Hok HP HL Hid Hq. unfold sent_pointers in Hq. apply in_app_or in Hq as [Hq|Hq].
  - apply heap_pointers_In in Hq as (A & it & B & E & Eq). rewrite Z.add_0_l in Eq.
    pose proof (item_ptr_facts hab items L A it B Hf Hok HP HL E) as HF0. cbv zeta in HF0. rewrite <- Eq in HF0.
    destruct HF0 as (F1 & F2 & F3 & F4 & F5). split; [exact F1|].
    assert (Hin : In it items) by (rewrite E; apply in_or_app; right; now left).
    rewrite Forall_forall in Hid. specialize (Hid it Hin). cbn in Hid.
    split; [unfold kept; rewrite F3; lia|]. intro Hi. rewrite Hi in F2. destruct (addressed hab it); [lia|discriminate].
  - destruct (_ <? _) eqn:EP; [|destruct Hq]. destruct Hq as [<-|[]].
    pose proof (zlen_nonneg (heap_payload hab items)).
    destruct (C01_address_round_trip hab NULL_ID (zlen (heap_payload hab items)) Hf) as (_ & H1 & H2 & H3 & H4).
    { split; [apply flavour_small_id; [exact Hf|unfold NULL_ID; lia]|lia]. }
    split; [exact H1|]. split; [unfold kept; rewrite H3; reflexivity|]. intros _. lia.
Qed.

(** C07.  Preconditions: those of the generator, fields that fit the flavour,
    item ids above those reserved for packet specials, no padding inside the
    user payload (see C08) and no empty addressed item (see
    [C07_empty_item_refuted]). *)
Theorem C07_end_to_end_partial : forall hab items rep cnt mps c pks ds,
  accepted hab items rep cnt mps c -> packets_of c pks -> count_fits c -> no_interleave c ->
  0 <= cnt < 2 ^ hab -> g_psize c < 2 ^ hab ->
  Forall (fun it => 4 < item_id it /\ (addressed hab it = true -> item_data it <> [])) items ->
  (* the network delivers [ds]: packets of the heap in any order, with any
     repetitions and losses *)
  ds <> [] -> (forall d, In d ds -> exists pk, In pk pks /\ d = packet_bytes pk) ->
  exists rps h,
    map decode_rpkt ds = map Some rps /\
    (* exactly the first copy of each packet is added *)
    reaches (hd (ex_rp []) rps) true rps h (first_time bytes_eqb [] ds) /\
    (* complete when and only when every packet has arrived *)
    (is_complete h = true <-> forall pk, In pk pks -> In (packet_bytes pk) ds) /\
    (* then the frozen heap has the sent payload and the sent items *)
    (is_complete h = true ->
     exists f, freeze h = Some f /\ fr_cnt f = cnt /\ fr_hab f = hab /\
       slice (fr_payload f) 0 (zlen (heap_payload hab items)) = map Some (heap_payload hab items) /\
       forall id v,
         (exists it, In it (fr_items f) /\ ri_id it = id /\ ritem_value f it = Some v) <->
         (exists it, In it items /\ item_id it = id /\ received_value hab it = v)).
Proof.
  intros hab items rep cnt mps c pks ds HA HPk Hcf Hni Hcnt HL Hit Hne Hds.
  pose proof HA as (Hf & Hok & _ & _).
  destruct (accepted_run _ _ _ _ _ _ HA) as (Hc & Eh & Ei & Er & Ecn & Hm & pks' & infos & HP & R).
  rewrite (packets_of_unique _ _ _ HP HPk) in *. clear HP pks'. subst hab items rep cnt.
  set (hab := g_hab c) in *. set (items := g_items c) in *. set (L := g_psize c) in *.
  pose proof (run_wire c pks infos Hc R Hcf) as HW.
  pose proof (run_count c _ pks infos Hc eq_refl R Hcf) as HCt.
  pose proof (ro_tiles _ _ _ _ R) as HT. change (s_poff gen_init) with 0 in HT.
  pose proof (tiles_bounds _ _ _ HT) as [HL0 HB]. rewrite Forall_forall in HB.
  pose proof (run_no_interleave c pks infos Hc R (no_interleave_mode c Hc Hni)) as HPay. rewrite Forall_forall in HPay.
  assert (HPL : zlen (heap_payload hab items) <= L).
  { pose proof (padded_length c Hc) as HPd. unfold padded in HPd. rewrite zlen_app in HPd. fold hab items L in HPd.
    pose proof (zlen_nonneg (repeat 0 (Z.to_nat (L - zlen (heap_payload hab items))))). lia. }
  assert (Hids : Forall (fun it => 4 < item_id it) items) by (eapply Forall_impl; [|exact Hit]; tauto).
  assert (HPos : forall i, In i infos -> 0 < zlen (pi_payload i)).
  { pose proof (ro_sized _ _ _ _ R) as HS. clear - HS. intros i Hi.
    destruct (Forall2_In_r _ _ _ _ HS Hi) as (pk & _ & Hz). exact (pz_payload _ _ _ Hz). }
  (* pointers over all packets *)
  assert (HPtr : forall q, (exists i, In i infos /\ In q (pi_ptrs i)) <-> In q (sent_pointers hab L items)).
  { intro q. unfold hab, L, items. rewrite (sent_pointers_all c Hc). destruct (g_repeat c) eqn:ER.
    - pose proof (ro_repeat _ _ _ _ R ER) as HR. rewrite Forall_forall in HR. split.
      + intros (i & Hi & Hq). now rewrite (HR i Hi) in Hq.
      + intro Hq. destruct infos as [|i infos].
        * exfalso. cbn [tiles] in HT. fold L in HT. pose proof (co_psize c Hc) as HZ.
          assert (0 <= zlen (g_items c) / g_m c) by (apply Z.div_pos; [apply zlen_nonneg|pose proof (co_m c Hc); lia]).
          fold L in HZ. lia.
        * exists i. split; [now left|]. now rewrite (HR i (or_introl eq_refl)).
    - pose proof (ro_ptrs _ _ _ _ R ER) as HR. change (Z.to_nat (s_nip gen_init)) with 0%nat in HR. cbn [skipn] in HR.
      rewrite <- HR. rewrite in_concat. split.
      + intros (i & Hi & Hq). exists (pi_ptrs i). split; [now apply in_map|exact Hq].
      + intros (l & Hl & Hq). apply in_map_iff in Hl as (i & <- & Hi). exists i. split; assumption. }
  (* payload bytes *)
  assert (HBy : forall it, In it items -> bytes_ok (item_data it)).
  { intros it Hin. rewrite Forall_forall in Hok. specialize (Hok it Hin). destruct it; cbn in *; [constructor|tauto]. }
  assert (HWB : bytes_ok (padded c)).
  { unfold padded. fold hab items. apply bytes_ok_app. split.
    - apply Forall_forall. intros b Hb. unfold heap_payload in Hb. apply in_flat_map in Hb as (it & Hi & Hb).
      apply filter_In in Hi as [Hi _]. specialize (HBy it Hi). unfold bytes_ok in HBy. rewrite Forall_forall in HBy. now apply HBy.
    - apply Forall_forall. intros b Hb. apply repeat_spec in Hb. subst b. unfold byte_ok. lia. }
  (* decoding *)
  assert (HDec : forall i, In i infos ->
    let d := wire_packet hab 0 (special_ptrs hab (g_cnt c) L (pi_off i) (zlen (pi_payload i)) ++ pi_ptrs i) (pi_payload i) in
    decode_rpkt d = Some (rpkt_info hab (g_cnt c) L i) /\ decoded (rpkt_info hab (g_cnt c) L i)).
  { intros i Hi. specialize (HB i Hi). rewrite Forall_forall in HCt. specialize (HCt i Hi). cbn in HCt.
    assert (HQ : forall q, In q (pi_ptrs i) -> word_ok q /\ kept hab q = true /\ (is_immediate q = false -> get_address hab q <= L)).
    { intros q Hq. apply (sent_pointers_facts hab items L q Hf Hok HPL HL Hids). apply HPtr. eauto. }
    apply wire_decodes; try assumption; try (unfold L in *; lia).
    - apply Forall_forall. intros q Hq. now apply HQ.
    - apply Forall_forall. intros q Hq. now apply HQ.
    - rewrite (HPay i Hi). now apply bytes_ok_slice. }
  (* the family *)
  set (mk := rpkt_info hab (g_cnt c) L) in *.
  assert (F : family hab L (padded c) (map mk infos)).
  { constructor; try (apply Forall_forall; intros p Hp; apply in_map_iff in Hp as (i & <- & Hi)).
    - now apply HDec.
    - reflexivity.
    - reflexivity.
    - cbn [mk rpkt_info rp_plen]. now apply HPos.
    - unfold mk, rpkt_info. cbn [rp_payload rp_off rp_plen]. now apply HPay.
    - intros p q Hp Hq (x & Hx & Hy). apply in_map_iff in Hp as (i & <- & Hi). apply in_map_iff in Hq as (j & <- & Hj).
      f_equal. unfold carries, mk, rpkt_info in Hx, Hy. cbn [rp_off rp_plen] in Hx, Hy. exact (tiles_inj _ _ _ i j x HT Hi Hj Hx Hy).
    - intros x Hx. destruct (tiles_cover _ _ _ x HT Hx) as (i & Hi & Hxi). exists (mk i). split; [now apply in_map|exact Hxi].
    - exact (padded_length c Hc).
    - intros p q Hp Hq Hi. apply in_map_iff in Hp as (i & <- & Hin). cbn [mk rpkt_info rp_ptrs] in Hq.
      apply (sent_pointers_facts hab items L q Hf Hok HPL HL Hids); [|exact Hi]. apply HPtr. eauto. }
  (* what was delivered *)
  set (dec := fun d => match decode_rpkt d with Some r => r | None => ex_rp [] end).
  assert (HDs : forall d, In d ds -> exists i, In i infos /\
    d = wire_packet hab 0 (special_ptrs hab (g_cnt c) L (pi_off i) (zlen (pi_payload i)) ++ pi_ptrs i) (pi_payload i) /\
    decode_rpkt d = Some (dec d) /\ dec d = mk i).
  { intros d Hd. destruct (Hds d Hd) as (pk & Hpk & ->). destruct (Forall2_In_l _ _ _ _ HW Hpk) as (i & Hi & E).
    exists i. split; [exact Hi|]. split; [exact E|]. destruct (HDec i Hi) as [HD1 _]. fold hab L in E. rewrite <- E in HD1.
    unfold dec. rewrite HD1. auto. }
  assert (HinF : forall p, In p (map dec ds) -> In p (map mk infos)).
  { intros p Hp. apply in_map_iff in Hp as (d & <- & Hd). destruct (HDs d Hd) as (i & Hi & _ & _ & ->). now apply in_map. }
  assert (Hfam_off : forall p q, In p (map mk infos) -> In q (map mk infos) -> ((rp_off p =? rp_off q) = true <-> p = q)).
  { intros p q Hp Hq. split; [|intros ->; apply Z.eqb_refl]. intro E. apply (fm_inj _ _ _ _ F p q Hp Hq).
    exists (rp_off p). pose proof (fm_pos _ _ _ _ F) as HPos'. rewrite Forall_forall in HPos'.
    pose proof (HPos' p Hp) as P1. pose proof (HPos' q Hq) as P2. cbn in P1, P2. unfold carries. lia. }
  set (rps := map dec ds). set (p0 := hd (ex_rp []) rps).
  assert (Hp0 : rp_hab p0 = hab).
  { unfold p0, rps. destruct ds as [|d ds']; [contradiction|]. cbn [map hd].
    destruct (HDs d (or_introl eq_refl)) as (i & _ & _ & _ & ->). reflexivity. }
  destruct (family_delivery F Z.eqb rp_off p0 rps Hfam_off Hp0 HinF) as (h & HR & HAd).
  assert (EFT : first_time Z.eqb [] (map rp_off rps) = first_time bytes_eqb [] ds).
  { unfold rps. rewrite map_map. symmetry. apply (first_time_map bytes_eqb Z.eqb (fun d => rp_off (dec d)) ds []).
    intros x y Hx Hy. rewrite app_nil_r in Hx, Hy.
    destruct (HDs x Hx) as (i & Hi & Ex & _ & Dx). destruct (HDs y Hy) as (j & Hj & Ey & _ & Dy).
    apply eq_true_iff_eq. rewrite bytes_eqb_eq. split.
    - intros ->. apply Z.eqb_refl.
    - intro E. apply Hfam_off in E.
      + rewrite Dx, Dy in E. rewrite Ex, Ey.
        assert (E1 : pi_off i = pi_off j) by exact (f_equal rp_off E).
        assert (E2 : pi_ptrs i = pi_ptrs j) by exact (f_equal rp_ptrs E).
        assert (E3 : pi_payload i = pi_payload j) by exact (f_equal rp_payload E).
        now rewrite E1, E2, E3.
      + apply HinF. now apply in_map.
      + apply HinF. now apply in_map. }
  rewrite EFT in HR, HAd.
  assert (Hrne : rps <> []) by (unfold rps; destruct ds; [contradiction|discriminate]).
  destruct (family_complete F p0 rps _ h Hp0 Hrne HinF HR HAd) as (HC & HCm & HQ).
  assert (HAll : (forall p, In p (map mk infos) -> In p rps) <-> forall pk, In pk pks -> In (packet_bytes pk) ds).
  { split.
    - intros H pk Hpk. destruct (Forall2_In_l _ _ _ _ HW Hpk) as (i & Hi & E). fold hab L in E.
      specialize (H (mk i) (in_map _ _ _ Hi)). unfold rps in H. apply in_map_iff in H as (d & Ed & Hd).
      destruct (HDs d Hd) as (j & Hj & Ej & _ & Dj). rewrite E.
      rewrite Dj in Ed.
      assert (E1 : pi_off j = pi_off i) by exact (f_equal rp_off Ed).
      assert (E2 : pi_ptrs j = pi_ptrs i) by exact (f_equal rp_ptrs Ed).
      assert (E3 : pi_payload j = pi_payload i) by exact (f_equal rp_payload Ed).
      rewrite <- E1, <- E2, <- E3, <- Ej. exact Hd.
    - intros H p Hp. apply in_map_iff in Hp as (i & <- & Hi).
      destruct (Forall2_In_r _ _ _ _ HW Hi) as (pk & Hpk & E). fold hab L in E.
      specialize (H pk Hpk). destruct (HDec i Hi) as [HD1 _]. rewrite <- E in HD1.
      unfold rps. apply in_map_iff. exists (packet_bytes pk). split; [|exact H]. unfold dec. now rewrite HD1. }
  exists rps, h. split.
  { unfold rps. rewrite map_map. apply map_ext_in. intros d Hd. now destruct (HDs d Hd) as (i & _ & _ & -> & _). }
  split; [exact HR|]. split; [rewrite HC; exact HAll|].
  intro Hcomp. destruct (HCm Hcomp) as [HLm HMem].
  pose proof (fm_dec _ _ _ _ F) as HFD. rewrite Forall_forall in HFD.
  assert (HDd : Forall decoded rps) by (apply Forall_forall; intros p Hp; apply HFD; now apply HinF).
  assert (Hp0d : decoded p0).
  { apply HFD. apply HinF. unfold p0, rps. clear - Hne. destruct ds as [|d ds']; [contradiction|]. now left. }
  assert (Hcont : is_contiguous h = true).
  { unfold is_complete in Hcomp. apply andb_true_iff in Hcomp as [_ H]. exact H. }
  destruct (C14_frozen_items p0 true rps h _ Hp0d HDd HR Hcont) as (f & HFr & HV & HAddr & _ & HImm).
  cbv zeta in HAddr, HImm. rewrite Hp0 in HAddr, HImm. rewrite HLm in HAddr.
  (* the receiver's pointers *)
  assert (HPs : forall q, In q (lh_pointers h) <-> In q (sent_pointers hab L items)).
  { intro q. rewrite HQ, <- HPtr. split.
    - intros (p & Hp & Hq & _). apply HinF, in_map_iff in Hp as (i & <- & Hi). exists i. split; assumption.
    - intros (i & Hi & Hq). exists (mk i). split; [apply (proj1 HC Hcomp); now apply in_map|]. split; [exact Hq|].
      apply (sent_pointers_facts hab items L q Hf Hok HPL HL Hids). apply HPtr. eauto. }
  assert (HND : NoDup (lh_pointers h)) by (now destruct (C13_pointers_deduplicated_in_order _ _ _ _ _ HDd HR) as (_ & ? & _)).
  pose proof (sent_regions hab items L (lh_pointers h) Hf Hok HPL HL Hit HND HPs) as HReg.
  (* payload of the frozen heap *)
  assert (HFP : fr_payload f = lh_mem h /\ fr_cnt f = lh_cnt h /\ fr_hab f = lh_hab h).
  { destruct (reaches_inv _ _ _ _ _ HDd HR) as (_ & _ & Hhh).
    destruct (load_spec h true true) as (f' & HL' & H1 & H2 & H3 & _).
    { rewrite Hhh, Hp0. exact Hf. }
    unfold freeze in HFr. rewrite HL' in HFr. injection HFr as <-. auto. }
  destruct HFP as (HFP1 & HFP2 & HFP3).
  assert (HSl : forall a n, 0 <= a -> 0 <= n -> a + n <= L ->
     slice (lh_mem h) a n = map Some (slice (padded c) a n)).
  { intros a n Ha Hn Han. pose proof (slice_slice (lh_mem h) 0 L a n ltac:(lia) Ha Hn Han) as HSS.
    rewrite Z.add_0_l in HSS. rewrite <- HSS.
    rewrite HMem.
    unfold slice. rewrite skipn_map, firstn_map. reflexivity. }
  exists f. split; [exact HFr|].
  destruct (add_packets_inv true rps _ [] (heap_inv_new true p0) (decoded_all _ HDd)) as (h2 & bs2 & HE2 & _ & _ & HCn & HHb).
  unfold reaches in HR. rewrite HR in HE2. injection HE2 as <- <-.
  split. { rewrite HFP2, HCn. cbn [live_heap_new lh_cnt]. unfold p0, rps. destruct ds as [|d ds']; [contradiction|]. cbn [map hd].
           destruct (HDs d (or_introl eq_refl)) as (i & _ & _ & _ & ->). reflexivity. }
  split. { rewrite HFP3, HHb. exact Hp0. }
  split. { pose proof (zlen_nonneg (heap_payload hab items)). rewrite HFP1, HSl by lia. unfold padded. fold hab items.
           rewrite slice_app_l by lia. now rewrite slice_full. }
  assert (HVs : forall A it B, items = A ++ it :: B -> addressed hab it = true ->
    slice (lh_mem h) (zlen (heap_payload hab A)) (zlen (item_data it)) = map Some (item_data it)).
  { intros A it B E EA. pose proof (zlen_nonneg (heap_payload hab A)). pose proof (zlen_nonneg (item_data it)).
    pose proof (zlen_nonneg (heap_payload hab B)).
    assert (ES : heap_payload hab items = heap_payload hab A ++ item_data it ++ heap_payload hab B)
      by (rewrite E, heap_payload_app, heap_payload_cons, EA; reflexivity).
    rewrite HSl; try lia.
    - f_equal. unfold padded. fold hab items. rewrite ES, <- !app_assoc. apply slice_app_exact.
    - rewrite ES, !zlen_app in HPL. lia. }
  assert (Hrcv : forall it, addressed hab it = true -> received_value hab it = item_data it).
  { intros it EA. destruct it as [id v|id allow d]; cbn [addressed received_value item_data] in *; [discriminate|].
    apply negb_true_iff in EA. now rewrite EA. }
  intros id v. split.
  - intros (it & Hin & Hid & Hv). destruct (ri_imm it) eqn:Him.
    + destruct (proj1 (HImm id v)) as (p & Hp & Hp1 & Hp2 & Hp3 & ->); [eauto|].
      apply HPs in Hp. unfold sent_pointers in Hp. apply in_app_or in Hp as [Hp|Hp].
      * apply heap_pointers_In in Hp as (A & x & B & E & Eq). rewrite Z.add_0_l in Eq.
        pose proof (item_ptr_facts hab items L A x B Hf Hok HPL HL E) as HF0. cbv zeta in HF0. rewrite <- Eq in HF0.
        destruct HF0 as (F1 & F2 & F3 & F4 & F5). rewrite Hp1 in F2. symmetry in F2. apply negb_true_iff in F2. rewrite F2 in F5.
        exists x. assert (Hx : In x items) by (rewrite E; apply in_or_app; right; now left).
        split; [exact Hx|]. split; [congruence|]. rewrite (received_immediate hab items x Hf Hok Hx F2). now rewrite F5.
      * exfalso. destruct (_ <? _) eqn:EP; [|destruct Hp]. destruct Hp as [<-|[]].
        pose proof (zlen_nonneg (heap_payload hab items)).
        destruct (C01_address_round_trip hab NULL_ID (zlen (heap_payload hab items)) Hf) as (_ & _ & H2 & _); [|congruence].
        split; [apply flavour_small_id; [exact Hf|unfold NULL_ID; lia]|lia].
    + destruct (proj1 (HAddr id (ri_start it) v)) as (p & b & HRg & Hp2 & Hp3 & HS); [exists it; repeat split; assumption|].
      destruct (proj1 (HReg id (ri_start it) b)) as (A & x & B & E & EA & Ex & Ea & Eb); [eauto|].
      exists x. split; [rewrite E; apply in_or_app; right; now left|]. split; [exact Ex|].
      rewrite (Hrcv x EA). pose proof (HVs A x B E EA) as HVx. rewrite Eb, Ea in HS.
      replace (zlen (heap_payload hab A) + zlen (item_data x) - zlen (heap_payload hab A)) with (zlen (item_data x)) in HS by lia.
      rewrite HVx in HS. clear - HS. revert v HS. induction (item_data x) as [|y l IH]; intros [|z v] H; try discriminate; [reflexivity|].
      cbn [map] in H. injection H as -> H. f_equal. now apply IH.
  - intros (it & Hin & Hid & Hv). pose proof Hin as Hsp. apply in_split in Hsp as (A & B & E).
    rewrite Forall_forall in Hids. specialize (Hids it Hin). cbn in Hids.
    destruct (addressed hab it) eqn:EA.
    + destruct (proj2 (HReg id (zlen (heap_payload hab A)) (zlen (heap_payload hab A) + zlen (item_data it)))) as (p & HRg & Hp2 & Hp3).
      { exists A, it, B. repeat split; assumption. }
      destruct (proj2 (HAddr id (zlen (heap_payload hab A)) v)) as (x & Hx & _ & Hx2 & _ & Hx3).
      { exists p. eexists. split; [exact HRg|]. split; [exact Hp2|]. split; [exact Hp3|].
        rewrite Hrcv in Hv by exact EA. subst v.
        replace (zlen (heap_payload hab A) + zlen (item_data it) - zlen (heap_payload hab A)) with (zlen (item_data it)) by lia.
        exact (HVs A it B E EA). }
      exists x. repeat split; assumption.
    + rewrite (received_immediate hab items it Hf Hok Hin EA) in Hv.
      pose proof (item_ptr_facts hab items L A it B Hf Hok HPL HL E) as HF0. cbv zeta in HF0. rewrite EA in HF0.
      destruct HF0 as (F1 & F2 & F3 & F4 & F5). cbn [negb] in F2.
      destruct (proj2 (HImm id v)) as (x & Hx & _ & Hx2 & Hx3).
      { exists (encode_immediate hab (item_id it) (imm_value it)). split.
        - apply HPs. unfold sent_pointers. apply in_or_app. left. apply heap_pointers_In. exists A, it, B. split; [exact E|]. now rewrite EA.
        - split; [exact F2|]. split; [congruence|]. split; [lia|]. rewrite F5. now symmetry. }
      exists x. repeat split; assumption.
Qed.
Print Assumptions C07_end_to_end_partial.

(** Concrete runs: packets of a heap, delivered in the order [order]. *)
Definition run_pkts (hab : Z) (items : list item) (mps : Z) : list packet :=
  match gen_ctor hab items false 9 mps with
  | None => []
  | Some c => match generate c 100 gen_init with Some (pks, _) => pks | None => [] end
  end.
Definition run_rps (ds : list (list Z)) : list rpkt :=
  map (fun d => match decode_rpkt d with Some r => r | None => ex_rp [] end) ds.
Definition run_heap (ds : list (list Z)) : option (live_heap * list bool) :=
  add_packets (live_heap_new (hd (ex_rp []) (run_rps ds))) true (run_rps ds).
Definition run_items (ds : list (list Z)) : option (list (Z * option (list Z))) :=
  match run_heap ds with
  | None => None
  | Some (h, _) =>
      match freeze h with
      | None => None
      | Some f => Some (map (fun it => (ri_id it, ritem_value f it)) (fr_items f))
      end
  end.

(** Non-vacuity: the heap [ex_items] of SendProps (two packets), delivered
    last packet first, with a repetition. *)
Definition ex_ds : list (list Z) :=
  let pks := run_pkts 48 ex_items 72 in map packet_bytes (rev pks ++ pks).
Example C07_ex : exists c,
  accepted 48 ex_items false 9 72 c /\ packets_of c (run_pkts 48 ex_items 72) /\ count_fits c /\ no_interleave c /\
  g_psize c < 2 ^ 48 /\
  Forall (fun it => 4 < item_id it /\ (addressed 48 it = true -> item_data it <> [])) ex_items /\
  length ex_ds = 4%nat /\ map decode_rpkt ex_ds = map Some (run_rps ex_ds) /\
  option_map (fun r => (is_complete (fst r), snd r)) (run_heap ex_ds) = Some (true, [true; true; false; false]) /\
  run_items ex_ds = Some
    [(4098, Some (map Z.of_nat (seq 10 20))); (4099, Some [5; 6; 7; 8; 9]);
     (4096, Some [0; 0; 0; 0; 0; 77]); (4097, Some [0; 0; 0; 1; 2; 3])].
Proof.
  eexists. split.
  - split; [reflexivity|]. split.
    + unfold ex_items. repeat (apply Forall_cons; [cbn; split; [lia|]; try lia; unfold bytes_ok;
        repeat (apply Forall_cons; [unfold byte_ok; lia|]); apply Forall_nil|]). apply Forall_nil.
    + split; [lia|]. vm_compute. reflexivity.
  - split; [exists 100%nat; eexists; split; vm_compute; reflexivity|].
    split; [vm_compute; reflexivity|]. split; [left; vm_compute; reflexivity|].
    split; [vm_compute; reflexivity|]. split.
    { unfold ex_items. repeat (apply Forall_cons; [split; [vm_compute; reflexivity|vm_compute; discriminate]|]). apply Forall_nil. }
    split; [vm_compute; reflexivity|]. split; [vm_compute; reflexivity|]. split; vm_compute; reflexivity.
Qed.

(** The code violates C07 when an addressed item is empty and the packets are
    reordered: item 5000 (sent empty) receives the 24 bytes that belong to item
    5001, and item 5001 disappears. *)
Definition ex_empty_items : list item := [Buffer 5000 false []; Buffer 5001 false (map Z.of_nat (seq 1 24))].
Definition ex_empty_ds : list (list Z) := map packet_bytes (rev (run_pkts 48 ex_empty_items 56)).
Lemma ex_empty_run : exists h bs f,
  reaches (hd (ex_rp []) (run_rps ex_empty_ds)) true (run_rps ex_empty_ds) h bs /\ is_complete h = true /\ freeze h = Some f /\
  map (fun it => (ri_id it, ritem_value f it)) (fr_items f) = [(5000, Some (map Z.of_nat (seq 1 24)))].
Proof.
  do 3 eexists. split; [vm_compute; reflexivity|]. split; [vm_compute; reflexivity|]. split; vm_compute; reflexivity.
Qed.
Lemma ex_empty_decode : map decode_rpkt (map packet_bytes (rev (run_pkts 48 ex_empty_items 56))) = map Some (run_rps ex_empty_ds).
Proof. vm_compute. reflexivity. Qed.
Theorem C07_empty_item_refuted : exists c pks rps h bs f,
  accepted 48 ex_empty_items false 9 56 c /\ packets_of c pks /\ count_fits c /\ no_interleave c /\
  Forall (fun it => 4 < item_id it) ex_empty_items /\
  map decode_rpkt (map packet_bytes (rev pks)) = map Some rps /\
  reaches (hd (ex_rp []) rps) true rps h bs /\ is_complete h = true /\ freeze h = Some f /\
  map (fun it => (item_id it, received_value 48 it)) ex_empty_items = [(5000, []); (5001, map Z.of_nat (seq 1 24))] /\
  map (fun it => (ri_id it, ritem_value f it)) (fr_items f) = [(5000, Some (map Z.of_nat (seq 1 24)))].
Proof.
  destruct ex_empty_run as (h & bs & f & H1 & H2 & H3 & H4).
  eexists. exists (run_pkts 48 ex_empty_items 56), (run_rps ex_empty_ds), h, bs, f. split.
  - split; [reflexivity|]. split.
    + unfold ex_empty_items. repeat (apply Forall_cons; [cbn; split; [lia|]; unfold bytes_ok;
        repeat (apply Forall_cons; [unfold byte_ok; lia|]); apply Forall_nil|]). apply Forall_nil.
    + split; [lia|]. vm_compute. reflexivity.
  - split; [exists 100%nat; eexists; split; vm_compute; reflexivity|].
    split; [vm_compute; reflexivity|]. split; [left; vm_compute; reflexivity|].
    split. { repeat (apply Forall_cons; [vm_compute; reflexivity|]). apply Forall_nil. }
    split; [exact ex_empty_decode|]. split; [exact H1|]. split; [exact H2|]. split; [exact H3|]. split; [vm_compute; reflexivity|exact H4].
Qed.
Print Assumptions C07_empty_item_refuted.
