(** C10-C13, C50: reassembly of one heap from arbitrary decoded packets. *)
From Coq Require Import ZArith List Lia Bool.
From Coq Require Import ZifyBool ZifyNat.
From Verif Require Import Base CodecModel CodecProofs PacketSpec RecvPacketModel RecvPacketProofs
  LiveHeapModel LiveHeapSpec LiveHeapProofs.
Import ListNotations.
Open Scope Z_scope.

Lemma decoded_all pkts : Forall decoded pkts -> Forall rpkt_ok pkts.
Proof. apply Forall_impl. exact decoded_ok. Qed.

(** [h] is a heap created for packet [p0] after being offered [pkts] (in this
    order; [bs] tells which ones add_packet accepted). *)
Definition reaches (p0 : rpkt) (ooo : bool) (pkts : list rpkt) (h : live_heap) (bs : list bool) : Prop :=
  add_packets (live_heap_new p0) ooo pkts = Some (h, bs).

Lemma reaches_inv p0 ooo pkts h bs :
  Forall decoded pkts -> reaches p0 ooo pkts h bs ->
  heap_inv ooo h (added pkts bs) /\ length bs = length pkts /\ lh_hab h = rp_hab p0.
Proof.
  intros HF HR. destruct (add_packets_inv ooo pkts _ [] (heap_inv_new ooo p0) (decoded_all _ HF))
    as (h' & bs' & HE & HL & HI & _ & Hh).
  unfold reaches in HR. rewrite HR in HE. injection HE as <- <-.
  split; [exact HI|]. now split.
Qed.

(** C10: no history of decoded packets makes live_heap access memory outside
    its allocations (the model's [None]); every added payload lies inside the
    current allocation and is still there, unchanged. *)
Theorem C10_reassembly_memory_safe : forall p0 ooo pkts,
  Forall decoded pkts ->
  exists h bs, reaches p0 ooo pkts h bs /\
    forall p, In p (added pkts bs) ->
      0 <= rp_off p /\ rp_off p + rp_plen p <= zlen (lh_mem h) /\
      slice (lh_mem h) (rp_off p) (rp_plen p) = map Some (rp_payload p).
Proof.
  intros p0 ooo pkts HF.
  destruct (add_packets_inv ooo pkts _ [] (heap_inv_new ooo p0) (decoded_all _ HF))
    as (h & bs & HE & HL & HI & _). cbn [app] in HI.
  exists h, bs. split; [exact HE|]. intros p Hp.
  pose proof (hi_pkts _ _ _ HI) as HP. rewrite Forall_forall in HP.
  pose proof (hi_fit _ _ _ HI) as HFi. rewrite Forall_forall in HFi.
  split; [exact (ro_off p (HP p Hp))|]. split; [rewrite (hi_res _ _ _ HI); now apply HFi|].
  exact (inv_slice _ _ _ _ HI Hp).
Qed.

(** C11 (a): bookkeeping in out-of-order mode. *)
Theorem C11_ranges_exact : forall p0 pkts h bs,
  Forall decoded pkts -> reaches p0 true pkts h bs ->
  separated (lh_ranges h) /\
  (forall x, in_ranges (lh_ranges h) x <-> exists p, In p (added pkts bs) /\ carries p x) /\
  ForallOrdPairs (fun p q => ~ overlap p q) (added pkts bs) /\
  lh_recv h = total_payload (added pkts bs).
Proof.
  intros p0 pkts h bs HF HR. destruct (reaches_inv _ _ _ _ _ HF HR) as (HI & _).
  destruct (hi_cover _ _ _ HI) as (C1 & C2 & C3).
  split; [exact C1|]. split; [exact C3|]. split; [exact (hi_disj _ _ _ HI)|exact (hi_recv _ _ _ HI)].
Qed.

(** C11 (b): bookkeeping when out-of-order packets are not allowed. *)
Theorem C11_in_order_exact : forall p0 pkts h bs,
  Forall decoded pkts -> reaches p0 false pkts h bs ->
  (forall x, 0 <= x < lh_recv h <-> exists p, In p (added pkts bs) /\ carries p x) /\
  ForallOrdPairs (fun p q => ~ overlap p q) (added pkts bs) /\
  lh_recv h = total_payload (added pkts bs).
Proof.
  intros p0 pkts h bs HF HR. destruct (reaches_inv _ _ _ _ _ HF HR) as (HI & _).
  destruct (hi_cover _ _ _ HI) as (C1 & C2).
  split; [exact C2|]. split; [exact (hi_disj _ _ _ HI)|exact (hi_recv _ _ _ HI)].
Qed.

Lemma cover_total m : forall lo hi,
  separated m -> (forall x, lo <= x < hi -> in_ranges m x) -> lo <= hi -> hi - lo <= total_ranges m.
Proof.
  induction m as [|r m IH]; intros lo hi Hs HX Hl.
  - destruct (Z.eq_dec lo hi); [cbn [total_ranges fold_right]; lia|].
    destruct (in_ranges_nil lo (HX lo ltac:(lia))).
  - pose proof (total_ranges_nonneg _ Hs) as Hn. destruct Hs as (H1 & H2 & H3).
    change (total_ranges (r :: m)) with (snd r - fst r + total_ranges m) in *.
    pose proof (total_ranges_nonneg _ H3) as Hn'.
    destruct (Z.eq_dec lo hi) as [->|Hne]; [lia|].
    assert (Hf : fst r <= lo).
    { specialize (HX lo ltac:(lia)). apply in_ranges_cons in HX as [HX|(q & Hq & Hx)]; [lia|].
      specialize (H2 q Hq). lia. }
    set (lo' := Z.max lo (snd r)).
    destruct (Z.le_gt_cases lo' hi) as [Hle|Hgt].
    + specialize (IH lo' hi H3). assert (hi - lo' <= total_ranges m); [|lia].
      apply IH; [|exact Hle]. intros x Hx. specialize (HX x ltac:(lia)).
      apply in_ranges_cons in HX as [HX|HX]; [lia|exact HX].
    + lia.
Qed.

(** C11 (c): is_complete and is_contiguous mean what they say. *)
Theorem C11_complete_iff : forall p0 ooo pkts h bs,
  Forall decoded pkts -> reaches p0 ooo pkts h bs ->
  (is_complete h = true <->
   exists L, (exists p, In p (added pkts bs) /\ rp_hlen p = L) /\ 0 <= L /\
     (forall x, 0 <= x < L -> exists p, In p (added pkts bs) /\ carries p x) /\
     (forall p e, In p (added pkts bs) -> In e (pkt_extent p) -> e <= L)).
Proof.
  intros p0 ooo pkts h bs HF HR. destruct (reaches_inv _ _ _ _ _ HF HR) as (HI & _).
  set (acc := added pkts bs) in *. clearbody acc.
  destruct (received_bounds _ _ _ HI) as [B1 B2]. unfold is_complete. rewrite andb_true_iff, !Z.eqb_eq. split.
  - intros [E1 E2]. exists (lh_hlen h).
    destruct (hi_hlen _ _ _ HI) as [[H1 _]|(H1 & H2 & H3)].
    + exfalso. pose proof (hi_min _ _ _ HI) as Hm. pose proof (zmax0_nonneg (flat_map pkt_extent acc)). lia.
    + split; [exact H2|]. split; [exact H1|]. split.
      * intros x Hx. apply B2; [exact E2|lia].
      * intros p e Hp He. rewrite <- E1, E2, (hi_min _ _ _ HI). apply zmax0_ge, in_flat_map. eauto.
  - intros (L & (p & Hp & HpL) & HL & Hc & He).
    assert (EL : lh_hlen h = L).
    { destruct (hi_hlen _ _ _ HI) as [[H1 H2]|(H1 & H2 & H3)].
      - rewrite Forall_forall in H2. specialize (H2 p Hp). cbn in H2. lia.
      - rewrite Forall_forall in H3. specialize (H3 p Hp). cbn in H3. lia. }
    assert (Em : lh_min h = L).
    { apply Z.le_antisymm.
      - rewrite (hi_min _ _ _ HI). apply zmax0_le; [exact HL|]. intros e Hin.
        apply in_flat_map in Hin as (q & Hq & Hqe). eauto.
      - rewrite (hi_min _ _ _ HI). apply zmax0_ge, in_flat_map. exists p. split; [exact Hp|].
        unfold pkt_extent. rewrite HpL. destruct (0 <=? L) eqn:E; [now left|lia]. }
    assert (ER : lh_recv h = L); [|lia].
    apply Z.le_antisymm; [lia|].
    pose proof (hi_cover _ _ _ HI) as HC. unfold coverage in HC. destruct ooo.
    + destruct HC as (C1 & C2 & C3). rewrite <- C2.
      assert (L - 0 <= total_ranges (lh_ranges h)); [|lia].
      apply cover_total; [exact C1| |exact HL]. intros x Hx. apply C3. now apply Hc.
    + destruct HC as (C1 & C2). destruct (Z.eq_dec L 0) as [->|HL0].
      * rewrite (hi_recv _ _ _ HI). pose proof (hi_pkts _ _ _ HI) as HP. clear - HP.
        unfold total_payload. induction HP as [|q l Hq HP IH]; cbn [fold_right]; [lia|].
        pose proof (rp_plen_nonneg q Hq). lia.
      * pose proof (proj2 (C2 (L - 1)) (Hc (L - 1) ltac:(lia))). lia.
Qed.

(** C12 (a): a packet that shares a payload byte with an added one is rejected;
    rejection leaves the heap as it was (add_packets continues from the same
    heap). *)
Theorem C12_overlap_rejected : forall p0 ooo pkts h bs q p,
  Forall decoded pkts -> reaches p0 ooo pkts h bs ->
  decoded p -> In q (added pkts bs) -> overlap q p ->
  add_packet h p ooo = Rejected /\
  reaches p0 ooo (pkts ++ [p]) h (bs ++ [false]).
Proof.
  intros p0 ooo pkts h bs q p HF HR Hp Hq Ho. destruct (reaches_inv _ _ _ _ _ HF HR) as (HI & HL & _).
  assert (HRej : add_packet h p ooo = Rejected).
  { destruct (add_packet_step ooo h _ p HI (decoded_ok p Hp)) as [H|(h' & _ & HI' & _)]; [exact H|].
    exfalso. pose proof (hi_disj _ _ _ HI') as HD.
    apply in_split in Hq as (l1 & l2 & E). rewrite E in HD. clear - HD Ho.
    rewrite <- app_assoc in HD. induction l1 as [|y l1 IH]; cbn [app] in HD; inversion HD; subst.
    - rewrite Forall_forall in H1. apply (H1 p); [apply in_or_app; right; now left|exact Ho].
    - now apply IH. }
  split; [exact HRej|]. unfold reaches in *.
  revert HR. generalize (live_heap_new p0) as g. clear HL HF HI Hq. revert bs.
  induction pkts as [|r pkts IH]; intros bs g HR; cbn [add_packets app] in *.
  - injection HR as <- <-. rewrite HRej. reflexivity.
  - destruct (add_packet g r ooo) as [| |g1]; [discriminate| |];
      match type of HR with match ?x with _ => _ end = _ => destruct x as [[h' bs']|] eqn:E end; try discriminate;
      injection HR as <- <-; rewrite (IH _ _ E); reflexivity.
Qed.

(** C12 (b): every payload byte that has been received keeps the value given by
    the (unique) added packet that carried it, whatever follows. *)
Theorem C12_first_value_kept : forall p0 ooo pkts h bs p x,
  Forall decoded pkts -> reaches p0 ooo pkts h bs ->
  In p (added pkts bs) -> carries p x ->
  nth_error (lh_mem h) (Z.to_nat x) = Some (nth_error (rp_payload p) (Z.to_nat (x - rp_off p))) /\
  nth_error (rp_payload p) (Z.to_nat (x - rp_off p)) <> None /\
  forall q, In q (added pkts bs) -> carries q x -> q = p.
Proof.
  intros p0 ooo pkts h bs p x HF HR Hp Hx. destruct (reaches_inv _ _ _ _ _ HF HR) as (HI & _).
  pose proof (hi_pkts _ _ _ HI) as HP. rewrite Forall_forall in HP. specialize (HP p Hp).
  pose proof (ro_off p HP) as Ho. pose proof (ro_plen p HP) as Hl.
  unfold carries in Hx. split; [|split].
  - pose proof (hi_mem _ _ _ HI) as HM. rewrite Forall_forall in HM. specialize (HM p Hp (x - rp_off p) ltac:(lia)).
    unfold znth in HM. destruct (rp_off p + (x - rp_off p) <? 0) eqn:E1; [lia|].
    destruct (x - rp_off p <? 0) eqn:E2; [lia|]. replace (rp_off p + (x - rp_off p)) with x in HM by lia. exact HM.
  - apply nth_error_Some. unfold zlen in Hl. lia.
  - intros q Hq Hqx. pose proof (hi_disj _ _ _ HI) as HD.
    destruct (ForallOrdPairs_In HD q p Hq Hp) as [E|[E|E]]; [exact E| |]; exfalso; apply E; exists x; split; assumption.
Qed.

(** What it takes for packet [p] to fit the packets already added. *)
Definition consistent (hab : Z) (acc : list rpkt) (p : rpkt) : Prop :=
  rp_hab p = hab /\
  (0 <= rp_hlen p -> forall q, In q acc ->
     (rp_hlen q = -1 \/ rp_hlen q = rp_hlen p) /\ forall e, In e (pkt_extent q) -> e <= rp_hlen p).

(** C50 (partial: missing are histories containing an added packet without
    payload, for which the claim is false): a consistent packet carrying only
    new bytes is added. *)
Theorem C50_new_data_accepted_partial : forall p0 pkts h bs p,
  Forall decoded pkts -> reaches p0 true pkts h bs -> decoded p ->
  consistent (rp_hab p0) (added pkts bs) p ->
  (forall q, In q (added pkts bs) -> 0 < rp_plen q) ->
  0 < rp_plen p -> (forall q, In q (added pkts bs) -> ~ overlap q p) ->
  exists h', add_packet h p true = Added h'.
Proof.
  intros p0 pkts h bs p HF HR Hp (Hc1 & Hc2) Hne Hpl Hno.
  destruct (reaches_inv _ _ _ _ _ HF HR) as (HI & _ & Hh).
  assert (HNE : forall k, ~ In (k, k) (lh_ranges h)).
  { clear - HF HR Hne.
    assert (HG : forall pkts g acc bs h,
      heap_inv true g acc -> Forall rpkt_ok pkts -> add_packets g true pkts = Some (h, bs) ->
      (forall r, In r (lh_ranges g) -> fst r < snd r) ->
      (forall q, In q (added pkts bs) -> 0 < rp_plen q) ->
      forall r, In r (lh_ranges h) -> fst r < snd r).
    { clear. induction pkts as [|p pkts IH]; intros g acc bs h HI HF HA Hg Hne; cbn [add_packets] in HA.
      - injection HA as <- <-. exact Hg.
      - inversion HF as [|? ? Hp HF']; subst.
        destruct (add_packet_step true g acc p HI Hp) as [E|(g1 & E & HI1 & _)]; rewrite E in HA.
        + destruct (add_packets g true pkts) as [[h' bs']|] eqn:EA; [|discriminate]. injection HA as <- <-.
          eapply IH; eassumption.
        + destruct (add_packets g1 true pkts) as [[h' bs']|] eqn:EA; [|discriminate]. injection HA as <- <-.
          rewrite added_cons_true in Hne.
          eapply IH; [exact HI1|exact HF'|exact EA| |intros q Hq; apply Hne; now right].
          pose proof (Hne p (or_introl eq_refl)) as Hpl. clear IH EA Hne HF' HI1.
          unfold add_packet in E. destruct (inconsistent g p); [discriminate|].
          destruct (new_packet g p true) as [rs|] eqn:EN; [|discriminate].
          destruct (reserve_for g p) as [[[[a b] c] d]|]; [|discriminate].
          destruct (add_pointers _ _ _) as [s|]; [|discriminate].
          assert (lh_ranges g1 = rs) as ->.
          { destruct (0 <? rp_plen p); [destruct (mem_write _ _ _); [|discriminate]|]; injection E as <-; reflexivity. }
          clear E. unfold new_packet, add_payload_range in EN.
          pose proof (hi_cover _ _ _ HI) as (Hsep & _).
          destruct (upper_bound_spec (lh_ranges g) (rp_off p) [] Hsep) as (b0 & a0 & HE & Em & Hb & Ha).
          rewrite HE, app_nil_r in EN. rewrite Em in Hg.
          destruct (match a0 with [] => false | n :: _ => fst n <? rp_off p + rp_plen p end); [discriminate|].
          assert (HJ : forall r0, fst r0 < snd r0 -> forall r, In r (join_next r0 a0) -> fst r < snd r).
          { intros r0 Hr0 r Hr. unfold join_next in Hr. destruct a0 as [|n a1].
            - destruct Hr as [<-|[]]. exact Hr0.
            - assert (Hn : fst n < snd n) by (apply Hg, in_or_app; right; now left).
              destruct (fst n =? snd r0) eqn:E.
              + destruct Hr as [<-|Hr]; [cbn [fst snd]; lia|]. apply Hg, in_or_app. right. now right.
              + destruct Hr as [<-|Hr]; [exact Hr0|]. apply Hg, in_or_app. now right. }
          destruct (rev b0) as [|prev b'] eqn:EB.
          * injection EN as <-. apply HJ. cbn [fst snd]. lia.
          * assert (Hbb : b0 = rev b' ++ [prev]) by (rewrite <- (rev_involutive b0), EB; reflexivity).
            assert (Hpv : fst prev < snd prev)
              by (apply Hg, in_or_app; left; rewrite Hbb; apply in_or_app; right; now left).
            intros r Hr.
            destruct (snd prev <? rp_off p); [|destruct (snd prev =? rp_off p) eqn:E2; [|discriminate]];
              injection EN as <-; rewrite rev_append_rev in Hr; apply in_app_or in Hr as [Hr|Hr].
            -- apply Hg, in_or_app. left. rewrite Hbb. apply in_or_app. now left.
            -- destruct Hr as [<-|Hr]; [exact Hpv|]. revert Hr. apply HJ. cbn [fst snd]. lia.
            -- apply Hg, in_or_app. left. rewrite Hbb. apply in_or_app. now left.
            -- revert Hr. apply HJ. cbn [fst snd]. lia. }
    intros k Hk.
    pose proof (HG pkts (live_heap_new p0) [] bs h (heap_inv_new true p0) (decoded_all _ HF) HR
      (fun r Hr => match Hr with end) Hne (k, k) Hk) as HH. cbn [fst snd] in HH. lia. }
  destruct (add_packet_step true h _ p HI (decoded_ok p Hp)) as [E|(h' & E & _)]; [|eauto].
  exfalso. unfold add_packet in E.
  assert (EI : inconsistent h p = false).
  { unfold inconsistent. rewrite Hh, Hc1, Z.eqb_refl. cbn [negb]. rewrite orb_false_r.
    destruct (0 <=? rp_hlen p) eqn:E0; [|now rewrite andb_false_r].
    specialize (Hc2 ltac:(lia)). rewrite andb_true_r. apply orb_false_intro.
    - destruct (0 <=? lh_hlen h) eqn:E1; [|reflexivity]. cbn [andb].
      destruct (hi_hlen _ _ _ HI) as [[H1 _]|(_ & (q & Hq & Eq) & _)]; [lia|].
      destruct (Hc2 q Hq) as [H1 _]. rewrite negb_false_iff. lia.
    - cbn [andb]. apply Z.ltb_ge. rewrite (hi_min _ _ _ HI). apply zmax0_le; [lia|].
      intros e He. apply in_flat_map in He as (q & Hq & Hqe). exact (proj2 (Hc2 q Hq) e Hqe). }
  rewrite EI in E. destruct (new_packet h p true) as [rs|] eqn:EN.
  - destruct (reserve_for_spec _ _ _ _ HI (decoded_ok p Hp) EI) as (a & b & c & d & ER & _).
    rewrite ER in E. destruct (add_pointers _ _ _); [|discriminate].
    destruct (0 <? rp_plen p); [destruct (mem_write _ _ _); discriminate|discriminate].
  - unfold new_packet in EN. pose proof (hi_cover _ _ _ HI) as (C1 & _ & C3).
    assert (Hlt : rp_off p < rp_off p + rp_plen p) by (clear - Hpl; lia).
    destruct (add_range_none _ _ _ C1 Hlt EN) as [(x & Hx & Hxx)|(k & Hk & _)].
    + apply C3 in Hx as (q & Hq & Hqx). apply (Hno q Hq). exists x. split; [exact Hqx|exact Hxx].
    + exact (HNE k Hk).
Qed.

(** C13: the stored item pointers, whatever their number. *)
Theorem C13_pointers_deduplicated_in_order : forall p0 ooo pkts h bs,
  Forall decoded pkts -> reaches p0 ooo pkts h bs ->
  lh_pointers h = first_occurrences (filter (kept (rp_hab p0)) (flat_map rp_ptrs (added pkts bs))) /\
  NoDup (lh_pointers h) /\
  (forall q, In q (lh_pointers h) <->
     exists p, In p (added pkts bs) /\ In q (rp_ptrs p) /\ kept (rp_hab p0) q = true) /\
  (lh_eos h = true <->
     exists p q, In p (added pkts bs) /\ In q (rp_ptrs p) /\ stop_item (rp_hab p0) q = true).
Proof.
  intros p0 ooo pkts h bs HF HR. destruct (reaches_inv _ _ _ _ _ HF HR) as (HI & _ & Hh).
  assert (HE : lh_pointers h = first_occurrences (kept_of (rp_hab p0) (added pkts bs))).
  { rewrite <- Hh. unfold lh_pointers. destruct (hi_ptrs _ _ _ HI) as [(H1 & _ & H3 & _)|(H1 & H2 & _)];
      cbn [lh_store ps_ninline ps_inline ps_ext] in *.
    - destruct (0 <=? lh_ninline h) eqn:E; [exact H3|lia].
    - destruct (0 <=? lh_ninline h) eqn:E; [lia|exact H2]. }
  assert (HIn : forall q, In q (lh_pointers h) <->
     exists p, In p (added pkts bs) /\ In q (rp_ptrs p) /\ kept (rp_hab p0) q = true).
  { intro q. rewrite HE, first_occurrences_In. unfold kept_of. rewrite filter_In, in_flat_map. split.
    - intros ((p & H1 & H2) & H3). eauto.
    - intros (p & H1 & H2 & H3). eauto. }
  split; [exact HE|]. split; [rewrite HE; apply first_occurrences_NoDup|]. split; [exact HIn|].
  rewrite (hi_eos _ _ _ HI), Hh, <- HE, existsb_exists. split.
  - intros (q & Hq & Hs). apply HIn in Hq as (p & H1 & H2 & _). eauto.
  - intros (p & q & H1 & H2 & H3). exists q. split; [|exact H3]. apply HIn. exists p. split; [exact H1|]. split; [exact H2|].
    unfold stop_item in H3. unfold kept. apply andb_true_iff in H3 as [H3 _]. apply andb_true_iff in H3 as [_ H3].
    apply Z.eqb_eq in H3. rewrite H3. reflexivity.
Qed.

(** ** Examples (also non-vacuity): packets are built as wire bytes. *)
Definition ex_pkt (hlen : list Z) (off : Z) (ptrs payload : list Z) : list Z :=
  wire_packet 40 0
    ([encode_immediate 40 HEAP_CNT_ID 7] ++ map (encode_immediate 40 HEAP_LENGTH_ID) hlen
     ++ [encode_immediate 40 PAYLOAD_OFFSET_ID off; encode_immediate 40 PAYLOAD_LENGTH_ID (zlen payload)]
     ++ ptrs) payload.
Definition ex_rp (d : list Z) : rpkt :=
  match decode_packet d with
  | Accept h _ => rpkt_of d h
  | _ => {| rp_hab := 0; rp_cnt := 0; rp_hlen := 0; rp_off := 0; rp_plen := 0; rp_ptrs := []; rp_payload := [] |}
  end.
Lemma ex_decoded d h s : bytes_ok d -> decode_packet d = Accept h s -> decoded (ex_rp d).
Proof. intros Hb HD. exists d, h, s. split; [exact Hb|]. split; [exact HD|]. unfold ex_rp. now rewrite HD. Qed.
Lemma bytes_ok_dec d : forallb (fun b => (0 <=? b) && (b <? 256)) d = true -> bytes_ok d.
Proof. intro H. apply Forall_forall. intros x Hx. rewrite forallb_forall in H. specialize (H x Hx). unfold byte_ok. lia. Qed.
Ltac ex_dec := eapply ex_decoded; [apply bytes_ok_dec; vm_compute; reflexivity|vm_compute; reflexivity].

(** Six distinct packets of an initially unsized heap, out of order, with a
    duplicate and a partial overlap, and 10 pointers in all. *)
Definition ex_history : list rpkt := map ex_rp
  [ex_pkt [] 4 (map (fun k => encode_immediate 40 (4096 + Z.of_nat k) 1) (seq 0 6)) [5; 6];
   ex_pkt [] 0 [encode_immediate 40 4096 1; encode_address 40 5000 2] [1; 2];
   ex_pkt [] 4 [] [9; 9];
   ex_pkt [] 1 [] [9; 9];
   ex_pkt [8] 6 (map (fun k => encode_immediate 40 (4096 + Z.of_nat k) 1) (seq 4 6)) [7; 8];
   ex_pkt [9] 2 [] [0; 0];
   ex_pkt [8] 2 [encode_immediate 40 STREAM_CTRL_ID 2] [3; 4]].

Example ex_history_decoded : Forall decoded ex_history.
Proof. unfold ex_history. cbn [map]. repeat (apply Forall_cons; [ex_dec|]). apply Forall_nil. Qed.

Example ex_history_result : exists h,
  reaches (hd (ex_rp []) ex_history) true ex_history h [true; true; false; false; true; false; true] /\
  is_complete h = true /\ lh_mem h = map Some [1; 2; 3; 4; 5; 6; 7; 8] /\ lh_eos h = true /\
  length (lh_pointers h) = 12%nat /\ lh_ninline h = -1 /\ lh_ranges h = [(0, 8)].
Proof. eexists. split; [vm_compute; reflexivity|]. vm_compute. auto 10. Qed.

(** C50 is violated by the code: a packet without payload leaves an empty range
    behind, after which the packet with the real data is refused. *)
Definition ex_empty_history : list rpkt := map ex_rp
  [ex_pkt [8] 4 [encode_address 40 4096 0] [] ].
Theorem C50_new_data_accepted_refuted :
  exists p0 pkts h bs p,
    Forall decoded pkts /\ reaches p0 true pkts h bs /\ decoded p /\
    consistent (rp_hab p0) (added pkts bs) p /\
    0 < rp_plen p /\ (forall q, In q (added pkts bs) -> ~ overlap q p) /\
    add_packet h p true = Rejected.
Proof.
  exists (hd (ex_rp []) ex_empty_history), ex_empty_history.
  eexists. exists [true], (ex_rp (ex_pkt [8] 0 [] [1; 2; 3; 4; 5; 6; 7; 8])).
  split; [unfold ex_empty_history; cbn [map]; repeat (apply Forall_cons; [ex_dec|]); apply Forall_nil|].
  split; [vm_compute; reflexivity|]. split; [ex_dec|].
  split; [|split; [vm_compute; reflexivity|split]].
  - split; [vm_compute; reflexivity|]. intros _ q Hq. vm_compute in Hq. destruct Hq as [<-|[]].
    split; [right; vm_compute; reflexivity|]. intros e He. vm_compute in He.
    destruct He as [<-|[<-|[]]]; vm_compute; congruence.
  - intros q Hq. vm_compute in Hq. destruct Hq as [<-|[]]. intros (x & Hx & _). unfold carries in Hx.
    cbn [rp_off rp_plen] in Hx. lia.
  - vm_compute. reflexivity.
Qed.

Print Assumptions C10_reassembly_memory_safe.
Print Assumptions C11_ranges_exact.
Print Assumptions C11_in_order_exact.
Print Assumptions C11_complete_iff.
Print Assumptions C12_overlap_rejected.
Print Assumptions C12_first_value_kept.
Print Assumptions C50_new_data_accepted_partial.
Print Assumptions C13_pointers_deduplicated_in_order.
Print Assumptions C50_new_data_accepted_refuted.
