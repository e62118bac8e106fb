(** C04, C05, C06, C08, C09: the packet generator. *)
From Coq Require Import ZArith List Lia Bool.
From Coq Require Import ZifyBool.
From Verif Require Import Base CodecModel CodecProofs PacketSpec RecvPacketModel
  SendPacketModel SendSpec SendPacketProofs SendGenProofs.
Import ListNotations.
Open Scope Z_scope.

(** A heap, a heap count and a maximum packet size satisfying the documented
    preconditions and accepted by the constructor, giving generator [c]. *)
Definition accepted (hab : Z) (items : list item) (rep : bool) (cnt mps : Z) (c : gen_cfg) : Prop :=
  flavour_ok hab = true /\ Forall (item_ok hab) items /\ 0 <= mps /\
  gen_ctor hab items rep cnt mps = Some c.

(** [pks] are all the packets of the heap: the generator, driven until it has
    no next packet, produces exactly them. *)
Definition packets_of (c : gen_cfg) (pks : list packet) : Prop :=
  exists fuel s', generate c fuel gen_init = Some (pks, s') /\ has_next_packet c s' = false.

(** Generation is deterministic: more fuel changes nothing. *)
Lemma generate_fuel c fuel : forall k s pks s',
  generate c fuel s = Some (pks, s') -> has_next_packet c s' = false ->
  generate c (fuel + k) s = Some (pks, s').
Proof.
  induction fuel as [|fuel IH]; intros k s pks s' HG HN; cbn [generate Nat.add] in *.
  - injection HG as <- <-. destruct k; cbn [generate]; [reflexivity|now rewrite HN].
  - destruct (has_next_packet c s); [|exact HG].
    destruct (next_packet c s) as [[p s1]|]; [|discriminate].
    destruct (generate c fuel s1) as [[ps s2]|] eqn:E; [|discriminate].
    injection HG as <- <-. now rewrite (IH k _ _ _ E HN).
Qed.

Lemma packets_of_unique c pks1 pks2 : packets_of c pks1 -> packets_of c pks2 -> pks1 = pks2.
Proof.
  intros (f1 & s1 & G1 & N1) (f2 & s2 & G2 & N2).
  pose proof (generate_fuel c f1 f2 _ _ _ G1 N1) as H1.
  pose proof (generate_fuel c f2 f1 _ _ _ G2 N2) as H2.
  rewrite Nat.add_comm in H2. congruence.
Qed.

Lemma accepted_run hab items rep cnt mps c :
  accepted hab items rep cnt mps c ->
  cfg_ok c /\ g_hab c = hab /\ g_items c = items /\ g_repeat c = rep /\ g_cnt c = cnt /\ g_mps c <= mps /\
  exists pks infos, packets_of c pks /\ run_ok c gen_init pks infos.
Proof.
  intros (Hf & Hok & Hm & HC).
  destruct (gen_ctor_ok _ _ _ _ _ _ Hf Hok Hm HC) as (Hc & H1 & H2 & H3 & H4 & H5).
  repeat (split; [assumption|]).
  pose proof (generated c (Z.to_nat (g_psize c)) Hc ltac:(lia)) as (pks & s' & infos & G & N & R).
  exists pks, infos. split; [|exact R]. exists (Z.to_nat (g_psize c)), s'. now split.
Qed.

(** C04 *)
Theorem C04_packets_fit_and_carry_payload : forall hab items rep cnt mps c,
  accepted hab items rep cnt mps c ->
  exists pks, packets_of c pks /\ (* generation terminates *)
    Forall (fun pk =>
      exists (ptrs payload : list Z) (off : Z) (pad : list Z),
        (* what was written to scratch: header, four specials, the packet's
           pointers and possibly one word of padding; all inside the buffer
           whose size get_max_packet_size() announces *)
        pk_words pk = (header_word (hab / 8) (zlen ptrs)
                       :: special_ptrs hab cnt (g_psize c) off (zlen payload) ++ ptrs) ++ pad /\
        8 * zlen (pk_words pk) <= g_mps c /\ g_mps c <= mps /\
        (* the part of scratch that is sent was written *)
        0 <= pk_len0 pk <= 8 * zlen (pk_words pk) /\
        (* total size, and at least one byte of payload *)
        zlen (packet_bytes pk) = 40 + 8 * zlen ptrs + zlen payload /\
        zlen (packet_bytes pk) <= mps /\ 0 < zlen payload) pks /\
    (1 <= length pks)%nat.
Proof.
  intros hab items rep cnt mps c HA.
  destruct (accepted_run _ _ _ _ _ _ HA) as (Hc & <- & <- & <- & <- & Hm & pks & infos & HP & R).
  exists pks. split; [exact HP|]. split.
  - pose proof (ro_sized _ _ _ _ R) as HS. clear R HP. induction HS as [|pk i pks infos Hz HS IH]; [constructor|].
    constructor; [|exact IH]. destruct Hz as [(pad & Hw) Z1 Z2 Z3 Z4 Z5 Z6].
    exists (pi_ptrs i), (pi_payload i), (pi_off i), pad.
    split; [exact Hw|]. repeat split; try assumption; lia.
  - pose proof (ro_sized _ _ _ _ R) as HS. pose proof (ro_tiles _ _ _ _ R) as HT.
    destruct HS; [|cbn; lia]. cbn in HT. pose proof (co_psize c Hc) as HZ.
    assert (0 <= zlen (g_items c) / g_m c) by (apply Z.div_pos; [apply zlen_nonneg|pose proof (co_m c Hc); lia]).
    lia.
Qed.

(** The item count of every packet fits the 16-bit header field. *)
Definition count_fits (c : gen_cfg) : Prop := Z.min (g_m c) (zlen (g_items c) + 1) + 4 < 65536.

(** Padding is not interleaved with user payload: either the user payload is
    long enough to need no padding, or it is a whole number of 8-byte units. *)
Definition no_interleave (c : gen_cfg) : Prop :=
  let pay := heap_payload (g_hab c) (g_items c) in
  8 * (zlen (g_items c) / g_m c) < zlen pay \/ zlen pay mod 8 = 0.

Lemma no_interleave_mode c :
  cfg_ok c -> no_interleave c ->
  g_null c = false \/ zlen (heap_payload (g_hab c) (g_items c)) mod 8 = 0.
Proof.
  intros Hc [H|H]; [|now right]. left. destruct (g_null c) eqn:E; [|reflexivity].
  destruct (co_null c Hc E). lia.
Qed.

Lemma run_count c s pks infos :
  cfg_ok c -> s = gen_init -> run_ok c s pks infos -> count_fits c ->
  Forall (fun i => zlen (pi_ptrs i) + 4 < 65536) infos.
Proof.
  intros Hc -> R Hcf.
  assert (Hm : Forall (fun i => zlen (pi_ptrs i) <= g_m c) infos).
  { pose proof (ro_sized _ _ _ _ R) as HS. clear - HS. induction HS; constructor; [|assumption].
    eapply pz_ptrs; eassumption. }
  assert (HN : Forall (fun i => zlen (pi_ptrs i) <= zlen (g_items c) + 1) infos).
  { assert (HL : zlen (all_pointers c) <= zlen (g_items c) + 1)
      by (rewrite all_pointers_length; unfold bz; destruct (g_null c); lia).
    destruct (g_repeat c) eqn:ER.
    - eapply Forall_impl; [|exact (ro_repeat _ _ _ _ R ER)]. cbn. intros i ->. lia.
    - pose proof (ro_ptrs _ _ _ _ R ER) as HP. cbn [gen_init s_nip skipn] in HP.
      change (Z.to_nat 0) with 0%nat in HP. cbn [skipn] in HP.
      rewrite <- HP in HL. clear - HL. rewrite Forall_forall. intros i Hin.
      apply in_split in Hin as (l1 & l2 & ->). rewrite map_app, concat_app in HL.
      cbn [map concat] in HL. rewrite !zlen_app in HL.
      pose proof (zlen_nonneg (concat (map pi_ptrs l1))). pose proof (zlen_nonneg (concat (map pi_ptrs l2))). lia. }
  rewrite Forall_forall in *. intros i Hin. specialize (Hm i Hin). specialize (HN i Hin).
  unfold count_fits in Hcf. lia.
Qed.

Lemma run_wire c pks infos :
  cfg_ok c -> run_ok c gen_init pks infos -> count_fits c ->
  Forall2 (fun pk i => packet_bytes pk =
    wire_packet (g_hab c) 0
      (special_ptrs (g_hab c) (g_cnt c) (g_psize c) (pi_off i) (zlen (pi_payload i)) ++ pi_ptrs i)
      (pi_payload i)) pks infos.
Proof.
  intros Hc R Hcf. pose proof (run_count c _ pks infos Hc eq_refl R Hcf) as HF.
  pose proof (ro_wire _ _ _ _ R) as HW. clear R. induction HW as [|pk i pks infos H HW IH]; [constructor|].
  inversion HF; subst. constructor; [now apply H|now apply IH].
Qed.

(** C05: the packets are wire packets whose payloads are consecutive pieces
    (first at offset 0, each starting where the previous one ended, the last
    ending at the advertised heap length) of the user payload followed by zero
    padding. *)
Theorem C05_payloads_tile_heap : forall hab items rep cnt mps c,
  accepted hab items rep cnt mps c -> count_fits c -> no_interleave c ->
  exists pks (infos : list pinfo),
    packets_of c pks /\
    Forall2 (fun pk i => packet_bytes pk =
      wire_packet hab 0
        (special_ptrs hab cnt (g_psize c) (pi_off i) (zlen (pi_payload i)) ++ pi_ptrs i)
        (pi_payload i)) pks infos /\
    tiles 0 infos (g_psize c) /\
    (forall i, In i infos -> pi_payload i <> []) /\
    concat (map pi_payload infos)
      = heap_payload hab items ++ repeat 0 (Z.to_nat (g_psize c - zlen (heap_payload hab items))) /\
    zlen (heap_payload hab items) <= g_psize c.
Proof.
  intros hab items rep cnt mps c HA Hcf Hni.
  destruct (accepted_run _ _ _ _ _ _ HA) as (Hc & <- & <- & <- & <- & Hm & pks & infos & HP & R).
  exists pks, infos. split; [exact HP|]. split; [now apply run_wire|].
  split; [exact (ro_tiles _ _ _ _ R)|]. split.
  - pose proof (ro_sized _ _ _ _ R) as HS. clear - HS. intros i Hin E.
    induction HS as [|pk j pks infos H HS IH]; [destruct Hin|].
    destruct Hin as [->|Hin]; [|exact (IH Hin)].
    pose proof (pz_payload _ _ _ H) as HZ. rewrite E in HZ. cbn in HZ. discriminate HZ.
  - split; [apply (run_concat c pks infos Hc R), no_interleave_mode; assumption|].
    pose proof (padded_length c Hc) as HL. unfold padded in HL. rewrite zlen_app in HL.
    pose proof (zlen_nonneg (repeat 0 (Z.to_nat (g_psize c - zlen (heap_payload (g_hab c) (g_items c)))))). lia.
Qed.

(** C06: the pointers after the four specials are the heap's item pointers, in
    order, each exactly once over all packets (or all of them in every packet
    when pointers are repeated); [heap_pointers] gives addressed items the
    offset of their value in the user payload.  If the payload is padded, a
    NULL pointer to the end of the user payload follows them. *)
Theorem C06_all_pointers_transmitted : forall hab items rep cnt mps c,
  accepted hab items rep cnt mps c -> count_fits c ->
  exists pks (infos : list pinfo),
    packets_of c pks /\
    Forall2 (fun pk i => packet_bytes pk =
      wire_packet hab 0
        (special_ptrs hab cnt (g_psize c) (pi_off i) (zlen (pi_payload i)) ++ pi_ptrs i)
        (pi_payload i)) pks infos /\
    let ptrs := heap_pointers hab items 0 ++
      (if zlen (heap_payload hab items) <? g_psize c
       then [encode_address hab NULL_ID (zlen (heap_payload hab items))] else []) in
    (rep = false -> concat (map pi_ptrs infos) = ptrs) /\
    (rep = true -> Forall (fun i => pi_ptrs i = ptrs) infos).
Proof.
  intros hab items rep cnt mps c HA Hcf.
  destruct (accepted_run _ _ _ _ _ _ HA) as (Hc & <- & <- & <- & <- & Hm & pks & infos & HP & R).
  exists pks, infos. split; [exact HP|]. split; [now apply run_wire|].
  assert (E : (zlen (heap_payload (g_hab c) (g_items c)) <? g_psize c) = g_null c).
  { destruct (g_null c) eqn:E; [destruct (co_null c Hc E); lia|rewrite (co_real c Hc E); lia]. }
  cbv zeta. rewrite E. fold (all_pointers c). split.
  - intro ER. rewrite (ro_ptrs _ _ _ _ R ER). reflexivity.
  - intro ER. exact (ro_repeat _ _ _ _ R ER).
Qed.

(** Every addressed item's pointer is the offset of its value. *)
Theorem C06_address_is_payload_offset : forall hab items1 id allow d items2,
  addressed hab (Buffer id allow d) = true ->
  let items := items1 ++ Buffer id allow d :: items2 in
  let a := zlen (heap_payload hab items1) in
  nth_error (heap_pointers hab items 0) (length items1) = Some (encode_address hab id a) /\
  slice (heap_payload hab items) a (zlen d) = d.
Proof.
  intros hab items1 id allow d items2 HA items a. unfold items. split.
  - rewrite heap_pointers_app. cbn [heap_pointers]. cbn [addressed] in HA.
    apply negb_true_iff in HA. rewrite HA, Z.add_0_l. fold a.
    pose proof (heap_pointers_length hab items1 0) as HL.
    rewrite nth_error_app2 by (unfold zlen in HL; lia).
    replace (length items1 - length (heap_pointers hab items1 0))%nat with 0%nat by (unfold zlen in HL; lia).
    reflexivity.
  - rewrite heap_payload_app, heap_payload_cons, HA. cbn [item_data].
    apply slice_app_exact.
Qed.

(** ** C08 *)

(** What a receiver sees as payload of a packet, and at which offset. *)
Definition seen_payload (pk : packet) : list Z :=
  match decode_packet (packet_bytes pk) with
  | Accept h _ => header_payload (packet_bytes pk) h
  | _ => []
  end.

(** The code violates C08: with 8 bytes of item pointers per packet, a 3-byte
    item and one immediate, the receiver gets five zeros BEFORE the bytes 1 2 3,
    although the item pointer says the value is at offset 0. *)
Theorem C08_padding_refuted :
  exists hab items rep cnt mps c pks,
    accepted hab items rep cnt mps c /\ packets_of c pks /\ count_fits c /\
    firstn (length (heap_payload hab items)) (concat (map seen_payload pks))
    <> heap_payload hab items /\
    concat (map seen_payload pks) = repeat 0 5 ++ [1; 2; 3] ++ repeat 0 9.
Proof.
  exists 48, [Buffer 4096 false [1; 2; 3]; Inline 4097 7], false, 1, 56.
  eexists. eexists.
  split; [|split; [|split; [|split]]].
  - split; [reflexivity|]. split.
    + apply Forall_cons; [split; [lia|]; repeat (apply Forall_cons; [unfold byte_ok; lia|]); apply Forall_nil|].
      apply Forall_cons; [split; lia|apply Forall_nil].
    + split; [lia|]. vm_compute. reflexivity.
  - exists 20%nat. eexists. split; [vm_compute; reflexivity|vm_compute; reflexivity].
  - vm_compute. reflexivity.
  - vm_compute. discriminate.
  - vm_compute. reflexivity.
Qed.

(** What does hold (C08, partial: missing is the interleaved case, where the
    claim is false): padding comes after the user's payload whenever the
    payload needs no padding or is a multiple of 8 bytes. *)
Theorem C08_padding_after_payload_partial : forall hab items rep cnt mps c,
  accepted hab items rep cnt mps c -> count_fits c -> no_interleave c ->
  exists pks (infos : list pinfo),
    packets_of c pks /\
    Forall2 (fun pk i => packet_bytes pk =
      wire_packet hab 0
        (special_ptrs hab cnt (g_psize c) (pi_off i) (zlen (pi_payload i)) ++ pi_ptrs i)
        (pi_payload i)) pks infos /\
    Forall (fun i => pi_payload i =
      slice (heap_payload hab items ++ repeat 0 (Z.to_nat (g_psize c - zlen (heap_payload hab items))))
            (pi_off i) (zlen (pi_payload i))) infos.
Proof.
  intros hab items rep cnt mps c HA Hcf Hni.
  destruct (accepted_run _ _ _ _ _ _ HA) as (Hc & <- & <- & <- & <- & Hm & pks & infos & HP & R).
  exists pks, infos. split; [exact HP|]. split; [now apply run_wire|].
  apply (run_no_interleave c pks infos Hc R), no_interleave_mode; assumption.
Qed.

(** Exact description of what the code does in every case, including the
    interleaved one: in each packet the padding comes BEFORE the user bytes. *)
Theorem C08_exact_layout : forall hab items rep cnt mps c,
  accepted hab items rep cnt mps c -> count_fits c ->
  exists pks (infos : list pinfo),
    packets_of c pks /\
    Forall2 (fun pk i => packet_bytes pk =
      wire_packet hab 0
        (special_ptrs hab cnt (g_psize c) (pi_off i) (zlen (pi_payload i)) ++ pi_ptrs i)
        (pi_payload i)) pks infos /\
    tiles 0 infos (g_psize c) /\
    Forall (fun i =>
      let pay := heap_payload hab items in
      let r := Z.min (zlen (pi_payload i)) (Z.max 0 (zlen pay - pi_off i)) in
      pi_payload i = repeat 0 (Z.to_nat (zlen (pi_payload i) - r)) ++ slice pay (pi_off i) r) infos.
Proof.
  intros hab items rep cnt mps c HA Hcf.
  destruct (accepted_run _ _ _ _ _ _ HA) as (Hc & <- & <- & <- & <- & Hm & pks & infos & HP & R).
  exists pks, infos. split; [exact HP|]. split; [now apply run_wire|].
  split; [exact (ro_tiles _ _ _ _ R)|].
  eapply Forall_impl; [|exact (ro_content _ _ _ _ R)]. intros i (H1 & _ & _). exact H1.
Qed.

(** ** C09 *)

(** The item count the receiver extracts from the header word. *)
Definition announced_count (pk : packet) : Z := extract_bits (hd 0 (pk_words pk)) 0 16.

(** C09 (partial: missing is the case of 65532 or more pointers in one packet,
    where the claim is false): the header announces exactly the number of
    pointers that follow. *)
Theorem C09_item_count_partial : forall hab items rep cnt mps c,
  accepted hab items rep cnt mps c -> count_fits c ->
  exists pks, packets_of c pks /\
    Forall (fun pk => exists ptrs payload : list Z,
      packet_bytes pk = [83; 4; 8 - hab / 8; hab / 8; 0; 0] ++ be_encode 2 (zlen ptrs)
                        ++ flat_map (be_encode 8) ptrs ++ payload /\
      zlen ptrs < 65536 /\ announced_count pk = zlen ptrs) pks.
Proof.
  intros hab items rep cnt mps c HA Hcf.
  destruct (accepted_run _ _ _ _ _ _ HA) as (Hc & <- & <- & <- & <- & Hm & pks & infos & HP & R).
  exists pks. split; [exact HP|].
  pose proof (run_wire c pks infos Hc R Hcf) as HW.
  pose proof (run_count c _ pks infos Hc eq_refl R Hcf) as HF.
  pose proof (ro_sized _ _ _ _ R) as HS. pose proof (co_flavour c Hc) as Hfl. clear HP R HA Hcf.
  pose proof (flavour_ok_bytes _ Hfl) as [He Hr].
  revert HF HS. induction HW as [|pk i pks infos H HW IH]; intros HF HS; [constructor|].
  inversion HF; subst. inversion HS as [|? ? ? ? Hz HS']; subst.
  constructor; [|now apply IH].
  eexists (_ ++ pi_ptrs i), (pi_payload i). split; [exact H|].
  rewrite zlen_app. change (zlen (special_ptrs _ _ _ _ _)) with 4. split; [lia|].
  unfold announced_count. destruct (pz_words _ _ _ Hz) as (pad & ->). cbn [app hd].
  pose proof (zlen_nonneg (pi_ptrs i)).
  rewrite RecvPacketProofs.extract_bits_arith, header_word_arith by lia.
  change (2 ^ 0) with 1. rewrite Z.div_1_r.
  symmetry. apply (Z.mod_unique_pos _ _ (21252 * 2 ^ 32 + (8 - g_hab c / 8) * 2 ^ 24 + g_hab c / 8 * 2 ^ 16)); lia.
Qed.

(** All UDP packet sizes (and anything up to 524303 bytes) are in range. *)
Theorem C09_small_packets_fit : forall hab items rep cnt mps c,
  accepted hab items rep cnt mps c -> mps <= 524303 -> count_fits c.
Proof.
  intros hab items rep cnt mps c (Hf & Hok & Hm & HC) Hmps.
  destruct (gen_ctor_ok _ _ _ _ _ _ Hf Hok Hm HC) as (Hc & _ & _ & _ & _ & H5).
  pose proof (co_mps c Hc) as E. unfold count_fits. lia.
Qed.

(** The code violates C09 for heaps with 65532 or more items when the packet
    size allows that many pointers: for instance 65532 one-word items give a
    packet with 65537 pointers whose header announces one item. *)
Theorem C09_item_count_refuted :
  exists hab items rep cnt mps c pk s',
    accepted hab items rep cnt mps c /\ next_packet c gen_init = Some (pk, s') /\
    exists ptrs pad : list Z, pk_words pk =
      (header_word (hab / 8) (zlen ptrs)
       :: special_ptrs hab cnt (g_psize c) 0 (zlen pad) ++ ptrs) ++ [0] /\
      4 + zlen ptrs = 65537 /\ announced_count pk = 1.
Proof.
  set (items := repeat (Inline 4096 1) (Z.to_nat 65532)).
  set (mps := 600000).
  assert (HN : zlen items = 65532) by (unfold items; rewrite zlen_repeat; lia).
  assert (Hok : Forall (item_ok 48) items).
  { apply Forall_forall. intros x Hx. apply repeat_spec in Hx. subst x. cbn. lia. }
  assert (HP : heap_payload 48 items = []).
  { unfold heap_payload. replace (filter (addressed 48) items) with (@nil item); [reflexivity|].
    symmetry. unfold items. generalize (Z.to_nat 65532). intro k. induction k; [reflexivity|exact IHk]. }
  clearbody items.
  assert (HA : exists c, accepted 48 items false 1 mps c).
  { unfold accepted. unfold gen_ctor. rewrite real_payload_size_spec, HP.
    change (mps - mps mod 8) with 600000. cbn [prefix_size].
    destruct (600000 <? prefix_size + 2 * 8) eqn:E; [vm_compute in E; discriminate|].
    cbn [andb]. eexists. split; [reflexivity|]. split; [exact Hok|]. split; [unfold mps; lia|]. reflexivity. }
  destruct HA as (c & HA).
  pose proof HA as (Hf & _ & Hm & HC).
  destruct (gen_ctor_ok _ _ _ _ _ _ Hf Hok Hm HC) as (Hc & H1 & H2 & H3 & H4 & H5).
  assert (Hmm : g_m c = 74994).
  { unfold gen_ctor in HC. change (mps - mps mod 8) with 600000 in HC.
    destruct (600000 <? prefix_size + 2 * 8); [discriminate|]. cbn [andb] in HC.
    injection HC as <-. reflexivity. }
  assert (Hnull : g_null c = true).
  { destruct (g_null c) eqn:E; [reflexivity|]. pose proof (co_real c Hc E) as HR.
    pose proof (co_psize c Hc) as HS. rewrite H1, H2, HP in HR. rewrite HR in HS.
    rewrite H2, HN, Hmm in HS. vm_compute in HS. exfalso. apply HS. reflexivity. }
  destruct (co_null c Hc Hnull) as [Hps _]. rewrite H2, HN, Hmm in Hps. change (8 * (65532 / 74994) + 1) with 1 in Hps.
  assert (Hnext : has_next_packet c gen_init = true) by (unfold has_next_packet; cbn [gen_init s_poff]; lia).
  pose proof (next_packet_spec c gen_init Hc (inv_init c Hc) Hnext) as HS. cbv zeta in HS.
  assert (En : pkt_n c gen_init = 65533).
  { unfold pkt_n, nip0. rewrite Hnull, H2, HN, Hmm, H3. reflexivity. }
  assert (Ep : pkt_plen c gen_init = 1).
  { unfold pkt_plen. rewrite En, Hps. rewrite (co_mps c Hc), Hmm. reflexivity. }
  assert (Er : pkt_real c gen_init = 0).
  { unfold pkt_real. rewrite Ep, H1, H2, HP. reflexivity. }
  rewrite En, Ep, Er in HS. destruct HS as (bufs & ok & s' & HS & _).
  rewrite H1, H4 in HS.
  eexists 48, items, false, 1, mps, c, _, s'. split; [exact HA|]. split; [exact HS|].
  exists (slice (all_pointers c) (nip0 c gen_init) 65533), [0]. cbn [pk_words].
  assert (HL : zlen (slice (all_pointers c) (nip0 c gen_init) 65533) = 65533).
  { unfold nip0. rewrite H3. apply zlen_slice; cbn [gen_init s_nip]; [lia|lia|].
    rewrite all_pointers_length, Hnull, H2, HN. cbn [bz]. lia. }
  rewrite HL. split; [reflexivity|]. split; [reflexivity|]. reflexivity.
Qed.

(** ** Non-vacuity: a heap with an immediate, a small immediate buffer, an
    addressed item of 20 bytes and one of 5 bytes, in packets of at most 72
    bytes (3 pointers per packet). *)
Definition ex_items : list item :=
  [Inline 4096 77; Buffer 4097 true [1; 2; 3]; Buffer 4098 false (map Z.of_nat (seq 10 20));
   Buffer 4099 false [5; 6; 7; 8; 9]].

Example ex_accepted : exists c, accepted 48 ex_items false 9 72 c /\ count_fits c /\ no_interleave c /\
  g_null c = false /\ exists pks s', generate c 100 gen_init = Some (pks, s') /\ length pks = 2%nat /\
  map (fun pk => zlen (packet_bytes pk)) pks = [72; 65].
Proof.
  eexists. split.
  - split; [reflexivity|]. split.
    + unfold ex_items. repeat (apply Forall_cons; [cbn; split; [lia|]; try lia; unfold bytes_ok;
        repeat (apply Forall_cons; [unfold byte_ok; lia|]); apply Forall_nil|]). apply Forall_nil.
    + split; [lia|]. vm_compute. reflexivity.
  - split; [vm_compute; reflexivity|]. split; [left; vm_compute; reflexivity|].
    split; [reflexivity|]. eexists. eexists. split; [vm_compute; reflexivity|]. split; reflexivity.
Qed.

(** A heap with no payload at all: 5 immediates, 2 pointers per packet, so
    padding and a NULL pointer are needed and spread over three packets. *)
Example ex_padded : exists c, accepted 40 (map (fun k => Inline (4096 + Z.of_nat k) 3) (seq 0 5)) false 9 64 c /\
  count_fits c /\ no_interleave c /\ g_null c = true /\
  exists pks s', generate c 100 gen_init = Some (pks, s') /\ length pks = 3%nat /\
  concat (map seen_payload pks) = repeat 0 17.
Proof.
  eexists. split.
  - split; [reflexivity|]. split.
    + cbn [seq map]. repeat (apply Forall_cons; [cbn; lia|]). apply Forall_nil.
    + split; [lia|]. vm_compute. reflexivity.
  - split; [vm_compute; reflexivity|]. split; [right; vm_compute; reflexivity|].
    split; [reflexivity|]. eexists. eexists. split; [vm_compute; reflexivity|]. split; reflexivity.
Qed.

Print Assumptions C04_packets_fit_and_carry_payload.
Print Assumptions C05_payloads_tile_heap.
Print Assumptions C06_all_pointers_transmitted.
Print Assumptions C06_address_is_payload_offset.
Print Assumptions C08_padding_refuted.
Print Assumptions C08_padding_after_payload_partial.
Print Assumptions C08_exact_layout.
Print Assumptions C09_item_count_partial.
Print Assumptions C09_small_packets_fit.
Print Assumptions C09_item_count_refuted.
