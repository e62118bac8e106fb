(** Proofs about descriptor encoding and decoding. *)
From Coq Require Import ZArith List Lia Bool.
From Coq Require Import ZifyBool ZifyNat.
From Verif Require Import Base CodecModel CodecProofs CodecProps PacketSpec RecvPacketModel RecvPacketProofs RecvPacketProps
  SendPacketModel SendSpec SendPacketProofs SendGenProofs
  LiveHeapModel LiveHeapSpec LiveHeapProofs LiveHeapProps RecvHeapModel RecvHeapProofs RecvHeapProps
  ReassembleProofs E2EProofs DescriptorModel.
Import ListNotations.
Open Scope Z_scope.

(** Receiving a heap that consists of one packet. *)
Definition receive_one (data : list Z) : option frozen :=
  match decode_rpkt data with
  | None => None
  | Some r =>
      match add_packet (live_heap_new r) r true with
      | Added h => if is_complete h then freeze h else None
      | _ => None
      end
  end.

(** A heap of segments laid out one after the other. *)
Fixpoint seg_ptrs (hab o : Z) (segs : list (Z * list Z)) : list Z :=
  match segs with
  | [] => []
  | (id, d) :: rest => encode_address hab id o :: seg_ptrs hab (o + zlen d) rest
  end.
Fixpoint seg_items (o : Z) (segs : list (Z * list Z)) : list ritem :=
  match segs with
  | [] => []
  | (id, d) :: rest =>
      (if zlen d =? 0 then [] else [{| ri_id := id; ri_imm := false; ri_start := o; ri_len := zlen d; ri_value := 0 |}])
      ++ seg_items (o + zlen d) rest
  end.
Definition seg_data (segs : list (Z * list Z)) : list Z := flat_map snd segs.

Lemma seg_data_cons id d segs : seg_data ((id, d) :: segs) = d ++ seg_data segs.
Proof. reflexivity. Qed.

Lemma seg_ptrs_facts hab segs : flavour_ok hab = true -> forall o,
  Forall (fun s => 4 < fst s < 64) segs -> 0 <= o -> o + zlen (seg_data segs) < 2 ^ hab ->
  Forall (fun q => word_ok q /\ kept hab q = true /\ is_immediate q = false /\
                   o <= get_address hab q <= o + zlen (seg_data segs)) (seg_ptrs hab o segs).
Proof.
  intro Hf. induction segs as [|[id d] segs IH]; intros o Hid Ho HL; [constructor|].
  cbn [seg_ptrs]. rewrite seg_data_cons, zlen_app in *. pose proof (zlen_nonneg d). pose proof (zlen_nonneg (seg_data segs)).
  inversion Hid as [|? ? H1 H2]; subst. cbn [fst] in H1.
  destruct (C01_address_round_trip hab id o Hf) as (_ & A1 & A2 & A3 & A4).
  { split; [apply flavour_small_id; [exact Hf|lia]|lia]. }
  constructor.
  - split; [exact A1|]. split; [unfold kept; rewrite A3; lia|]. split; [exact A2|]. rewrite A4. lia.
  - eapply Forall_impl; [|apply IH; [exact H2|lia|lia]]. cbn. intros q (B1 & B2 & B3 & B4).
    split; [exact B1|]. split; [exact B2|]. split; [exact B3|]. lia.
Qed.

Lemma insert_front key x l : Forall (fun y => key x <= key y) l -> insert_by key x l = x :: l.
Proof. destruct 1 as [|y l Hy _]; cbn [insert_by]; [reflexivity|]. destruct (key x <=? key y) eqn:E; [reflexivity|lia]. Qed.
Lemma insert_end key x l : Forall (fun y => key y < key x) l -> insert_by key x l = l ++ [x].
Proof.
  induction 1 as [|y l Hy _ IH]; cbn [insert_by app]; [reflexivity|].
  destruct (key x <=? key y) eqn:E; [lia|]. now rewrite IH.
Qed.

Lemma seg_ptrs_sorted hab segs : flavour_ok hab = true -> forall o,
  Forall (fun s => 4 < fst s < 64) segs -> 0 <= o -> o + zlen (seg_data segs) < 2 ^ hab ->
  stable_sort (sort_key hab) (seg_ptrs hab o segs) = seg_ptrs hab o segs.
Proof.
  intro Hf. pose proof (flavour_ok_range _ Hf) as Hr. induction segs as [|[id d] segs IH]; intros o Hid Ho HL; [reflexivity|].
  pose proof (seg_ptrs_facts hab ((id, d) :: segs) Hf o Hid Ho HL) as HF.
  cbn [seg_ptrs] in *. rewrite seg_data_cons, zlen_app in HL. pose proof (zlen_nonneg d). pose proof (zlen_nonneg (seg_data segs)).
  inversion Hid as [|? ? H1 H2]; subst. cbn [fst] in H1.
  unfold stable_sort in *. cbn [fold_right]. rewrite IH by (try assumption; lia).
  apply insert_front.
  destruct (C01_address_round_trip hab id o Hf) as (_ & A1 & A2 & A3 & A4).
  { split; [apply flavour_small_id; [exact Hf|lia]|lia]. }
  pose proof (seg_ptrs_facts hab segs Hf (o + zlen d) H2 ltac:(lia) ltac:(lia)) as HF2.
  eapply Forall_impl; [|exact HF2]. cbn. intros q (B1 & B2 & B3 & B4).
  rewrite !sort_key_arith by (try exact A1; try exact B1; lia). rewrite A2, B3, A4. lia.
Qed.

(** Items found in a heap of segments followed by one immediate. *)
Lemma seg_items_of hab segs minl q next : flavour_ok hab = true -> is_immediate q = true -> get_id hab q <> 0 -> forall o,
  Forall (fun s => 4 < fst s < 64) segs -> 0 <= o -> o + zlen (seg_data segs) = minl -> minl < 2 ^ hab ->
  items_of hab minl true (seg_ptrs hab o segs ++ [q]) next =
  seg_items o segs ++
  [{| ri_id := get_id hab q; ri_imm := true; ri_start := next; ri_len := hab / 8; ri_value := get_immediate hab q |}].
Proof.
  intros Hf Hq Hq0. induction segs as [|[id d] segs IH]; intros o Hid Ho HL HM.
  - cbn [seg_ptrs app items_of seg_items]. rewrite Hq. destruct (Z.eqb_spec (get_id hab q) 0); [contradiction|reflexivity].
  - rewrite seg_data_cons, zlen_app in HL. pose proof (zlen_nonneg d). pose proof (zlen_nonneg (seg_data segs)).
    inversion Hid as [|? ? H1 H2]; subst. cbn [fst] in H1.
    destruct (C01_address_round_trip hab id o Hf) as (_ & A1 & A2 & A3 & A4).
    { split; [apply flavour_small_id; [exact Hf|lia]|lia]. }
    cbn [seg_ptrs app items_of seg_items]. rewrite A2, A3, A4. destruct (Z.eqb_spec id 0); [lia|]. cbn [negb].
    rewrite IH by (try assumption; try reflexivity; lia).
    assert (Hstop : match seg_ptrs hab (o + zlen d) segs ++ [q] with
                    | [] => o + (zlen d + zlen (seg_data segs))
                    | q0 :: _ => if is_immediate q0 then o + (zlen d + zlen (seg_data segs)) else get_address hab q0
                    end = o + zlen d).
    { destruct segs as [|[id' d'] segs].
      - cbn [seg_ptrs app]. rewrite Hq. unfold seg_data. cbn [flat_map]. rewrite zlen_nil. lia.
      - cbn [seg_ptrs app]. inversion H2 as [|? ? H3 _]; subst. cbn [fst] in H3.
        destruct (C01_address_round_trip hab id' (o + zlen d) Hf) as (_ & _ & B2 & _ & B4).
        { split; [apply flavour_small_id; [exact Hf|lia]|lia]. }
        rewrite B2, B4. reflexivity. }
    rewrite Hstop. destruct (Z.eqb_spec (zlen d) 0) as [E|E].
    + rewrite E, Z.add_0_r, Z.eqb_refl. reflexivity.
    + destruct (Z.eqb_spec o (o + zlen d)); [lia|]. cbn [app]. repeat f_equal. lia.
Qed.

(** The values of those items. *)
Definition seg_step (hab : Z) (bc : bug_compat) (o : option descriptor) (s : Z * list Z) : option descriptor :=
  match o with
  | None => None
  | Some o => if zlen (snd s) =? 0 then Some o else descriptor_field hab bc o (fst s) false (snd s)
  end.

Lemma seg_items_fold hab bc f : forall segs pre post o,
  fr_payload f = map Some (pre ++ seg_data segs) ++ post ->
  fold_left (descriptor_step hab bc f) (seg_items (zlen pre) segs) o = fold_left (seg_step hab bc) segs o.
Proof.
  induction segs as [|[id d] segs IH]; intros pre post o HP; [reflexivity|].
  rewrite seg_data_cons in HP. cbn [seg_items fold_left]. rewrite fold_left_app.
  rewrite <- zlen_app. rewrite (IH (pre ++ d) post) by now rewrite <- app_assoc.
  f_equal. unfold seg_step. cbn [fst snd]. destruct (Z.eqb_spec (zlen d) 0) as [E|E].
  - cbn [fold_left]. destruct o; reflexivity.
  - cbn [fold_left descriptor_step]. destruct o as [o|]; [|reflexivity].
    unfold descriptor_step, ritem_value, ritem_bytes. cbn [ri_imm ri_start ri_len ri_id].
    rewrite HP. rewrite !map_app, <- !app_assoc.
    pose proof (zlen_nonneg pre). pose proof (zlen_nonneg d). pose proof (zlen_nonneg (seg_data segs)).
    pose proof (zlen_nonneg post).
    rewrite !zlen_app, !zlen_map.
    assert (Hb : (0 <=? zlen pre) && (0 <=? zlen d) && (zlen pre + zlen d <=? zlen pre + (zlen d + (zlen (seg_data segs) + zlen post))) = true) by lia.
    rewrite Hb. rewrite <- (zlen_map Some pre), <- (zlen_map Some d), slice_app_exact, all_init_Some. reflexivity.
Qed.

Lemma seg_step_empty hab bc o id d :
  zlen d = 0 -> seg_step hab bc (Some o) (id, d) = Some o.
Proof. intro E. unfold seg_step. cbn [snd]. now rewrite E. Qed.

(** Format and shape fields. *)
Lemma fields_flat {A} size (enc : A -> list Z) l : 1 <= size ->
  (forall x, In x l -> zlen (enc x) = size) ->
  forall n, (length l <= n)%nat ->
  fields size n (flat_map enc l) = map (fun x => (hd 0 (enc x), tl (enc x))) l.
Proof.
  intros Hs. induction l as [|x l IH]; intros Hx n Hn.
  - cbn [flat_map map]. destruct n; cbn [fields]; [reflexivity|]. rewrite zlen_nil. destruct (size <=? 0) eqn:E; [lia|reflexivity].
  - cbn [length] in Hn. destruct n as [|n]; [lia|]. cbn [fields flat_map map].
    pose proof (Hx x (or_introl eq_refl)) as HX. pose proof (zlen_nonneg (flat_map enc l)).
    rewrite zlen_app, HX. destruct (size <=? size + zlen (flat_map enc l)) eqn:E; [|lia].
    rewrite slice_app_l by lia. rewrite <- HX at 1. rewrite slice_full.
    destruct (enc x) as [|b rest] eqn:EX; [rewrite zlen_nil in HX; lia|]. cbn [hd tl]. f_equal.
    rewrite slice_app_r by lia. rewrite HX. rewrite Z.sub_diag.
    replace (size + zlen (flat_map enc l) - size) with (zlen (flat_map enc l)) by lia. rewrite slice_full.
    apply IH; [|lia]. intros y Hy. apply Hx. now right.
Qed.

Lemma length_flat_ge {A} (enc : A -> list Z) l :
  (forall x, In x l -> 1 <= zlen (enc x)) -> (length l <= length (flat_map enc l))%nat.
Proof.
  induction l as [|x l IH]; intro H; cbn [flat_map length]; [lia|]. rewrite app_length.
  pose proof (H x (or_introl eq_refl)) as HX. unfold zlen in HX. specialize (IH (fun y Hy => H y (or_intror Hy))). lia.
Qed.

Lemma zlen_flat {A} (enc : A -> list Z) size l :
  (forall x, zlen (enc x) = size) -> zlen (flat_map enc l) = zlen l * size.
Proof.
  intro H. induction l as [|x l IH]; [reflexivity|]. cbn [flat_map]. rewrite zlen_app, zlen_cons, IH, H. lia.
Qed.

Lemma sizes_bounds hab bc : flavour_ok hab = true ->
  2 <= field_size hab bc <= 8 /\ 2 <= shape_size hab bc <= 8.
Proof.
  intro Hf. pose proof (flavour_ok_bytes _ Hf) as [_ Hr]. unfold field_size, shape_size. destruct (bc_widths bc); lia.
Qed.

Lemma zlen_encode_format hab bc f : flavour_ok hab = true -> zlen (encode_format hab bc f) = field_size hab bc.
Proof.
  intro Hf. pose proof (sizes_bounds hab bc Hf). unfold encode_format, store_bytes_be. rewrite zlen_cons, zlen_be_encode. lia.
Qed.
Lemma zlen_encode_dim hab bc d : flavour_ok hab = true -> zlen (encode_dim hab bc d) = shape_size hab bc.
Proof.
  intro Hf. pose proof (sizes_bounds hab bc Hf). unfold encode_dim, store_bytes_be. rewrite zlen_cons, zlen_be_encode. lia.
Qed.

Lemma be_value_encode n v : 0 <= n <= 8 -> 0 <= v < 256 ^ n -> be_value (store_bytes_be n v) = Some v.
Proof.
  intros Hn Hv. unfold be_value, load_bytes_be, store_bytes_be. rewrite zlen_be_encode.
  destruct (Z.of_nat (Z.to_nat n) <=? 8) eqn:E; [|lia]. rewrite be_decode_encode_small; [reflexivity|].
  rewrite Z2Nat.id by lia. exact Hv.
Qed.

Lemma decode_formats_ok hab bc l : flavour_ok hab = true ->
  Forall (fun f => 0 <= snd f < 256 ^ (field_size hab bc - 1)) l ->
  decode_formats (fields (field_size hab bc) (length (flat_map (encode_format hab bc) l)) (flat_map (encode_format hab bc) l))
  = Some l.
Proof.
  intros Hf Hl. pose proof (sizes_bounds hab bc Hf).
  rewrite fields_flat; [|lia|intros; now apply zlen_encode_format|].
  2:{ apply length_flat_ge. intros x _. rewrite zlen_encode_format by exact Hf. lia. }
  induction Hl as [|[t v] l Hv Hl IH]; [reflexivity|]. cbn [map decode_formats]. rewrite IH.
  cbn [encode_format hd tl fst snd] in *. rewrite be_value_encode by lia. reflexivity.
Qed.

Definition received_dim (d : Z) : Z := if d <? 0 then -1 else d.

Lemma decode_dims_ok hab bc l : flavour_ok hab = true ->
  Forall (fun d => d < 256 ^ (shape_size hab bc - 1)) l ->
  decode_dims bc (fields (shape_size hab bc) (length (flat_map (encode_dim hab bc) l)) (flat_map (encode_dim hab bc) l))
  = Some (map received_dim l).
Proof.
  intros Hf Hl. pose proof (sizes_bounds hab bc Hf).
  rewrite fields_flat; [|lia|intros; now apply zlen_encode_dim|].
  2:{ apply length_flat_ge. intros x _. rewrite zlen_encode_dim by exact Hf. lia. }
  induction Hl as [|d l Hv Hl IH]; [reflexivity|]. cbn [map decode_dims]. rewrite IH.
  cbn [encode_dim hd tl]. unfold received_dim. destruct (d <? 0) eqn:E.
  - destruct (bc_shape1 bc); reflexivity.
  - change (Z.land 0 (if bc_shape1 bc then 2 else 1)) with 0. cbn [negb Z.eqb].
    rewrite be_value_encode by lia. reflexivity.
Qed.

Lemma add_single r :
  rpkt_ok r -> exists h, add_packet (live_heap_new r) r true = Added h /\ heap_inv true h [r] /\
    lh_cnt h = rp_cnt r /\ lh_hab h = rp_hab r.
Proof.
  intro Hr. destruct (add_packet_step true (live_heap_new r) [] r (heap_inv_new true r) Hr) as [HR|(h & H1 & H2 & H3 & H4 & _)].
  - exfalso. unfold add_packet in HR.
    assert (EI : inconsistent (live_heap_new r) r = false).
    { unfold inconsistent. cbn [live_heap_new lh_hlen lh_min lh_hab].
      destruct (ro_hlen r Hr) as [E|E]; lia. }
    rewrite EI in HR. unfold new_packet in HR. cbn [live_heap_new lh_ranges] in HR.
    unfold add_payload_range in HR. cbn [upper_bound join_next] in HR.
    destruct (reserve_for _ _) as [[[[hl ml] mem] res]|]; [|discriminate].
    destruct (add_pointers _ _ _); [|discriminate].
    destruct (0 <? rp_plen r); [|discriminate]. destruct (mem_write _ _ _); discriminate.
  - exists h. split; [exact H1|]. split; [exact H2|]. split; [exact H3|exact H4].
Qed.

Lemma first_occurrences_NoDup_id l : NoDup l -> first_occurrences l = l.
Proof.
  induction l as [|x l IH] using rev_ind; intro H; [reflexivity|].
  rewrite first_occurrences_push. apply NoDup_remove in H as [H1 H2]. rewrite app_nil_r in H1, H2.
  rewrite IH by exact H1. destruct (mem_z x l) eqn:E; [apply mem_z_In in E; contradiction|reflexivity].
Qed.

Lemma filter_all {A} (f : A -> bool) l : Forall (fun x => f x = true) l -> filter f l = l.
Proof. induction 1 as [|x l Hx _ IH]; cbn [filter]; [reflexivity|]. now rewrite Hx, IH. Qed.

Lemma receive_segments hab q segs :
  flavour_ok hab = true -> word_ok q -> is_immediate q = true -> 4 < get_id hab q ->
  Forall (fun s => 4 < fst s < 64) segs -> NoDup (map fst segs) -> zlen segs < 60000 ->
  bytes_ok (seg_data segs) -> zlen (seg_data segs) < 2 ^ hab ->
  let L := zlen (seg_data segs) in
  exists f, receive_one (wire_packet hab 0 (special_ptrs hab 1 L 0 L ++ q :: seg_ptrs hab 0 segs) (seg_data segs)) = Some f /\
    fr_hab f = hab /\ fr_cnt f = 1 /\
    (exists post, fr_payload f = map Some (seg_data segs) ++ post) /\
    fr_items f = seg_items 0 segs ++
      [{| ri_id := get_id hab q; ri_imm := true; ri_start := 0; ri_len := hab / 8; ri_value := get_immediate hab q |}] /\
    ritem_value f {| ri_id := get_id hab q; ri_imm := true; ri_start := 0; ri_len := hab / 8; ri_value := get_immediate hab q |}
      = Some (be_encode (Z.to_nat (hab / 8)) (get_immediate hab q)).
Proof.
  intros Hf Hw Hq Hqid Hid Hnd Hn Hb HL L. pose proof (flavour_ok_range _ Hf) as Hr.
  pose proof (zlen_nonneg (seg_data segs)) as H0.
  pose proof (seg_ptrs_facts hab segs Hf 0 Hid ltac:(lia) ltac:(lia)) as HF. rewrite Forall_forall in HF.
  assert (Hzl : forall o, zlen (seg_ptrs hab o segs) = zlen segs).
  { clear. induction segs as [|[id d] segs IH]; intro o; [reflexivity|]. cbn [seg_ptrs]. rewrite !zlen_cons, IH. reflexivity. }
  assert (H2h : 2 ^ 8 <= 2 ^ hab) by (apply Z.pow_le_mono_r; lia).
  assert (HWd : Forall word_ok (q :: seg_ptrs hab 0 segs)).
  { constructor; [exact Hw|]. apply Forall_forall. intros p Hp. now apply HF. }
  assert (HKp : Forall (fun p => kept hab p = true) (q :: seg_ptrs hab 0 segs)).
  { constructor; [unfold kept; lia|]. apply Forall_forall. intros p Hp. now apply HF. }
  assert (HNw : zlen (q :: seg_ptrs hab 0 segs) + 4 < 65536) by (rewrite zlen_cons, Hzl; lia).
  destruct (wire_decodes hab 1 L 0 (q :: seg_ptrs hab 0 segs) (seg_data segs) Hf ltac:(lia) ltac:(unfold L; lia) ltac:(lia)
    ltac:(unfold L; lia) HWd HKp HNw Hb) as [HD HDec].
  fold L in HD, HDec. unfold receive_one. rewrite HD.
  set (r := {| rp_hab := hab; rp_cnt := 1; rp_hlen := L; rp_off := 0; rp_plen := L;
               rp_ptrs := q :: seg_ptrs hab 0 segs; rp_payload := seg_data segs |}) in *.
  destruct (add_single r (decoded_ok _ HDec)) as (h & -> & HI & Hc & Hh).
  change (rp_hab r) with hab in Hh. change (rp_cnt r) with 1 in Hc.
  assert (HR : lh_recv h = L).
  { rewrite (hi_recv _ _ _ HI). unfold total_payload. cbn. lia. }
  assert (HLn : lh_hlen h = L).
  { destruct (hi_hlen _ _ _ HI) as [[_ H]|(_ & (p & [<-|[]] & H) & _)]; [|now symmetry].
    inversion H as [|? ? E _]; subst. cbn in E. unfold L in *. lia. }
  assert (HM : lh_min h = L).
  { rewrite (hi_min _ _ _ HI). cbn [flat_map]. rewrite app_nil_r. unfold pkt_extent. cbn [rp_hlen rp_ptrs rp_hab r].
    destruct (0 <=? L) eqn:E; [|unfold L in *; lia]. cbn [zmax0 fold_right]. apply Z.max_l.
    change (zmax0 (map (get_address hab) (filter (fun p => negb (is_immediate p)) (q :: seg_ptrs hab 0 segs))) <= L).
    assert (G : forall l, (forall x, In x l -> x <= L) -> zmax0 l <= L).
    { unfold L. clear - H0. induction l as [|x l IH]; intro H; cbn [zmax0 fold_right]; [lia|].
      apply Z.max_lub; [apply H; now left|apply IH; intros; apply H; now right]. }
    apply G. intros x Hx. apply in_map_iff in Hx as (p & <- & Hp). apply filter_In in Hp as [Hp Hi].
    destruct Hp as [<-|Hp]; [rewrite Hq in Hi; discriminate|]. pose proof (HF p Hp) as (_ & _ & _ & HA). unfold L. lia. }
  assert (EC : is_complete h = true) by (unfold is_complete; lia).
  rewrite EC. unfold freeze.
  destruct (load_spec h true true) as (f & -> & F1 & F2 & F3 & F4 & F5); [now rewrite Hh|].
  exists f. split; [reflexivity|]. split; [now rewrite F2|]. split; [now rewrite F1|].
  assert (HPtr : lh_pointers h = q :: seg_ptrs hab 0 segs).
  { assert (HE : lh_pointers h = first_occurrences (kept_of (lh_hab h) [r])).
    { unfold lh_pointers. destruct (hi_ptrs _ _ _ HI) as [(H1 & _ & H3 & _)|(H1 & H2 & _)];
        cbn [lh_store ps_ninline ps_inline ps_ext] in *.
      - destruct (0 <=? lh_ninline h) eqn:E; [exact H3|lia].
      - destruct (0 <=? lh_ninline h) eqn:E; [lia|exact H2]. }
    rewrite HE. unfold kept_of. cbn [flat_map]. rewrite app_nil_r, Hh. cbn [rp_ptrs r].
    rewrite filter_all by exact HKp.
    apply first_occurrences_NoDup_id. constructor.
    - intro Hin. pose proof (HF q Hin) as (_ & _ & E & _). congruence.
    - assert (G : forall segs o, Forall (fun s => 4 < fst s < 64) segs -> NoDup (map fst segs) -> 0 <= o -> o + zlen (seg_data segs) < 2 ^ hab ->
                 NoDup (seg_ptrs hab o segs) /\ forall p, In p (seg_ptrs hab o segs) -> In (get_id hab p) (map fst segs)).
      { clear - Hf. induction segs as [|[id d] segs IH]; intros o Hid Hnd Ho HL.
        - split; [constructor|intros p []].
        - rewrite seg_data_cons, zlen_app in HL. pose proof (zlen_nonneg d). pose proof (zlen_nonneg (seg_data segs)).
          inversion Hid as [|? ? H1 H2]; subst. cbn [fst] in H1. cbn [map fst] in *.
          inversion Hnd as [|? ? N1 N2]; subst.
          destruct (IH (o + zlen d) H2 N2 ltac:(lia) ltac:(lia)) as [I1 I2].
          destruct (C01_address_round_trip hab id o Hf) as (_ & _ & _ & A3 & _).
          { split; [apply flavour_small_id; [exact Hf|lia]|lia]. }
          cbn [seg_ptrs]. split.
          + constructor; [|exact I1]. intro Hin. apply I2 in Hin. rewrite A3 in Hin. contradiction.
          + intros p [<-|Hp]; [left; now rewrite A3|right; now apply I2]. }
      apply G; [exact Hid|exact Hnd|lia|lia]. }
  assert (HIt : fr_items f = seg_items 0 segs ++
      [{| ri_id := get_id hab q; ri_imm := true; ri_start := 0; ri_len := hab / 8; ri_value := get_immediate hab q |}]).
  { rewrite F4, HPtr, Hh, HM. unfold stable_sort. cbn [fold_right].
    change (fold_right (insert_by (sort_key hab)) [] (seg_ptrs hab 0 segs)) with (stable_sort (sort_key hab) (seg_ptrs hab 0 segs)).
    rewrite seg_ptrs_sorted by (try assumption; lia).
    rewrite insert_end.
    - apply seg_items_of; try assumption; unfold L; lia.
    - apply Forall_forall. intros p Hp. pose proof (HF p Hp) as (B1 & _ & B3 & B4).
      rewrite !sort_key_arith by (try exact B1; try exact Hw; lia). rewrite B3, Hq.
      pose proof (get_address_range hab q ltac:(lia)).
      assert (2 ^ hab <= 2 ^ 63) by (apply Z.pow_le_mono_r; lia). lia. }
  split.
  { rewrite F3. exists (slice (lh_mem h) L (zlen (lh_mem h) - L)).
    pose proof (inv_slice _ _ _ r HI (or_introl eq_refl)) as HS. cbn [r rp_off rp_plen rp_payload] in HS.
    rewrite <- HS.
    assert (HZ : L <= zlen (lh_mem h)).
    { rewrite (hi_res _ _ _ HI). pose proof (hi_fit _ _ _ HI) as HFt. inversion HFt as [|? ? E _]; subst. exact E. }
    pose proof (slice_split (lh_mem h) 0 L (zlen (lh_mem h) - L) ltac:(lia) ltac:(unfold L; lia) ltac:(lia)) as E.
    rewrite Z.add_0_l in E. rewrite <- E.
    replace (L + (zlen (lh_mem h) - L)) with (zlen (lh_mem h)) by lia. now rewrite slice_full. }
  split; [exact HIt|].
  match goal with |- ritem_value f ?it = _ => destruct (F5 it) as [HV _] end.
  - rewrite HIt. apply in_or_app. right. now left.
  - reflexivity.
  - rewrite Hh in HV. exact HV.
Qed.
