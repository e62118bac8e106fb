(** Descriptors survive encoding and decoding (C16). *)
From Coq Require Import ZArith List Lia Bool.
From Coq Require Import ZifyBool ZifyNat.
From Verif Require Import Base CodecModel CodecProofs CodecProps PacketSpec RecvPacketModel
  SendPacketModel SendSpec SendPacketProofs SendGenProofs
  LiveHeapModel LiveHeapSpec LiveHeapProofs LiveHeapProps RecvHeapModel RecvHeapProofs RecvHeapProps ReassembleProofs E2EProofs DescriptorModel DescriptorProofs.
Import ListNotations.
Open Scope Z_scope.

(** Number of bytes the descriptor's fields occupy. *)
Definition descriptor_bytes (hab : Z) (bc : bug_compat) (d : descriptor) : Z :=
  zlen (d_name d) + zlen (d_description d) + zlen (d_format d) * field_size hab bc
  + zlen (d_shape d) * shape_size hab bc + zlen (d_numpy d).

(** Descriptors whose fields fit the flavour. *)
Record descriptor_fits (hab : Z) (bc : bug_compat) (d : descriptor) : Prop := {
  df_id : 0 < d_id d < 2 ^ (63 - hab) /\ d_id d < 2 ^ hab;
  df_strings : bytes_ok (d_name d) /\ bytes_ok (d_description d) /\ bytes_ok (d_numpy d);
  df_format : Forall (fun f => byte_ok (fst f) /\ 0 <= snd f < 256 ^ (field_size hab bc - 1)) (d_format d);
  df_shape : Forall (fun s => s < 256 ^ (shape_size hab bc - 1)) (d_shape d);
  df_size : descriptor_bytes hab bc d < 2 ^ hab
}.

(** What the receiver sees of a descriptor: any negative dimension is -1, and a
    numpy header replaces format and shape. *)
Definition as_received (d : descriptor) : descriptor :=
  {| d_id := d_id d; d_name := d_name d; d_description := d_description d;
     d_format := match d_numpy d with [] => d_format d | _ => [] end;
     d_shape := match d_numpy d with [] => map (fun s => if s <? 0 then -1 else s) (d_shape d) | _ => [] end;
     d_numpy := d_numpy d |}.

Definition segments (hab : Z) (bc : bug_compat) (d : descriptor) : list (Z * list Z) :=
  [(DESCRIPTOR_NAME_ID, d_name d); (DESCRIPTOR_DESCRIPTION_ID, d_description d);
   (DESCRIPTOR_FORMAT_ID, flat_map (encode_format hab bc) (d_format d));
   (DESCRIPTOR_SHAPE_ID, flat_map (encode_dim hab bc) (d_shape d))]
  ++ match d_numpy d with [] => [] | _ => [(DESCRIPTOR_DTYPE_ID, d_numpy d)] end.

Lemma segments_data hab bc d :
  seg_data (segments hab bc d) =
  d_name d ++ d_description d ++ flat_map (encode_format hab bc) (d_format d)
  ++ flat_map (encode_dim hab bc) (d_shape d) ++ d_numpy d.
Proof. unfold seg_data, segments. destruct (d_numpy d); cbn [app flat_map snd]; rewrite ?app_nil_r; reflexivity. Qed.

Lemma segments_zlen hab bc d : flavour_ok hab = true ->
  zlen (seg_data (segments hab bc d)) = descriptor_bytes hab bc d.
Proof.
  intro Hf. rewrite segments_data, !zlen_app. unfold descriptor_bytes.
  rewrite (zlen_flat _ (field_size hab bc)) by (intro; now apply zlen_encode_format).
  rewrite (zlen_flat _ (shape_size hab bc)) by (intro; now apply zlen_encode_dim). lia.
Qed.

Lemma encode_descriptor_wire hab bc d :
  flavour_ok hab = true -> 0 < d_id d < 2 ^ (63 - hab) ->
  let L := descriptor_bytes hab bc d in
  encode_descriptor hab bc d =
  Some (wire_packet hab 0 (special_ptrs hab 1 L 0 L ++ encode_immediate hab DESCRIPTOR_ID_ID (d_id d)
          :: seg_ptrs hab 0 (segments hab bc d)) (seg_data (segments hab bc d))).
Proof.
  intros Hf Hid. cbv zeta. unfold descriptor_bytes. pose proof (flavour_ok_range _ Hf) as Hr. unfold encode_descriptor.
  rewrite Z.shiftl_1_l. change (8 * 8 - 1 - hab) with (63 - hab).
  destruct ((d_id d <=? 0) || (2 ^ (63 - hab) <=? d_id d)) eqn:E; [lia|]. f_equal.
  rewrite segments_data. unfold wire_packet.
  assert (EH : forall n, 0 <= n < 100 -> be_encode 8 (Z.lor (Z.lor (Z.lor (Z.shiftl 21252 48) (Z.shiftl (8 - hab / 8) 40)) (Z.shiftl (hab / 8) 32)) (n + 4))
    = [83; 4; 8 - hab / 8; hab / 8] ++ be_encode 2 0 ++ be_encode 2 (n + 4)).
  { intros n Hn. apply (header_word_bytes hab n Hf); lia. }
  assert (EF : zlen (flat_map (encode_format hab bc) (d_format d)) = zlen (d_format d) * field_size hab bc)
    by (apply zlen_flat; intro; now apply zlen_encode_format).
  assert (ES : zlen (flat_map (encode_dim hab bc) (d_shape d)) = zlen (d_shape d) * shape_size hab bc)
    by (apply zlen_flat; intro; now apply zlen_encode_dim).
  unfold segments. destruct (d_numpy d) as [|b np] eqn:EN.
  - change (zlen (@nil Z) =? 0) with true. cbn [negb app seg_ptrs].
    change (9 + 0) with (5 + 4). rewrite EH by lia. rewrite EF.
    unfold special_ptrs. rewrite <- (app_assoc [83; 4; 8 - hab / 8; hab / 8]), <- (app_assoc (be_encode 2 0)), Z.add_0_l.
    reflexivity.
  - assert (En : zlen (b :: np) =? 0 = false) by (rewrite zlen_cons; pose proof (zlen_nonneg np); lia).
    rewrite En. cbn [negb app seg_ptrs].
    change (9 + 1) with (6 + 4). rewrite EH by lia. rewrite EF, ES.
    unfold special_ptrs. rewrite <- (app_assoc [83; 4; 8 - hab / 8; hab / 8]), <- (app_assoc (be_encode 2 0)), Z.add_0_l.
    reflexivity.
Qed.

(** C16: for every flavour, bug-compatibility setting and descriptor whose
    fields fit, the packet made by add_descriptor is accepted as a complete heap
    and decodes to the descriptor that was added. *)
Theorem C16_descriptor_round_trip : forall hab bc d,
  flavour_ok hab = true -> descriptor_fits hab bc d ->
  exists data f, encode_descriptor hab bc d = Some data /\ receive_one data = Some f /\
    to_descriptor bc f = Some (as_received d).
Proof.
  intros hab bc d Hf [[Hid Hid2] (S1 & S2 & S3) HF HS HL]. pose proof (flavour_ok_range _ Hf) as Hr.
  pose proof (flavour_ok_bytes _ Hf) as [E8 H8].
  pose proof (encode_descriptor_wire hab bc d Hf Hid) as HE. cbv zeta in HE.
  eexists. pose proof (segments_zlen hab bc d Hf) as HZ.
  assert (I20 : 0 <= DESCRIPTOR_ID_ID < 2 ^ (63 - hab)) by (apply flavour_small_id; [exact Hf|unfold DESCRIPTOR_ID_ID; lia]).
  destruct (C01_immediate_round_trip hab DESCRIPTOR_ID_ID (d_id d) Hf) as (_ & A1 & A2 & A3 & A4); [split; [exact I20|lia]|].
  destruct (receive_segments hab (encode_immediate hab DESCRIPTOR_ID_ID (d_id d)) (segments hab bc d) Hf A1 A2)
    as (f & HRx & Hh & _ & (post & HP) & HI & HV).
  - rewrite A3. unfold DESCRIPTOR_ID_ID. lia.
  - unfold segments, DESCRIPTOR_NAME_ID, DESCRIPTOR_DESCRIPTION_ID, DESCRIPTOR_FORMAT_ID, DESCRIPTOR_SHAPE_ID, DESCRIPTOR_DTYPE_ID.
    apply Forall_app. split; [repeat (constructor; [cbn [fst]; lia|]); constructor|].
    destruct (d_numpy d); repeat (constructor; [cbn [fst]; lia|]); constructor.
  - unfold segments. destruct (d_numpy d); cbn [app map fst];
      unfold DESCRIPTOR_NAME_ID, DESCRIPTOR_DESCRIPTION_ID, DESCRIPTOR_FORMAT_ID, DESCRIPTOR_SHAPE_ID, DESCRIPTOR_DTYPE_ID;
      repeat (constructor; [cbn [In]; lia|]); constructor.
  - unfold segments. rewrite zlen_app. destruct (d_numpy d); rewrite !zlen_cons, !zlen_nil; lia.
  - rewrite segments_data, !bytes_ok_app. split; [exact S1|]. split; [exact S2|].
    assert (G : forall (A : Type) (enc : A -> list Z) l, (forall x, In x l -> bytes_ok (enc x)) -> bytes_ok (flat_map enc l)).
    { intros A enc. induction l as [|x l IH]; intro H; cbn [flat_map]; [constructor|]. apply bytes_ok_app.
      split; [apply H; now left|apply IH; intros; apply H; now right]. }
    split; [|split; [|exact S3]].
    + apply G. intros x Hx. rewrite Forall_forall in HF. destruct (HF x Hx) as [B _].
      constructor; [exact B|apply be_encode_ok].
    + apply G. intros x Hx. constructor; [|apply be_encode_ok]. unfold byte_ok. destruct (x <? 0), (bc_shape1 bc); lia.
  - rewrite HZ. exact HL.
  - rewrite HZ in HRx. exists f. split; [exact HE|]. split; [exact HRx|].
    unfold to_descriptor. rewrite HI, Hh, fold_left_app.
    change (seg_items 0 (segments hab bc d)) with (seg_items (zlen (@nil Z)) (segments hab bc d)). rewrite (seg_items_fold hab bc f (segments hab bc d) [] post) by exact HP.
    assert (EFm : decode_formats (fields (field_size hab bc) (length (flat_map (encode_format hab bc) (d_format d)))
                   (flat_map (encode_format hab bc) (d_format d))) = Some (d_format d)).
    { apply decode_formats_ok; [exact Hf|]. eapply Forall_impl; [|exact HF]. cbn. tauto. }
    pose proof (decode_dims_ok hab bc (d_shape d) Hf HS) as EDm.
    assert (N0 : forall A (l : list A), zlen l = 0 -> l = []).
    { intros A [|x l] H; [reflexivity|]. rewrite zlen_cons in H. pose proof (zlen_nonneg l). lia. }
    assert (EFold : fold_left (seg_step hab bc) (segments hab bc d) (Some descriptor_empty) =
      Some {| d_id := 0; d_name := d_name d; d_description := d_description d; d_format := d_format d;
              d_shape := map received_dim (d_shape d); d_numpy := d_numpy d |}).
    { unfold segments. rewrite fold_left_app. cbn [fold_left].
      assert (X1 : seg_step hab bc (Some descriptor_empty) (DESCRIPTOR_NAME_ID, d_name d) =
        Some {| d_id := 0; d_name := d_name d; d_description := []; d_format := []; d_shape := []; d_numpy := [] |}).
      { unfold seg_step. cbn [fst snd]. destruct (Z.eqb_spec (zlen (d_name d)) 0) as [E|E]; [now rewrite (N0 _ _ E)|reflexivity]. }
      rewrite X1.
      assert (X2 : seg_step hab bc (Some {| d_id := 0; d_name := d_name d; d_description := []; d_format := []; d_shape := []; d_numpy := [] |}) (DESCRIPTOR_DESCRIPTION_ID, d_description d) =
        Some {| d_id := 0; d_name := d_name d; d_description := d_description d; d_format := []; d_shape := []; d_numpy := [] |}).
      { unfold seg_step. cbn [fst snd]. destruct (Z.eqb_spec (zlen (d_description d)) 0) as [E|E]; [now rewrite (N0 _ _ E)|reflexivity]. }
      rewrite X2.
      assert (X3 : seg_step hab bc (Some {| d_id := 0; d_name := d_name d; d_description := d_description d; d_format := []; d_shape := []; d_numpy := [] |}) (DESCRIPTOR_FORMAT_ID, flat_map (encode_format hab bc) (d_format d)) =
        Some {| d_id := 0; d_name := d_name d; d_description := d_description d; d_format := d_format d; d_shape := []; d_numpy := [] |}).
      { unfold seg_step. cbn [fst snd]. destruct (Z.eqb_spec (zlen (flat_map (encode_format hab bc) (d_format d))) 0) as [E|E].
        - rewrite (N0 _ _ E) in EFm. cbn in EFm. injection EFm as <-. reflexivity.
        - unfold descriptor_field. change (DESCRIPTOR_FORMAT_ID =? DESCRIPTOR_ID_ID) with false.
          change (DESCRIPTOR_FORMAT_ID =? DESCRIPTOR_NAME_ID) with false. change (DESCRIPTOR_FORMAT_ID =? DESCRIPTOR_DESCRIPTION_ID) with false.
          change (DESCRIPTOR_FORMAT_ID =? DESCRIPTOR_FORMAT_ID) with true. cbv iota. now rewrite EFm. }
      rewrite X3.
      assert (X4 : seg_step hab bc (Some {| d_id := 0; d_name := d_name d; d_description := d_description d; d_format := d_format d; d_shape := []; d_numpy := [] |}) (DESCRIPTOR_SHAPE_ID, flat_map (encode_dim hab bc) (d_shape d)) =
        Some {| d_id := 0; d_name := d_name d; d_description := d_description d; d_format := d_format d; d_shape := map received_dim (d_shape d); d_numpy := [] |}).
      { unfold seg_step. cbn [fst snd]. destruct (Z.eqb_spec (zlen (flat_map (encode_dim hab bc) (d_shape d))) 0) as [E|E].
        - rewrite (N0 _ _ E) in EDm. cbn in EDm. injection EDm as <-. reflexivity.
        - unfold descriptor_field. change (DESCRIPTOR_SHAPE_ID =? DESCRIPTOR_ID_ID) with false.
          change (DESCRIPTOR_SHAPE_ID =? DESCRIPTOR_NAME_ID) with false. change (DESCRIPTOR_SHAPE_ID =? DESCRIPTOR_DESCRIPTION_ID) with false.
          change (DESCRIPTOR_SHAPE_ID =? DESCRIPTOR_FORMAT_ID) with false. change (DESCRIPTOR_SHAPE_ID =? DESCRIPTOR_SHAPE_ID) with true.
          cbv iota. now rewrite EDm. }
      rewrite X4. destruct (d_numpy d) as [|b np] eqn:EN; [reflexivity|]. cbn [fold_left]. unfold seg_step. cbn [fst snd].
      destruct (Z.eqb_spec (zlen (b :: np)) 0) as [E|E]; [rewrite zlen_cons in E; pose proof (zlen_nonneg np); lia|reflexivity]. }
    rewrite EFold. cbn [fold_left]. unfold descriptor_step. rewrite HV. cbn [ri_id ri_imm].
    rewrite A3, A4. unfold descriptor_field. change (DESCRIPTOR_ID_ID =? DESCRIPTOR_ID_ID) with true. cbv iota.
    assert (EV : be_value (be_encode (Z.to_nat (hab / 8)) (d_id d)) = Some (d_id d)).
    { apply be_value_encode; [lia|]. change 256 with (2 ^ 8). rewrite <- Z.pow_mul_r by lia.
      replace (8 * (hab / 8)) with hab by lia. lia. }
    rewrite EV. cbn [d_numpy d_id d_name d_description d_format d_shape]. unfold as_received.
    destruct (d_numpy d) as [|b np] eqn:EN; [reflexivity|].
    destruct (Z.eqb_spec (zlen (b :: np)) 0) as [E|E]; [rewrite zlen_cons in E; pose proof (zlen_nonneg np); lia|reflexivity].
Qed.

(** A descriptor with every field, a variable dimension and more than one
    format field, in an ordinary flavour. *)
Definition ex_descriptor : descriptor :=
  {| d_id := 4660; d_name := [110; 97; 109]; d_description := [100]; d_format := [(117, 12); (99, 8)];
     d_shape := [5; -3; 70000]; d_numpy := [] |}.
Example C16_ex_fits : descriptor_fits 40 {| bc_widths := false; bc_shape1 := false |} ex_descriptor /\
                      descriptor_fits 48 {| bc_widths := true; bc_shape1 := true |} ex_descriptor.
Proof.
  split; constructor; cbn; unfold bytes_ok, byte_ok, descriptor_bytes, field_size, shape_size; cbn;
    repeat match goal with
    | |- _ /\ _ => split
    | |- Forall _ _ => constructor
    end; cbn; try lia; unfold byte_ok; try lia; reflexivity.
Qed.
Definition ex_decoded (hab : Z) (bc : bug_compat) (d : descriptor) : option descriptor :=
  match encode_descriptor hab bc d with
  | None => None
  | Some data => match receive_one data with None => None | Some f => to_descriptor bc f end
  end.
Example C16_ex : ex_decoded 40 {| bc_widths := false; bc_shape1 := false |} ex_descriptor =
  Some {| d_id := 4660; d_name := [110; 97; 109]; d_description := [100]; d_format := [(117, 12); (99, 8)];
          d_shape := [5; -1; 70000]; d_numpy := [] |}.
Proof. vm_compute. reflexivity. Qed.

(** encode_descriptor accepts every id below 2^(63-hab), but stores it as an
    immediate of [hab] bits: for an id that does not fit, the pointer's own id
    is corrupted and the descriptor arrives as something else. *)
Theorem C16_large_id_refuted : exists hab bc d data f,
  flavour_ok hab = true /\ 0 < d_id d < 2 ^ (63 - hab) /\
  encode_descriptor hab bc d = Some data /\ receive_one data = Some f /\
  to_descriptor bc f <> Some (as_received d).
Proof.
  exists 8, {| bc_widths := false; bc_shape1 := false |},
    {| d_id := 300; d_name := [110]; d_description := []; d_format := []; d_shape := []; d_numpy := [] |}.
  eexists. eexists. split; [reflexivity|]. split; [cbn; lia|]. split; [vm_compute; reflexivity|].
  split; [vm_compute; reflexivity|]. vm_compute. discriminate.
Qed.

(** C52: decoding a descriptor never reads outside the heap or overflows its
    8-byte variable, whatever heap the network delivered. *)
Lemma fields_size size n v : 1 <= size -> forall b r, In (b, r) (fields size n v) -> zlen r = size - 1.
Proof.
  intro Hs. revert v. induction n as [|n IH]; intros v b r H; cbn [fields] in H; [destruct H|].
  destruct (size <=? zlen v) eqn:E; [|destruct H].
  destruct (slice v 0 size) as [|x rest] eqn:ES; [destruct H|].
  destruct H as [H|H]; [|now apply IH in H]. injection H as <- <-.
  assert (HL : zlen (slice v 0 size) = size) by (apply zlen_slice; lia). rewrite ES, zlen_cons in HL. lia.
Qed.

Lemma decode_formats_total l : (forall b r, In (b, r) l -> zlen r <= 8) -> decode_formats l <> None.
Proof.
  induction l as [|[b r] l IH]; intro H; cbn [decode_formats]; [discriminate|].
  unfold be_value, load_bytes_be. pose proof (H b r (or_introl eq_refl)). destruct (zlen r <=? 8) eqn:E; [|lia].
  destruct (decode_formats l); [discriminate|]. apply IH. intros b' r' Hin. apply (H b'). now right.
Qed.
Lemma decode_dims_total bc l : (forall b r, In (b, r) l -> zlen r <= 8) -> decode_dims bc l <> None.
Proof.
  induction l as [|[b r] l IH]; intro H; cbn [decode_dims]; [discriminate|].
  assert (HN : decode_dims bc l <> None) by (apply IH; intros b' r' Hin; apply (H b'); now right).
  unfold be_value, load_bytes_be. pose proof (H b r (or_introl eq_refl)). destruct (zlen r <=? 8) eqn:E; [|lia].
  destruct (decode_dims bc l); [|contradiction]. destruct (negb _); discriminate.
Qed.

Lemma descriptor_field_total hab bc o id imm v :
  flavour_ok hab = true -> (imm = true -> zlen v <= 8) -> descriptor_field hab bc o id imm v <> None.
Proof.
  intros Hf Hv. pose proof (sizes_bounds hab bc Hf) as [B1 B2]. unfold descriptor_field.
  assert (F1 : decode_formats (fields (field_size hab bc) (length v) v) <> None).
  { apply decode_formats_total. intros b r H. apply fields_size in H; lia. }
  assert (F2 : decode_dims bc (fields (shape_size hab bc) (length v) v) <> None).
  { apply decode_dims_total. intros b r H. apply fields_size in H; lia. }
  destruct (id =? DESCRIPTOR_ID_ID).
  { destruct imm; [|discriminate]. specialize (Hv eq_refl). unfold be_value, load_bytes_be.
    destruct (zlen v <=? 8) eqn:E; [discriminate|lia]. }
  destruct (id =? DESCRIPTOR_NAME_ID); [discriminate|]. destruct (id =? DESCRIPTOR_DESCRIPTION_ID); [discriminate|].
  destruct (id =? DESCRIPTOR_FORMAT_ID); [destruct (decode_formats _); [discriminate|contradiction]|].
  destruct (id =? DESCRIPTOR_SHAPE_ID); [destruct (decode_dims _ _); [discriminate|contradiction]|].
  destruct (id =? DESCRIPTOR_DTYPE_ID); discriminate.
Qed.

Theorem C52_to_descriptor_in_bounds : forall bc p0 ooo pkts h bs,
  decoded p0 -> Forall decoded pkts -> reaches p0 ooo pkts h bs -> is_contiguous h = true ->
  exists f d, freeze h = Some f /\ to_descriptor bc f = Some d.
Proof.
  intros bc p0 ooo pkts h bs Hp0 HF HR HC.
  destruct (C14_frozen_items p0 ooo pkts h bs Hp0 HF HR HC) as (f & Hfr & HV & _ & _ & HIm).
  exists f. destruct (reaches_inv _ _ _ _ _ HF HR) as (HI & _ & Hh).
  pose proof (ro_flavour p0 (decoded_ok p0 Hp0)) as Hfl.
  pose proof (flavour_ok_bytes _ Hfl) as [_ H8].
  assert (Hfh : fr_hab f = rp_hab p0).
  { unfold freeze in Hfr. destruct (load_spec h true true) as (f' & E & _ & E2 & _); [now rewrite Hh|].
    rewrite E in Hfr. injection Hfr as <-. congruence. }
  unfold to_descriptor. rewrite Hfh.
  assert (G : forall items, (forall it, In it items -> In it (fr_items f)) -> forall o,
    exists o', fold_left (descriptor_step (rp_hab p0) bc f) items (Some o) = Some o').
  { induction items as [|it items IH]; intros Hin o; [now exists o|]. cbn [fold_left].
    pose proof (Hin it (or_introl eq_refl)) as Hit. destruct (HV it Hit) as (v & Ev & Elen).
    unfold descriptor_step at 2. rewrite Ev.
    destruct (descriptor_field (rp_hab p0) bc o (ri_id it) (ri_imm it) v) as [o'|] eqn:E.
    - apply IH. intros; apply Hin; now right.
    - exfalso. revert E. apply descriptor_field_total; [exact Hfl|]. intro Im.
      destruct (proj1 (HIm (ri_id it) v)) as (q & _ & _ & _ & _ & ->).
      { exists it. split; [exact Hit|]. split; [exact Im|]. split; [reflexivity|exact Ev]. }
      rewrite zlen_be_encode. lia. }
  destruct (G (fr_items f) (fun _ H => H) descriptor_empty) as (o' & ->).
  destruct (zlen (d_numpy o') =? 0); eexists; (split; [exact Hfr|reflexivity]).
Qed.

(** The hypotheses are met by any single decoded packet, for instance one whose
    format item has a length that is not a multiple of the field size. *)
Example C52_ex :
  (exists data r h, decode_rpkt data = Some r /\ reaches r true [r] h [true] /\ is_contiguous h = true /\
    exists f, freeze h = Some f /\
    to_descriptor {| bc_widths := false; bc_shape1 := false |} f =
      Some {| d_id := 0; d_name := []; d_description := []; d_format := [(1, 515)]; d_shape := []; d_numpy := [] |}).
Proof.
  exists (wire_packet 48 0 (special_ptrs 48 7 5 0 5 ++ [encode_address 48 DESCRIPTOR_FORMAT_ID 0]) [1; 2; 3; 9; 9]).
  eexists. eexists. split; [vm_compute; reflexivity|]. split; [vm_compute; reflexivity|]. split; [vm_compute; reflexivity|].
  eexists. split; vm_compute; reflexivity.
Qed.

Print Assumptions C16_descriptor_round_trip.
Print Assumptions C16_large_id_refuted.
Print Assumptions C52_to_descriptor_in_bounds.
