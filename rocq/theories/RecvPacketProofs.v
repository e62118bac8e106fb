(** Proofs about packet decoding. *)
From Coq Require Import ZArith List Lia Bool.
From Coq Require Import ZifyBool.
From Verif Require Import Base CodecModel CodecProofs RecvPacketModel PacketSpec.
Import ListNotations.
Open Scope Z_scope.

Lemma load_be64_inside data off :
  0 <= off -> off + 8 <= zlen data -> load_be64 data off = Some (be_decode (slice data off 8)).
Proof.
  intros H1 H2. unfold load_be64.
  destruct (Z.leb_spec 0 off), (Z.leb_spec (off + 8) (zlen data)); (reflexivity || lia).
Qed.

Lemma load_be64_range data off p : bytes_ok data -> load_be64 data off = Some p -> word_ok p.
Proof.
  unfold load_be64, word_ok. intros Hb H.
  destruct (0 <=? off) eqn:E1; [|discriminate].
  destruct (off + 8 <=? zlen data) eqn:E2; [|discriminate].
  simpl in H. injection H as <-.
  pose proof (be_decode_bound (slice data off 8) (bytes_ok_slice _ _ _ Hb)) as HB.
  rewrite zlen_slice in HB by lia. exact HB.
Qed.

Lemma extract_bits_arith v a b :
  0 <= a -> 0 <= b -> extract_bits v a b = (v / 2 ^ a) mod 2 ^ b.
Proof.
  intros Ha Hb. unfold extract_bits.
  rewrite Z.shiftr_div_pow2, Z.shiftl_mul_pow2, Z.mul_1_l by lia.
  replace (2 ^ b - 1) with (Z.ones b) by (rewrite Z.ones_equiv; lia).
  now apply Z.land_ones.
Qed.

(** Split a byte string of length at least 8 into its first eight bytes. *)
Lemma split8 (data : list Z) :
  8 <= zlen data ->
  exists b0 b1 b2 b3 b4 b5 b6 b7 rest, data = [b0;b1;b2;b3;b4;b5;b6;b7] ++ rest.
Proof.
  intro H. unfold zlen in H.
  destruct data as [|b0 [|b1 [|b2 [|b3 [|b4 [|b5 [|b6 [|b7 rest]]]]]]]]; simpl in H; try lia.
  do 9 eexists. reflexivity.
Qed.

Lemma be_decode8 b0 b1 b2 b3 b4 b5 b6 b7 :
  be_decode [b0;b1;b2;b3;b4;b5;b6;b7] =
  b0 * 2^56 + b1 * 2^48 + b2 * 2^40 + b3 * 2^32 + b4 * 2^24 + b5 * 2^16 + b6 * 2^8 + b7.
Proof. cbn -[Z.mul Z.add Z.pow]. unfold be_decode. cbn -[Z.mul Z.add Z.pow]. lia. Qed.

Lemma decode_header8 b0 b1 b2 b3 b4 b5 b6 b7 rest :
  bytes_ok ([b0;b1;b2;b3;b4;b5;b6;b7] ++ rest) ->
  decode_header ([b0;b1;b2;b3;b4;b5;b6;b7] ++ rest) =
  Some (if (b0 =? 83) && (b1 =? 4) && (0 <? b2) && (0 <? b3) && (b2 + b3 =? 8)
        then Some (b3 * 8, b6 * 256 + b7) else None).
Proof.
  intro Hb. unfold decode_header.
  rewrite load_be64_inside; [|lia|rewrite zlen_app; pose proof (zlen_nonneg rest); unfold zlen at 1; simpl length; lia].
  replace (slice ([b0;b1;b2;b3;b4;b5;b6;b7] ++ rest) 0 8) with [b0;b1;b2;b3;b4;b5;b6;b7] by reflexivity.
  rewrite be_decode8.
  apply Forall_app in Hb as [Hb _].
  repeat match goal with H : Forall _ (_ :: _) |- _ => inversion H; subst; clear H end.
  unfold byte_ok in *.
  rewrite !extract_bits_arith by lia.
  set (v := b0 * 2^56 + b1 * 2^48 + b2 * 2^40 + b3 * 2^32 + b4 * 2^24 + b5 * 2^16 + b6 * 2^8 + b7).
  assert (E48 : v / 2^48 = b0 * 256 + b1).
  { symmetry; apply (Z.div_unique_pos v (2^48) _ (b2 * 2^40 + b3 * 2^32 + b4 * 2^24 + b5 * 2^16 + b6 * 2^8 + b7)); unfold v; lia. }
  assert (E40 : v / 2^40 = (b0 * 256 + b1) * 256 + b2).
  { symmetry; apply (Z.div_unique_pos v (2^40) _ (b3 * 2^32 + b4 * 2^24 + b5 * 2^16 + b6 * 2^8 + b7)); unfold v; lia. }
  assert (E32 : v / 2^32 = ((b0 * 256 + b1) * 256 + b2) * 256 + b3).
  { symmetry; apply (Z.div_unique_pos v (2^32) _ (b4 * 2^24 + b5 * 2^16 + b6 * 2^8 + b7)); unfold v; lia. }
  assert (M48 : (v / 2^48) mod 2^16 = b0 * 256 + b1) by (rewrite E48; apply Z.mod_small; lia).
  assert (M40 : (v / 2^40) mod 2^8 = b2).
  { rewrite E40. symmetry. apply (Z.mod_unique_pos _ _ (b0 * 256 + b1)); lia. }
  assert (M32 : (v / 2^32) mod 2^8 = b3).
  { rewrite E32. symmetry. apply (Z.mod_unique_pos _ _ ((b0 * 256 + b1) * 256 + b2)); lia. }
  assert (M0 : (v / 2^0) mod 2^16 = b6 * 256 + b7).
  { change (2^0) with 1. rewrite Z.div_1_r. symmetry.
    apply (Z.mod_unique_pos _ _ (b0 * 2^40 + b1 * 2^32 + b2 * 2^24 + b3 * 2^16 + b4 * 2^8 + b5)); unfold v; lia. }
  rewrite M48, M40, M32, M0. unfold magic_version.
  clear E48 E40 E32 M48 M40 M32 M0. clear v.
  assert (B0 : (b0 * 256 + b1 =? 21252) = (b0 =? 83) && (b1 =? 4)) by lia.
  assert (B1 : (b2 * 8 =? 0) || (b3 * 8 =? 0) = negb ((0 <? b2) && (0 <? b3))) by lia.
  assert (B2 : (b2 * 8 + b3 * 8 =? 64) = (b2 + b3 =? 8)) by lia.
  rewrite B0, B1, B2.
  destruct (b0 =? 83), (b1 =? 4), (0 <? b2), (0 <? b3), (b2 + b3 =? 8); reflexivity.
Qed.

(** ** The two pointer loops as functions of the pointer list *)

(** The pointers stored at [8 + 8*i, ...). *)
Definition ptrs_at (data : list Z) (i : Z) (k : nat) : list Z :=
  map (fun j => be_decode (slice data (8 + (i + Z.of_nat j) * 8) 8)) (seq 0 k).

Lemma ptrs_at_S data i k :
  ptrs_at data i (S k) = be_decode (slice data (8 + i * 8) 8) :: ptrs_at data (i + 1) k.
Proof.
  unfold ptrs_at. cbn [seq map]. f_equal.
  - rewrite Z.add_0_r. reflexivity.
  - rewrite <- seq_shift, map_map. apply map_ext. intro j.
    replace (i + Z.of_nat (S j)) with (i + 1 + Z.of_nat j) by lia. reflexivity.
Qed.

Fixpoint fold_specials (hab i : Z) (ptrs : list Z) (s : specials) : specials :=
  match ptrs with
  | [] => s
  | p :: rest => fold_specials hab (i + 1) rest (specials_step hab i s p)
  end.

Lemma specials_loop_fold data hab i k s :
  0 <= i -> 8 + (i + Z.of_nat k) * 8 <= zlen data ->
  specials_loop data hab i k s = Some (fold_specials hab i (ptrs_at data i k) s).
Proof.
  revert i s; induction k as [|k IH]; intros i s Hi Hl; [reflexivity|].
  rewrite ptrs_at_S. cbn [specials_loop fold_specials].
  rewrite load_be64_inside by lia. apply IH; lia.
Qed.

Lemma find_payload_length_first data hab i k :
  0 <= i -> 8 + (i + Z.of_nat k) * 8 <= zlen data ->
  find_payload_length data hab i k =
  Some (match first_imm hab PAYLOAD_LENGTH_ID (ptrs_at data i k) with Some v => v | None => -1 end).
Proof.
  revert i; induction k as [|k IH]; intros i Hi Hl; [reflexivity|].
  rewrite ptrs_at_S. cbn [find_payload_length first_imm].
  rewrite load_be64_inside by lia. unfold imm_with_id.
  destruct (is_immediate _ && _); [reflexivity|]. apply IH; lia.
Qed.

Definition or_else (a : option Z) (d : Z) : Z := match a with Some v => v | None => d end.

Lemma specials_step_spec hab i s p :
  let s' := specials_step hab i s p in
  sp_cnt s' = (if imm_with_id hab HEAP_CNT_ID p then get_immediate hab p else sp_cnt s) /\
  sp_hlen s' = (if imm_with_id hab HEAP_LENGTH_ID p then get_immediate hab p else sp_hlen s) /\
  sp_off s' = (if imm_with_id hab PAYLOAD_OFFSET_ID p then get_immediate hab p else sp_off s) /\
  sp_plen s' = (if imm_with_id hab PAYLOAD_LENGTH_ID p then get_immediate hab p else sp_plen s) /\
  sp_first s' = (if special_ptr hab p then sp_first s else Z.min (sp_first s) i).
Proof.
  unfold special_ptr, imm_with_id, specials_step, HEAP_CNT_ID, HEAP_LENGTH_ID, PAYLOAD_OFFSET_ID, PAYLOAD_LENGTH_ID.
  generalize (get_id hab p) as id; intro id.
  destruct (is_immediate p); [|repeat split; reflexivity].
  destruct (Z.eqb_spec id 1) as [->|N1]; [repeat split; reflexivity|].
  destruct (Z.eqb_spec id 2) as [->|N2]; [repeat split; reflexivity|].
  destruct (Z.eqb_spec id 3) as [->|N3]; [repeat split; reflexivity|].
  destruct (Z.eqb_spec id 4) as [->|N4]; repeat split; reflexivity.
Qed.

Lemma skip_specials_le hab ptrs : 0 <= zlen (skip_specials hab ptrs) <= zlen ptrs.
Proof.
  split; [apply zlen_nonneg|].
  induction ptrs as [|q ptrs IH]; [apply Z.le_refl|]. cbn [skip_specials].
  destruct (special_ptr hab q); rewrite ?zlen_cons; lia.
Qed.

Lemma fold_specials_spec hab ptrs :
  forall i s, 0 <= i ->
  let s' := fold_specials hab i ptrs s in
  sp_cnt s' = or_else (last_imm hab HEAP_CNT_ID ptrs) (sp_cnt s) /\
  sp_hlen s' = or_else (last_imm hab HEAP_LENGTH_ID ptrs) (sp_hlen s) /\
  sp_off s' = or_else (last_imm hab PAYLOAD_OFFSET_ID ptrs) (sp_off s) /\
  sp_plen s' = or_else (last_imm hab PAYLOAD_LENGTH_ID ptrs) (sp_plen s) /\
  sp_first s' = (if zlen (skip_specials hab ptrs) =? 0 then sp_first s
                 else Z.min (sp_first s) (i + skipped hab ptrs)).
Proof.
  induction ptrs as [|p ptrs IH]; intros i s Hi.
  - simpl. repeat split; reflexivity.
  - cbn [fold_specials]. specialize (IH (i + 1) (specials_step hab i s p) ltac:(lia)).
    pose proof (specials_step_spec hab i s p) as HS.
    cbv zeta in IH, HS |- *.
    destruct HS as (T1 & T2 & T3 & T4 & T5). destruct IH as (H1 & H2 & H3 & H4 & H5).
    rewrite H1, H2, H3, H4, H5, T1, T2, T3, T4, T5. clear H1 H2 H3 H4 H5 T1 T2 T3 T4 T5.
    cbn [last_imm].
    split; [destruct (last_imm hab HEAP_CNT_ID ptrs), (imm_with_id hab HEAP_CNT_ID p); reflexivity|].
    split; [destruct (last_imm hab HEAP_LENGTH_ID ptrs), (imm_with_id hab HEAP_LENGTH_ID p); reflexivity|].
    split; [destruct (last_imm hab PAYLOAD_OFFSET_ID ptrs), (imm_with_id hab PAYLOAD_OFFSET_ID p); reflexivity|].
    split; [destruct (last_imm hab PAYLOAD_LENGTH_ID ptrs), (imm_with_id hab PAYLOAD_LENGTH_ID p); reflexivity|].
    pose proof (skip_specials_le hab ptrs) as HL. pose proof (zlen_nonneg ptrs).
    unfold skipped. cbn [skip_specials].
    generalize dependent (sp_first s). intros f.
    destruct (special_ptr hab p).
    + rewrite zlen_cons. destruct (Z.eqb_spec (zlen (skip_specials hab ptrs)) 0); lia.
    + rewrite zlen_cons.
      destruct (Z.eqb_spec (zlen (skip_specials hab ptrs)) 0); destruct (Z.eqb_spec (1 + zlen ptrs) 0); lia.
Qed.

Lemma skip_specials_suffix hab ptrs :
  skip_specials hab ptrs = skipn (Z.to_nat (skipped hab ptrs)) ptrs.
Proof.
  induction ptrs as [|p ptrs IH]; [reflexivity|].
  unfold skipped in *. cbn [skip_specials].
  pose proof (skip_specials_le hab ptrs).
  destruct (special_ptr hab p).
  - rewrite zlen_cons.
    replace (Z.to_nat (1 + zlen ptrs - zlen (skip_specials hab ptrs)))
      with (S (Z.to_nat (zlen ptrs - zlen (skip_specials hab ptrs)))) by lia.
    simpl. exact IH.
  - rewrite Z.sub_diag. reflexivity.
Qed.

Lemma flat_map_be_length ptrs : zlen (flat_map (be_encode 8) ptrs) = 8 * zlen ptrs.
Proof.
  induction ptrs as [|p ptrs IH]; [reflexivity|].
  cbn [flat_map]. rewrite zlen_app, IH, zlen_be_encode, zlen_cons. lia.
Qed.

Lemma zlen_wire hab rsv ptrs payload :
  zlen (wire_packet hab rsv ptrs payload) = 8 + 8 * zlen ptrs + zlen payload.
Proof.
  unfold wire_packet. rewrite !zlen_app, !zlen_be_encode, flat_map_be_length.
  change (zlen [83; 4; 8 - hab / 8; hab / 8]) with 4. lia.
Qed.

Lemma slice8_flat_map (a : list Z) ptrs rest j (d : Z) :
  Forall word_ok ptrs -> (j < length ptrs)%nat ->
  be_decode (slice (a ++ flat_map (be_encode 8) ptrs ++ rest) (zlen a + 8 * Z.of_nat j) 8)
  = nth j ptrs d.
Proof.
  intros Hw Hj.
  rewrite slice_app_r by lia.
  replace (zlen a + 8 * Z.of_nat j - zlen a) with (8 * Z.of_nat j) by lia.
  revert ptrs Hw Hj; induction j as [|j IH]; intros ptrs Hw Hj.
  - destruct ptrs as [|p ptrs]; [simpl in Hj; lia|].
    inversion Hw as [|? ? Hp Hw']; subst. cbn [flat_map nth].
    rewrite <- app_assoc.
    replace (8 * Z.of_nat 0) with 0 by lia.
    rewrite slice_app_l by (rewrite ?zlen_be_encode; lia).
    rewrite slice_0_all by (rewrite zlen_be_encode; lia).
    apply be_decode_encode_small. exact Hp.
  - destruct ptrs as [|p ptrs]; [simpl in Hj; lia|].
    inversion Hw as [|? ? Hp Hw']; subst. cbn [flat_map nth].
    rewrite <- app_assoc, slice_app_r by (rewrite ?zlen_be_encode; lia).
    rewrite zlen_be_encode.
    replace (8 * Z.of_nat (S j) - Z.of_nat 8) with (8 * Z.of_nat j) by lia.
    apply IH; [assumption|simpl in Hj; lia].
Qed.

Lemma map_nth_seq {A} (d : A) l : map (fun j => nth j l d) (seq 0 (length l)) = l.
Proof.
  induction l as [|x l IH]; [reflexivity|].
  simpl. f_equal. rewrite <- seq_shift, map_map. exact IH.
Qed.

Lemma ptrs_at_wire hab rsv ptrs payload rest :
  Forall word_ok ptrs ->
  ptrs_at (wire_packet hab rsv ptrs payload ++ rest) 0 (length ptrs) = ptrs.
Proof.
  intro Hw. unfold ptrs_at. rewrite <- (map_nth_seq 0 ptrs) at 2.
  apply map_ext_in. intros j Hj. apply in_seq in Hj.
  unfold wire_packet.
  set (a := [83; 4; 8 - hab / 8; hab / 8] ++ be_encode 2 rsv ++ be_encode 2 (zlen ptrs)).
  replace (([83; 4; 8 - hab / 8; hab / 8] ++ be_encode 2 rsv ++ be_encode 2 (zlen ptrs)
            ++ flat_map (be_encode 8) ptrs ++ payload) ++ rest)
    with (a ++ flat_map (be_encode 8) ptrs ++ (payload ++ rest))
    by (unfold a; rewrite <- !app_assoc; reflexivity).
  replace (8 + (0 + Z.of_nat j) * 8) with (zlen a + 8 * Z.of_nat j).
  - apply slice8_flat_map; [assumption|lia].
  - unfold a. rewrite !zlen_app, !zlen_be_encode. change (zlen [83; 4; 8 - hab / 8; hab / 8]) with 4. lia.
Qed.

Lemma be_encode_2 v : be_encode 2 v = [v / 256 mod 256; v mod 256].
Proof. reflexivity. Qed.

Lemma decode_header_wire hab rsv ptrs payload rest :
  flavour_ok hab = true -> zlen ptrs < 65536 ->
  decode_header (wire_packet hab rsv ptrs payload ++ rest) = Some (Some (hab, zlen ptrs)).
Proof.
  intros Hf Hn. pose proof (flavour_ok_bytes _ Hf) as [He Hr]. pose proof (zlen_nonneg ptrs).
  unfold decode_header.
  pose proof (zlen_nonneg payload). pose proof (zlen_nonneg rest).
  rewrite load_be64_inside; [|lia|rewrite zlen_app, zlen_wire; lia].
  set (n := zlen ptrs) in *.
  replace (slice (wire_packet hab rsv ptrs payload ++ rest) 0 8)
    with [83; 4; 8 - hab / 8; hab / 8; rsv / 256 mod 256; rsv mod 256; n / 256 mod 256; n mod 256]
    by (unfold wire_packet; rewrite !be_encode_2; fold n; reflexivity).
  set (hd := [83; 4; 8 - hab / 8; hab / 8; rsv / 256 mod 256; rsv mod 256; n / 256 mod 256; n mod 256]).
  assert (Hok : bytes_ok (hd ++ [])).
  { unfold hd; simpl. unfold bytes_ok.
    repeat (apply Forall_cons; [unfold byte_ok; first [lia | apply Z.mod_pos_bound; lia]|]).
    apply Forall_nil. }
  pose proof (decode_header8 83 4 (8 - hab / 8) (hab / 8) (rsv / 256 mod 256) (rsv mod 256)
                (n / 256 mod 256) (n mod 256) [] Hok) as HD.
  unfold decode_header in HD.
  rewrite load_be64_inside in HD by (unfold zlen; simpl; lia).
  change (slice ([83; 4; 8 - hab / 8; hab / 8; rsv / 256 mod 256; rsv mod 256; n / 256 mod 256; n mod 256] ++ []) 0 8) with hd in HD.
  rewrite HD.
  replace (0 <? 8 - hab / 8) with true by lia.
  replace (0 <? hab / 8) with true by lia.
  replace (8 - hab / 8 + hab / 8 =? 8) with true by lia.
  cbn [andb Z.eqb Pos.eqb]. f_equal. f_equal. f_equal; [lia|].
  rewrite (Z.mod_small (n / 256)); [|split; [apply Z.div_pos; lia|apply Z.div_lt_upper_bound; lia]].
  pose proof (Z.div_mod n 256 ltac:(lia)). lia.
Qed.

(** Conversely, any data whose header decodes and whose items fit has the
    shape of a wire packet prefix. *)
Lemma ptrs_at_words data i k :
  bytes_ok data -> 0 <= i -> 8 + (i + Z.of_nat k) * 8 <= zlen data -> Forall word_ok (ptrs_at data i k).
Proof.
  intros Hb; revert i; induction k as [|k IH]; intros i Hi Hl; [constructor|].
  rewrite ptrs_at_S. constructor; [|apply IH; lia].
  eapply load_be64_range; [exact Hb|]. apply load_be64_inside; lia.
Qed.

Lemma ptrs_at_bytes data i k :
  bytes_ok data -> 0 <= i -> 8 + (i + Z.of_nat k) * 8 <= zlen data ->
  flat_map (be_encode 8) (ptrs_at data i k) = slice data (8 + i * 8) (8 * Z.of_nat k).
Proof.
  intros Hb; revert i; induction k as [|k IH]; intros i Hi Hl; [reflexivity|].
  rewrite ptrs_at_S. cbn [flat_map]. rewrite IH by lia.
  assert (E : be_encode 8 (be_decode (slice data (8 + i * 8) 8)) = slice data (8 + i * 8) 8).
  { pose proof (zlen_slice data (8 + i * 8) 8 ltac:(lia) ltac:(lia) ltac:(lia)) as HL.
    unfold zlen in HL.
    replace 8%nat with (length (slice data (8 + i * 8) 8)) at 1 by lia.
    apply be_encode_decode, bytes_ok_slice, Hb. }
  rewrite E. replace (8 * Z.of_nat (S k)) with (8 + 8 * Z.of_nat k) by lia.
  rewrite slice_split by lia. do 2 f_equal. lia.
Qed.

Lemma ptrs_at_length data i k : zlen (ptrs_at data i k) = Z.of_nat k.
Proof. unfold ptrs_at. rewrite zlen_map. unfold zlen. now rewrite seq_length. Qed.

Lemma decode_header_inv data hab n :
  bytes_ok data -> 8 <= zlen data -> decode_header data = Some (Some (hab, n)) ->
  8 + 8 * n <= zlen data ->
  flavour_ok hab = true /\ 0 <= n < 65536 /\
  exists rsv, 0 <= rsv < 65536 /\
    data = wire_packet hab rsv (ptrs_at data 0 (Z.to_nat n)) (slice data (8 + 8 * n) (zlen data - 8 - 8 * n)).
Proof.
  intros Hb H8 HD Hn.
  destruct (split8 data H8) as (b0&b1&b2&b3&b4&b5&b6&b7&rest&Hdata).
  pose proof Hb as Hb'. rewrite Hdata in Hb'.
  pose proof HD as HD'. rewrite Hdata in HD'. rewrite decode_header8 in HD' by assumption.
  apply Forall_app in Hb' as [Hb1 Hb2].
  repeat match goal with H : Forall _ (_ :: _) |- _ => inversion H; subst; clear H end.
  unfold byte_ok in *.
  match type of HD' with Some (if ?c then _ else _) = _ => destruct c eqn:EC; [|discriminate] end.
  injection HD' as <- <-.
  assert (b0 = 83 /\ b1 = 4 /\ 0 < b2 /\ 0 < b3 /\ b2 + b3 = 8) as (-> & -> & Hp2 & Hp3 & Hp8) by lia.
  split; [unfold flavour_ok; rewrite Z.mod_mul by lia; lia|].
  split; [lia|].
  exists (b4 * 256 + b5). split; [lia|].
  set (data := [83;4;b2;b3;b4;b5;b6;b7] ++ rest) in *.
  set (n := b6 * 256 + b7) in *.
  unfold wire_packet.
  rewrite ptrs_at_length, Z2Nat.id by lia.
  rewrite ptrs_at_bytes by (assumption || lia).
  rewrite Z2Nat.id by lia.
  replace (8 + 0 * 8) with 8 by lia.
  rewrite !be_encode_2.
  replace (b3 * 8 / 8) with b3 by (rewrite Z.div_mul; lia).
  replace ((b4 * 256 + b5) / 256) with b4 by (apply (Z.div_unique_pos _ _ _ b5); lia).
  replace ((b4 * 256 + b5) mod 256) with b5 by (apply (Z.mod_unique_pos _ _ b4); lia).
  replace (n / 256) with b6 by (apply (Z.div_unique_pos _ _ _ b7); lia).
  replace (n mod 256) with b7 by (apply (Z.mod_unique_pos _ _ b6); lia).
  rewrite (Z.mod_small b4), (Z.mod_small b6) by lia.
  replace (8 - b3) with b2 by lia.
  rewrite <- slice_split by lia.
  replace (8 * n + (zlen data - 8 - 8 * n)) with (zlen data - 8) by lia.
  change ([83; 4; b2; b3] ++ [b4; b5] ++ [b6; b7] ++ slice data 8 (zlen data - 8))
    with ([83; 4; b2; b3; b4; b5; b6; b7] ++ slice data 8 (zlen data - 8)).
  unfold data at 1. f_equal.
  unfold data. unfold slice. simpl skipn.
  rewrite firstn_all2; [reflexivity|]. rewrite zlen_app. unfold zlen. simpl length. lia.
Qed.

(** *** Main results *)

Lemma decode_packet_no_oob data : bytes_ok data -> decode_packet data <> OOB.
Proof.
  intro Hb. unfold decode_packet.
  destruct (Z.ltb_spec (zlen data) 8) as [L|L]; [discriminate|].
  destruct (split8 data L) as (b0&b1&b2&b3&b4&b5&b6&b7&rest&Hd).
  destruct (decode_header data) as [[[hab n]|]|] eqn:EH; try discriminate.
  - destruct (Z.ltb_spec (zlen data) (n * 8 + 8)) as [L2|L2]; [discriminate|].
    destruct (decode_header_inv data hab n Hb L EH ltac:(lia)) as (_ & Hn & _).
    rewrite specials_loop_fold by (rewrite ?Z2Nat.id; lia).
    repeat match goal with |- (if ?c then _ else _) <> _ => destruct c end; discriminate.
  - rewrite Hd in Hb, EH. rewrite decode_header8 in EH by assumption. discriminate.
Qed.

Lemma get_packet_size_no_oob data : bytes_ok data -> get_packet_size data <> None.
Proof.
  intro Hb. unfold get_packet_size.
  destruct (Z.ltb_spec (zlen data) 8) as [L|L]; [discriminate|].
  destruct (split8 data L) as (b0&b1&b2&b3&b4&b5&b6&b7&rest&Hd).
  destruct (decode_header data) as [[[hab n]|]|] eqn:EH; try discriminate.
  - destruct (Z.ltb_spec (zlen data) (n * 8 + 8)) as [L2|L2]; [discriminate|].
    destruct (decode_header_inv data hab n Hb L EH ltac:(lia)) as (_ & Hn & _).
    rewrite find_payload_length_first by (rewrite ?Z2Nat.id; lia).
    destruct (_ =? -1); discriminate.
  - rewrite Hd in Hb, EH. rewrite decode_header8 in EH by assumption. discriminate.
Qed.

Lemma last_imm_range hab id ptrs v : 0 <= hab -> last_imm hab id ptrs = Some v -> 0 <= v < 2 ^ hab.
Proof.
  intro Hh. induction ptrs as [|p ptrs IH]; [discriminate|]. cbn [last_imm].
  destruct (last_imm hab id ptrs); [intro H; apply IH, H|].
  destruct (imm_with_id hab id p); [|discriminate].
  intro H; injection H as <-. apply get_address_range; lia.
Qed.

Definition the_header (hab : Z) (ptrs payload : list Z) (cnt : Z) (hlen : option Z) (off : Z) :=
  {| ph_hab := hab;
     ph_n_items := zlen (skip_specials hab ptrs);
     ph_heap_cnt := cnt;
     ph_heap_length := or_else hlen (-1);
     ph_payload_offset := off;
     ph_payload_length := zlen payload;
     ph_pointers := 8 + 8 * skipped hab ptrs;
     ph_payload := 8 + 8 * zlen ptrs |}.

Lemma decode_packet_complete data hab ptrs payload cnt hlen off :
  packet_at data hab ptrs payload cnt hlen off ->
  decode_packet data =
  Accept (the_header hab ptrs payload cnt hlen off) (8 + 8 * zlen ptrs + zlen payload).
Proof.
  intros [Hf Hw Hc (rsv & rest & Hr & Hd) H1 H2 H3 H4 H5].
  pose proof (flavour_ok_range _ Hf) as Hh.
  pose proof (zlen_nonneg ptrs). pose proof (zlen_nonneg payload). pose proof (zlen_nonneg rest).
  assert (HL : zlen data = 8 + 8 * zlen ptrs + zlen payload + zlen rest)
    by (rewrite Hd, zlen_app, zlen_wire; lia).
  unfold decode_packet.
  destruct (Z.ltb_spec (zlen data) 8); [lia|].
  assert (EH : decode_header data = Some (Some (hab, zlen ptrs)))
    by (rewrite Hd; apply decode_header_wire; assumption).
  rewrite EH.
  destruct (Z.ltb_spec (zlen data) (zlen ptrs * 8 + 8)); [lia|].
  rewrite specials_loop_fold by (rewrite ?Z2Nat.id; lia).
  replace (Z.to_nat (zlen ptrs)) with (length ptrs) by (unfold zlen; lia).
  assert (EP : ptrs_at data 0 (length ptrs) = ptrs) by (rewrite Hd; apply ptrs_at_wire; assumption).
  rewrite EP.
  pose proof (fold_specials_spec hab ptrs 0 (specials_init (zlen ptrs)) ltac:(lia)) as HS.
  cbv zeta in HS. destruct HS as (S1 & S2 & S3 & S4 & S5).
  rewrite S1, S2, S3, S4, S5, H1, H3, H4. cbn [or_else specials_init sp_cnt sp_hlen sp_off sp_plen sp_first].
  pose proof (last_imm_range hab _ _ _ ltac:(lia) H1).
  pose proof (last_imm_range hab _ _ _ ltac:(lia) H3).
  replace ((cnt =? -1) || (off =? -1) || (zlen payload =? -1)) with false by lia.
  destruct (Z.ltb_spec (zlen data) (zlen payload + zlen ptrs * 8 + 8)); [lia|].
  replace ((0 <=? or_else (last_imm hab HEAP_LENGTH_ID ptrs) (-1)) &&
           (or_else (last_imm hab HEAP_LENGTH_ID ptrs) (-1) <? off + zlen payload)) with false.
  2: { rewrite H2. destruct hlen as [l|]; cbn [or_else]; [|lia]. specialize (H5 l eq_refl). lia. }
  rewrite H2.
  pose proof (skip_specials_le hab ptrs) as HK. unfold the_header, skipped.
  destruct (Z.eqb_spec (zlen (skip_specials hab ptrs)) 0) as [E0|E0]; (f_equal; [f_equal; lia | lia]).
Qed.

Lemma decode_packet_sound data h size :
  bytes_ok data -> decode_packet data = Accept h size ->
  exists hab ptrs payload cnt hlen off,
    packet_at data hab ptrs payload cnt hlen off /\
    h = the_header hab ptrs payload cnt hlen off /\
    size = 8 + 8 * zlen ptrs + zlen payload.
Proof.
  intros Hb HD. pose proof HD as HD0. unfold decode_packet in HD.
  destruct (Z.ltb_spec (zlen data) 8) as [L|L]; [discriminate|].
  destruct (decode_header data) as [[[hab n]|]|] eqn:EH; try discriminate.
  destruct (Z.ltb_spec (zlen data) (n * 8 + 8)) as [L2|L2]; [discriminate|].
  destruct (decode_header_inv data hab n Hb L EH ltac:(lia)) as (Hf & Hn & rsv & Hr & Hdata).
  pose proof (flavour_ok_range _ Hf) as Hh.
  rewrite specials_loop_fold in HD by (rewrite ?Z2Nat.id; lia).
  set (ptrs := ptrs_at data 0 (Z.to_nat n)) in *.
  assert (Hlp : zlen ptrs = n) by (unfold ptrs; rewrite ptrs_at_length; lia).
  pose proof (fold_specials_spec hab ptrs 0 (specials_init n) ltac:(lia)) as HS.
  cbv zeta in HS. destruct HS as (S1 & S2 & S3 & S4 & S5).
  rewrite S1, S2, S3, S4 in HD. cbn [specials_init sp_cnt sp_hlen sp_off sp_plen sp_first] in HD.
  destruct (last_imm hab HEAP_CNT_ID ptrs) as [cnt|] eqn:E1; cbn [or_else] in HD;
    [|cbn in HD; discriminate].
  destruct (last_imm hab PAYLOAD_OFFSET_ID ptrs) as [off|] eqn:E3; cbn [or_else] in HD;
    [|replace ((cnt =? -1) || (-1 =? -1)) with true in HD by lia; cbn in HD; discriminate].
  destruct (last_imm hab PAYLOAD_LENGTH_ID ptrs) as [plen|] eqn:E4; cbn [or_else] in HD;
    [|replace ((cnt =? -1) || (off =? -1) || (-1 =? -1)) with true in HD by lia; discriminate].
  pose proof (last_imm_range hab _ _ _ ltac:(lia) E1).
  pose proof (last_imm_range hab _ _ _ ltac:(lia) E3).
  pose proof (last_imm_range hab _ _ _ ltac:(lia) E4).
  replace ((cnt =? -1) || (off =? -1) || (plen =? -1)) with false in HD by lia.
  destruct (Z.ltb_spec (zlen data) (plen + n * 8 + 8)) as [L3|L3]; [discriminate|].
  set (hl := last_imm hab HEAP_LENGTH_ID ptrs) in *.
  destruct ((0 <=? or_else hl (-1)) && (or_else hl (-1) <? off + plen)) eqn:EL; [discriminate|].
  set (body := slice data (8 + 8 * n) (zlen data - 8 - 8 * n)) in *.
  assert (Hbody : zlen body = zlen data - 8 - 8 * n) by (apply zlen_slice; lia).
  set (payload := slice body 0 plen).
  assert (Hpl : zlen payload = plen) by (apply zlen_slice; lia).
  assert (PA : packet_at data hab ptrs payload cnt hl off).
  { constructor; try assumption.
    - apply ptrs_at_words; (assumption || rewrite ?Z2Nat.id; lia).
    - lia.
    - exists rsv, (slice body plen (zlen body - plen)). split; [assumption|].
      rewrite Hdata at 1. unfold wire_packet. rewrite <- !app_assoc. do 4 f_equal.
      fold ptrs. f_equal.
      unfold payload. change plen with (0 + plen) at 2. rewrite <- slice_split by lia.
      replace (plen + (zlen body - plen)) with (zlen body) by lia. now rewrite slice_full.
    - reflexivity.
    - now rewrite Hpl.
    - intros l Hl. rewrite Hl in EL. cbn [or_else] in EL.
      unfold hl in Hl. pose proof (last_imm_range hab _ _ _ ltac:(lia) Hl). lia. }
  exists hab, ptrs, payload, cnt, hl, off. split; [assumption|].
  pose proof (decode_packet_complete _ _ _ _ _ _ _ PA) as HC.
  rewrite HC in HD0. injection HD0 as <- <-. split; reflexivity.
Qed.

(** The regions named by an accepted header. *)
Lemma accepted_regions data hab ptrs payload cnt hlen off :
  packet_at data hab ptrs payload cnt hlen off ->
  let h := the_header hab ptrs payload cnt hlen off in
  header_pointers data h = skip_specials hab ptrs /\
  header_payload data h = payload /\
  0 <= ph_pointers h /\ ph_pointers h + 8 * ph_n_items h = ph_payload h /\
  ph_payload h + ph_payload_length h <= zlen data.
Proof.
  intros [Hf Hw Hc (rsv & rest & Hr & Hd) H1 H2 H3 H4 H5] h.
  pose proof (skip_specials_le hab ptrs) as HK.
  pose proof (zlen_nonneg ptrs). pose proof (zlen_nonneg payload). pose proof (zlen_nonneg rest).
  assert (HL : zlen data = 8 + 8 * zlen ptrs + zlen payload + zlen rest)
    by (rewrite Hd, zlen_app, zlen_wire; lia).
  repeat split; unfold h, the_header; cbn [ph_pointers ph_n_items ph_payload ph_payload_length]; unfold skipped; try lia.
  - unfold header_pointers. cbn [ph_pointers ph_n_items].
    rewrite skip_specials_suffix at 2.
    set (m := Z.to_nat (skipped hab ptrs)).
    assert (Hlen : Z.to_nat (zlen (skip_specials hab ptrs)) = (length ptrs - m)%nat)
      by (unfold m, skipped, zlen in *; lia).
    rewrite Hlen.
    rewrite <- (map_nth_seq 0 (skipn m ptrs)). rewrite skipn_length.
    apply map_ext_in. intros j Hj. apply in_seq in Hj.
    rewrite Hd. unfold wire_packet.
    set (a := [83; 4; 8 - hab / 8; hab / 8] ++ be_encode 2 rsv ++ be_encode 2 (zlen ptrs)).
    replace (([83; 4; 8 - hab / 8; hab / 8] ++ be_encode 2 rsv ++ be_encode 2 (zlen ptrs)
            ++ flat_map (be_encode 8) ptrs ++ payload) ++ rest)
      with (a ++ flat_map (be_encode 8) ptrs ++ (payload ++ rest))
      by (unfold a; rewrite <- !app_assoc; reflexivity).
    replace (8 + 8 * (zlen ptrs - zlen (skip_specials hab ptrs)) + 8 * Z.of_nat j)
      with (zlen a + 8 * Z.of_nat (m + j)).
    + rewrite (slice8_flat_map a ptrs (payload ++ rest) (m + j)%nat 0); [|assumption|lia].
      assert (m <= length ptrs)%nat by lia.
      rewrite <- (firstn_skipn m ptrs) at 1. rewrite app_nth2; rewrite firstn_length; [|lia].
      f_equal. lia.
    + unfold a. rewrite !zlen_app, !zlen_be_encode. unfold m, skipped. change (zlen [83; 4; 8 - hab / 8; hab / 8]) with 4. lia.
  - unfold header_payload. cbn [ph_payload ph_payload_length].
    rewrite Hd. unfold wire_packet.
    set (a := [83; 4; 8 - hab / 8; hab / 8] ++ be_encode 2 rsv ++ be_encode 2 (zlen ptrs) ++ flat_map (be_encode 8) ptrs).
    replace (([83; 4; 8 - hab / 8; hab / 8] ++ be_encode 2 rsv ++ be_encode 2 (zlen ptrs)
            ++ flat_map (be_encode 8) ptrs ++ payload) ++ rest)
      with (a ++ payload ++ rest) by (unfold a; rewrite <- !app_assoc; reflexivity).
    replace (8 + 8 * zlen ptrs) with (zlen a); [apply slice_app_exact|].
    unfold a. rewrite !zlen_app, !zlen_be_encode, flat_map_be_length. change (zlen [83; 4; 8 - hab / 8; hab / 8]) with 4. lia.
Qed.

(** ** The length probe *)

Lemma decode_header_iff data hab n :
  bytes_ok data -> 8 <= zlen data ->
  (decode_header data = Some (Some (hab, n)) <-> header_at data hab n).
Proof.
  intros Hb H8. split.
  - intro HD. destruct (split8 data H8) as (b0&b1&b2&b3&b4&b5&b6&b7&rest&Hdata).
    subst data. rewrite decode_header8 in HD by assumption.
    apply Forall_app in Hb as [Hb1 Hb2].
    repeat match goal with H : Forall _ (_ :: _) |- _ => inversion H; subst; clear H end.
    unfold byte_ok in *.
    match type of HD with Some (if ?c then _ else _) = _ => destruct c eqn:EC; [|discriminate] end.
    injection HD as <- <-.
    assert (b0 = 83 /\ b1 = 4 /\ 0 < b2 /\ 0 < b3 /\ b2 + b3 = 8) as (-> & -> & Hp2 & Hp3 & Hp8) by lia.
    split; [unfold flavour_ok; rewrite Z.mod_mul by lia; lia|]. split; [lia|].
    exists (b4 * 256 + b5), rest. split; [lia|].
    rewrite !be_encode_2.
    replace (b3 * 8 / 8) with b3 by (rewrite Z.div_mul; lia).
    replace ((b4 * 256 + b5) / 256) with b4 by (apply (Z.div_unique_pos _ _ _ b5); lia).
    replace ((b4 * 256 + b5) mod 256) with b5 by (apply (Z.mod_unique_pos _ _ b4); lia).
    replace ((b6 * 256 + b7) / 256) with b6 by (apply (Z.div_unique_pos _ _ _ b7); lia).
    replace ((b6 * 256 + b7) mod 256) with b7 by (apply (Z.mod_unique_pos _ _ b6); lia).
    rewrite (Z.mod_small b4), (Z.mod_small b6) by lia.
    replace (8 - b3) with b2 by lia. reflexivity.
  - intros (Hf & Hn & rsv & rest & Hr & Hd).
    pose proof (flavour_ok_bytes _ Hf) as [He Hr'].
    rewrite !be_encode_2 in Hd.
    change (data = [83; 4; 8 - hab / 8; hab / 8; (rsv / 256) mod 256; rsv mod 256; (n / 256) mod 256; n mod 256] ++ rest) in Hd.
    rewrite Hd in Hb |- *. rewrite decode_header8 by assumption.
    replace (0 <? 8 - hab / 8) with true by lia.
    replace (0 <? hab / 8) with true by lia.
    replace (8 - hab / 8 + hab / 8 =? 8) with true by lia.
    cbn [andb Z.eqb Pos.eqb]. do 3 f_equal; [lia|].
    rewrite (Z.mod_small (n / 256)); [|split; [apply Z.div_pos; lia|apply Z.div_lt_upper_bound; lia]].
    pose proof (Z.div_mod n 256 ltac:(lia)). lia.
Qed.

Lemma header_at_n data hab n : header_at data hab n -> 8 <= zlen data.
Proof.
  intros (_ & _ & rsv & rest & _ & ->). rewrite !zlen_app, !zlen_be_encode.
  change (zlen [83; 4; 8 - hab / 8; hab / 8]) with 4. pose proof (zlen_nonneg rest). lia.
Qed.

Lemma get_packet_size_zero_iff data :
  bytes_ok data ->
  (get_packet_size data = Some 0 <->
   zlen data < 8 \/ exists hab n, header_at data hab n /\ zlen data < 8 + 8 * n).
Proof.
  intro Hb. unfold get_packet_size.
  destruct (Z.ltb_spec (zlen data) 8) as [L|L]; [split; [intros _; now left|reflexivity]|].
  destruct (decode_header data) as [[[hab n]|]|] eqn:EH.
  - pose proof (proj1 (decode_header_iff data hab n Hb L) EH) as HA.
    destruct (Z.ltb_spec (zlen data) (n * 8 + 8)) as [L2|L2].
    + split; [intros _; right; exists hab, n; split; [assumption|lia]|reflexivity].
    + pose proof HA as (Hf & Hn & _). pose proof (flavour_ok_range _ Hf) as Hh.
      rewrite find_payload_length_first by (rewrite ?Z2Nat.id; lia).
      split.
      * intro H. exfalso.
        destruct (first_imm _ _ _) as [v|] eqn:E.
        -- assert (Hv : 0 <= v).
           { clear - E Hh. revert E. generalize (ptrs_at data 0 (Z.to_nat n)) as l.
             induction l as [|p l IH]; [discriminate|]. cbn [first_imm].
             destruct (imm_with_id _ _ p); [|exact IH].
             intro H; injection H as <-. apply get_address_range; lia. }
           destruct (Z.eqb_spec v (-1)); [lia|]. injection H as H. lia.
        -- cbn in H. discriminate.
      * intros [C|(hab' & n' & HA' & C)]; [lia|].
        pose proof (proj2 (decode_header_iff data hab' n' Hb L) HA') as EH'.
        rewrite EH in EH'. injection EH' as <- <-. lia.
  - split; [discriminate|]. intros [C|(hab' & n' & HA' & C)]; [lia|].
    pose proof (proj2 (decode_header_iff data hab' n' Hb L) HA') as EH'. congruence.
  - exfalso. apply (get_packet_size_no_oob data Hb). unfold get_packet_size.
    destruct (Z.ltb_spec (zlen data) 8); [lia|]. now rewrite EH.
Qed.

Lemma load_be64_app data more off v : load_be64 data off = Some v -> load_be64 (data ++ more) off = Some v.
Proof.
  unfold load_be64. rewrite zlen_app. pose proof (zlen_nonneg more).
  destruct (Z.leb_spec 0 off), (Z.leb_spec (off + 8) (zlen data)); try discriminate.
  destruct (Z.leb_spec (off + 8) (zlen data + zlen more)); [|lia]. cbn [andb].
  intro H'. rewrite <- H'. now rewrite slice_app_l by lia.
Qed.

Lemma decode_header_app data more r : decode_header data = Some r -> decode_header (data ++ more) = Some r.
Proof.
  unfold decode_header. destruct (load_be64 data 0) as [h|] eqn:E; [|discriminate].
  now rewrite (load_be64_app _ more _ _ E).
Qed.

Lemma ptrs_at_app data more i k :
  0 <= i -> 8 + (i + Z.of_nat k) * 8 <= zlen data -> ptrs_at (data ++ more) i k = ptrs_at data i k.
Proof.
  intros Hi Hl. unfold ptrs_at. apply map_ext_in. intros j Hj. apply in_seq in Hj.
  now rewrite slice_app_l by lia.
Qed.

Lemma get_packet_size_app data more r :
  bytes_ok data -> r <> 0 -> get_packet_size data = Some r -> get_packet_size (data ++ more) = Some r.
Proof.
  intros Hb Hr. unfold get_packet_size. rewrite zlen_app. pose proof (zlen_nonneg more).
  destruct (Z.ltb_spec (zlen data) 8) as [L|L]; [intro E; injection E as <-; lia|].
  destruct (Z.ltb_spec (zlen data + zlen more) 8) as [L'|L']; [lia|].
  destruct (decode_header data) as [[[hab n]|]|] eqn:EH; [| |discriminate];
    rewrite (decode_header_app _ more _ EH); [|intro E; exact E].
  destruct (Z.ltb_spec (zlen data) (n * 8 + 8)) as [L2|L2]; [intro E; injection E as <-; lia|].
  destruct (Z.ltb_spec (zlen data + zlen more) (n * 8 + 8)) as [L2'|L2']; [lia|].
  pose proof (proj1 (decode_header_iff data hab n Hb L) EH) as (_ & Hn & _).
  rewrite !find_payload_length_first by (rewrite ?zlen_app, ?Z2Nat.id; lia).
  rewrite ptrs_at_app by (rewrite ?Z2Nat.id; lia). intro E; exact E.
Qed.

Lemma get_packet_size_pos_inv data s :
  bytes_ok data -> get_packet_size data = Some s -> 0 < s ->
  exists hab rsv ptrs body plen,
    flavour_ok hab = true /\ 0 <= rsv < 65536 /\ Forall word_ok ptrs /\ zlen ptrs < 65536 /\
    data = wire_packet hab rsv ptrs body /\
    first_imm hab PAYLOAD_LENGTH_ID ptrs = Some plen /\ s = 8 + 8 * zlen ptrs + plen.
Proof.
  intros Hb H Hs. unfold get_packet_size in H.
  destruct (Z.ltb_spec (zlen data) 8) as [L|L]; [injection H as <-; lia|].
  destruct (decode_header data) as [[[hab n]|]|] eqn:EH; [|injection H as <-; lia|discriminate].
  destruct (Z.ltb_spec (zlen data) (n * 8 + 8)) as [L2|L2]; [injection H as <-; lia|].
  destruct (decode_header_inv data hab n Hb L EH ltac:(lia)) as (Hf & Hn & rsv & Hr & Hdata).
  rewrite find_payload_length_first in H by (rewrite ?Z2Nat.id; lia).
  destruct (first_imm hab PAYLOAD_LENGTH_ID (ptrs_at data 0 (Z.to_nat n))) as [v|] eqn:E; cbn in H.
  2: { injection H as <-; lia. }
  destruct (Z.eqb_spec v (-1)); injection H as <-; [lia|].
  exists hab, rsv, (ptrs_at data 0 (Z.to_nat n)), (slice data (8 + 8 * n) (zlen data - 8 - 8 * n)), v.
  rewrite ptrs_at_length, Z2Nat.id by lia.
  repeat split; try assumption; try lia.
  apply ptrs_at_words; (assumption || rewrite ?Z2Nat.id; lia).
Qed.

Lemma wire_packet_app hab rsv ptrs body more :
  wire_packet hab rsv ptrs body ++ more = wire_packet hab rsv ptrs (body ++ more).
Proof. unfold wire_packet. now rewrite <- !app_assoc. Qed.

(** Two wire packets with the same bytes have the same flavour and pointers. *)
Lemma wire_packet_inj hab rsv ptrs body hab' rsv' ptrs' body' :
  flavour_ok hab = true -> flavour_ok hab' = true ->
  zlen ptrs < 65536 -> zlen ptrs' < 65536 -> Forall word_ok ptrs -> Forall word_ok ptrs' ->
  wire_packet hab rsv ptrs body = wire_packet hab' rsv' ptrs' body' ->
  hab = hab' /\ ptrs = ptrs' /\ body = body'.
Proof.
  intros Hf Hf' Hc Hc' Hw Hw' H.
  pose proof (decode_header_wire hab rsv ptrs body [] Hf Hc) as E.
  pose proof (decode_header_wire hab' rsv' ptrs' body' [] Hf' Hc') as E'.
  rewrite app_nil_r in E, E'. rewrite H, E' in E. injection E as EH EN.
  assert (EL : length ptrs = length ptrs') by (unfold zlen in EN; lia).
  pose proof (ptrs_at_wire hab rsv ptrs body [] Hw) as P.
  pose proof (ptrs_at_wire hab' rsv' ptrs' body' [] Hw') as P'.
  rewrite app_nil_r in P, P'. rewrite H, EL, P' in P.
  split; [now symmetry|]. split; [now symmetry|].
  subst hab' ptrs'. unfold wire_packet in H.
  apply app_inv_head in H.
  assert (HX : forall (a b c d : list Z), length a = length b -> a ++ c = b ++ d -> c = d).
  { clear. intros a; induction a as [|x a IH]; intros [|y b] c d HL HE; try discriminate HL; [exact HE|].
    injection HE as _ HE. injection HL as HL. eapply IH; eassumption. }
  apply HX in H; [|now rewrite !be_encode_length].
  apply app_inv_head in H. now apply app_inv_head in H.
Qed.

(** Decoding the announced number of bytes. *)
Lemma probe_then_decode data s :
  bytes_ok data -> get_packet_size data = Some s -> 0 < s -> s <= zlen data ->
  exists hab rsv ptrs payload rest,
    data = wire_packet hab rsv ptrs payload ++ rest /\
    zlen (wire_packet hab rsv ptrs payload) = s /\
    (forall h sz, decode_packet (slice data 0 s) = Accept h sz -> sz <= s) /\
    (last_imm hab PAYLOAD_LENGTH_ID ptrs = first_imm hab PAYLOAD_LENGTH_ID ptrs ->
     forall h sz, decode_packet (slice data 0 s) = Accept h sz -> sz = s).
Proof.
  intros Hb H Hs Hl.
  destruct (get_packet_size_pos_inv data s Hb H Hs) as (hab & rsv & ptrs & body & plen & Hf & Hr & Hw & Hc & Hd & Hi & Hsz).
  pose proof (flavour_ok_range _ Hf) as Hh.
  assert (Hbl : zlen data = 8 + 8 * zlen ptrs + zlen body) by (rewrite Hd; apply zlen_wire).
  assert (Hp : 0 <= plen).
  { clear - Hi Hh. induction ptrs as [|p l IH]; [discriminate|]. cbn [first_imm] in Hi.
    destruct (imm_with_id _ _ p); [|exact (IH Hi)].
    injection Hi as <-. apply get_address_range; lia. }
  exists hab, rsv, ptrs, (slice body 0 plen), (slice body plen (zlen body - plen)).
  assert (Hpl : zlen (slice body 0 plen) = plen) by (apply zlen_slice; lia).
  assert (HD : data = wire_packet hab rsv ptrs (slice body 0 plen) ++ slice body plen (zlen body - plen)).
  { rewrite wire_packet_app. rewrite Hd. f_equal.
    change plen with (0 + plen) at 2. rewrite <- slice_split by lia.
    replace (plen + (zlen body - plen)) with (zlen body) by lia. now rewrite slice_full. }
  split; [exact HD|].
  assert (HL : zlen (wire_packet hab rsv ptrs (slice body 0 plen)) = s) by (rewrite zlen_wire; lia).
  split; [exact HL|].
  assert (Hsl : slice data 0 s = wire_packet hab rsv ptrs (slice body 0 plen)).
  { rewrite HD. rewrite <- HL. rewrite slice_app_l by lia. apply slice_full. }
  assert (Hgen : forall h sz, decode_packet (slice data 0 s) = Accept h sz ->
     sz <= s /\ (last_imm hab PAYLOAD_LENGTH_ID ptrs = first_imm hab PAYLOAD_LENGTH_ID ptrs -> sz = s)).
  { intros h sz Hdec.
    assert (Hb' : bytes_ok (slice data 0 s)) by (apply bytes_ok_slice, Hb).
    destruct (decode_packet_sound _ _ _ Hb' Hdec)
      as (hab' & ptrs' & payload' & cnt' & hl' & off' & [Hf' Hw' Hc' (rsv' & rest' & Hr' & Hd') _ _ _ Hpl' _] & _ & Hsz').
    rewrite Hsl, wire_packet_app in Hd'.
    destruct (wire_packet_inj _ _ _ _ _ _ _ _ Hf Hf' Hc Hc' Hw Hw' Hd') as (<- & <- & Hbody).
    assert (zlen payload' <= plen).
    { rewrite <- Hpl, Hbody, zlen_app. pose proof (zlen_nonneg rest'). lia. }
    split; [lia|]. intro HE. rewrite HE, Hi in Hpl'. injection Hpl' as Hpl'. lia. }
  split; intros; eapply Hgen; eauto.
Qed.
