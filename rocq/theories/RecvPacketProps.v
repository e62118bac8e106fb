(** C02 and C03: packet decoding and the packet length probe. *)
From Coq Require Import ZArith List Lia Bool.
From Verif Require Import Base CodecModel CodecProofs RecvPacketModel PacketSpec RecvPacketProofs.
Import ListNotations.
Open Scope Z_scope.

(** C02 (a): no byte string makes the decoder or the probe read outside it. *)
Theorem C02_no_out_of_bounds_read : forall data,
  bytes_ok data -> decode_packet data <> OOB /\ get_packet_size data <> None.
Proof. intros data Hb. split; [now apply decode_packet_no_oob|now apply get_packet_size_no_oob]. Qed.

(** C02 (b): everything the decoder reports is consistent with a wire packet
    at the start of the buffer: the buffer is [wire_packet ... ++ rest], the
    reported size is the size of that packet, the reported pointer and payload
    regions are inside the buffer and hold the packet's regular pointers and
    payload, and the payload fits the declared heap length if there is one. *)
Theorem C02_accept_consistent : forall data h size,
  bytes_ok data -> decode_packet data = Accept h size ->
  exists hab rsv ptrs payload rest,
    data = wire_packet hab rsv ptrs payload ++ rest /\
    size = zlen (wire_packet hab rsv ptrs payload) /\
    flavour_ok hab = true /\ Forall word_ok ptrs /\ ph_hab h = hab /\
    last_imm hab HEAP_CNT_ID ptrs = Some (ph_heap_cnt h) /\
    last_imm hab PAYLOAD_OFFSET_ID ptrs = Some (ph_payload_offset h) /\
    last_imm hab PAYLOAD_LENGTH_ID ptrs = Some (ph_payload_length h) /\
    ph_payload_length h = zlen payload /\
    last_imm hab HEAP_LENGTH_ID ptrs =
      (if ph_heap_length h =? -1 then None else Some (ph_heap_length h)) /\
    (0 <= ph_heap_length h -> ph_payload_offset h + ph_payload_length h <= ph_heap_length h) /\
    0 <= ph_n_items h /\ 8 <= ph_pointers h /\
    ph_pointers h + 8 * ph_n_items h = ph_payload h /\
    ph_payload h + ph_payload_length h = size /\ size <= zlen data /\
    header_pointers data h = skip_specials hab ptrs /\
    header_payload data h = payload.
Proof.
  intros data h size Hb HD.
  destruct (decode_packet_sound data h size Hb HD) as (hab & ptrs & payload & cnt & hlen & off & PA & -> & ->).
  pose proof (accepted_regions _ _ _ _ _ _ _ PA) as (R1 & R2 & R3 & R4 & R5). 
  destruct PA as [Hf Hw Hc (rsv & rest & Hr & Hd) H1 H2 H3 H4 H5].
  pose proof (flavour_ok_range _ Hf) as Hh.
  pose proof (skip_specials_le hab ptrs) as HK.
  exists hab, rsv, ptrs, payload, rest.
  rewrite zlen_wire. 
  unfold the_header in *; cbn [ph_hab ph_n_items ph_heap_cnt ph_heap_length ph_payload_offset ph_payload_length ph_pointers ph_payload] in *.
  unfold skipped in *.
  repeat split; try assumption; try lia.
  - rewrite H2. destruct hlen as [l|]; [|reflexivity]. cbn [or_else].
    pose proof (last_imm_range hab _ _ _ ltac:(lia) H2).
    destruct (Z.eqb_spec l (-1)); [lia|reflexivity].
  - destruct hlen as [l|]; cbn [or_else]; [intros _; now apply H5|lia].
Qed.

(** C02 (c): and conversely every well-formed packet is accepted, with exactly
    those values. *)
Theorem C02_wellformed_accepted : forall data hab ptrs payload cnt hlen off,
  packet_at data hab ptrs payload cnt hlen off ->
  exists h, decode_packet data = Accept h (8 + 8 * zlen ptrs + zlen payload) /\
    ph_hab h = hab /\ ph_heap_cnt h = cnt /\ ph_payload_offset h = off /\
    ph_payload_length h = zlen payload /\
    ph_heap_length h = match hlen with Some l => l | None => -1 end /\
    header_pointers data h = skip_specials hab ptrs /\
    header_payload data h = payload.
Proof.
  intros data hab ptrs payload cnt hlen off PA.
  exists (the_header hab ptrs payload cnt hlen off).
  split; [now apply decode_packet_complete|].
  pose proof (accepted_regions _ _ _ _ _ _ _ PA) as (R1 & R2 & _).
  repeat split; assumption.
Qed.

(** C03 (a): the probe asks for more data exactly while the header or the item
    pointers it announces are incomplete. *)
Theorem C03_need_more_iff_pointers_incomplete : forall data,
  bytes_ok data ->
  (get_packet_size data = Some 0 <->
   zlen data < 8 \/ exists hab n, header_at data hab n /\ zlen data < 8 + 8 * n).
Proof. exact get_packet_size_zero_iff. Qed.

(** C03 (b): once the probe has given a definite answer (a length or
    "malformed"), more data does not change it. *)
Theorem C03_answer_is_stable : forall data more r,
  bytes_ok data -> r <> 0 -> get_packet_size data = Some r ->
  get_packet_size (data ++ more) = Some r.
Proof. exact get_packet_size_app. Qed.

(** C03 (c): decoding exactly the announced number of bytes consumes no more
    than that, and exactly that when the packet's payload-length items agree
    (in particular when there is only one). *)
Theorem C03_probe_agrees_with_decoder : forall data s,
  bytes_ok data -> get_packet_size data = Some s -> 0 < s -> s <= zlen data ->
  exists hab rsv ptrs payload rest,
    data = wire_packet hab rsv ptrs payload ++ rest /\
    zlen (wire_packet hab rsv ptrs payload) = s /\
    (forall h sz, decode_packet (slice data 0 s) = Accept h sz -> sz <= s) /\
    (last_imm hab PAYLOAD_LENGTH_ID ptrs = first_imm hab PAYLOAD_LENGTH_ID ptrs ->
     forall h sz, decode_packet (slice data 0 s) = Accept h sz -> sz = s).
Proof. exact probe_then_decode. Qed.

(** A packet with a single payload-length item satisfies the proviso. *)
Lemma single_last_first hab id ptrs :
  length (filter (imm_with_id hab id) ptrs) = 1%nat ->
  last_imm hab id ptrs = first_imm hab id ptrs.
Proof.
  induction ptrs as [|p ptrs IH]; [reflexivity|].
  cbn [filter last_imm first_imm]. destruct (imm_with_id hab id p) eqn:E.
  - cbn [length]. intro H. injection H as H.
    assert (HN : last_imm hab id ptrs = None).
    { clear - H. induction ptrs as [|q ptrs IH]; [reflexivity|].
      cbn [filter last_imm] in *. destruct (imm_with_id hab id q); [discriminate|].
      now rewrite IH. }
    now rewrite HN.
  - intro H. rewrite (IH H). destruct (first_imm hab id ptrs); reflexivity.
Qed.

Theorem C03_single_payload_length : forall data s,
  bytes_ok data -> get_packet_size data = Some s -> 0 < s -> s <= zlen data ->
  exists hab rsv ptrs payload rest,
    data = wire_packet hab rsv ptrs payload ++ rest /\
    zlen (wire_packet hab rsv ptrs payload) = s /\
    (length (filter (imm_with_id hab PAYLOAD_LENGTH_ID) ptrs) = 1%nat ->
     decode_packet (slice data 0 s) = Reject \/
     exists h, decode_packet (slice data 0 s) = Accept h s).
Proof.
  intros data s Hb H1 H2 H3.
  destruct (probe_then_decode data s Hb H1 H2 H3) as (hab & rsv & ptrs & payload & rest & A & B & _ & D).
  exists hab, rsv, ptrs, payload, rest. split; [exact A|]. split; [exact B|].
  intro HS. destruct (decode_packet (slice data 0 s)) as [| |h sz] eqn:E.
  - exfalso. eapply decode_packet_no_oob; [|exact E]. now apply bytes_ok_slice.
  - now left.
  - right. exists h. f_equal. eapply D; [now apply single_last_first|reflexivity].
Qed.

(** Non-vacuity: a 64-48 packet with heap cnt 5, heap length 3, offset 0,
    length 3, one addressed item 0x1234 at 0, payload 1 2 3, then junk. *)
Definition ex_ptrs : list Z :=
  [encode_immediate 48 HEAP_CNT_ID 5; encode_immediate 48 HEAP_LENGTH_ID 3;
   encode_immediate 48 PAYLOAD_OFFSET_ID 0; encode_immediate 48 PAYLOAD_LENGTH_ID 3;
   encode_address 48 0x1234 0].
Definition ex_data : list Z := wire_packet 48 0 ex_ptrs [1; 2; 3] ++ [9; 9].

Example C02_ex : exists h, decode_packet ex_data = Accept h 51 /\
  ph_n_items h = 1 /\ header_pointers ex_data h = [encode_address 48 0x1234 0] /\
  header_payload ex_data h = [1; 2; 3].
Proof. eexists. vm_compute. repeat split. Qed.
Example C02_ex_packet_at : packet_at ex_data 48 ex_ptrs [1; 2; 3] 5 (Some 3) 0.
Proof.
  constructor; try reflexivity.
  - unfold ex_ptrs; repeat constructor; vm_compute; congruence.
  - exists 0, [9; 9]. split; [lia|reflexivity].
  - intros l H. injection H as <-. vm_compute; congruence.
Qed.
Example C03_ex : get_packet_size ex_data = Some 51 /\ get_packet_size (firstn 47 ex_data) = Some 0
  /\ get_packet_size (firstn 48 ex_data) = Some 51.
Proof. vm_compute. auto. Qed.
(** Two different payload-length items: probe and decoder disagree, which is
    why the proviso is needed. *)
Example C03_ex_disagree :
  let d := wire_packet 48 0 (ex_ptrs ++ [encode_immediate 48 PAYLOAD_LENGTH_ID 2]) [1; 2; 3] in
  get_packet_size d = Some 59 /\ exists h, decode_packet d = Accept h 58.
Proof. vm_compute. split; [reflexivity|]. eexists; reflexivity. Qed.

Print Assumptions C02_no_out_of_bounds_read.
Print Assumptions C02_accept_consistent.
Print Assumptions C02_wellformed_accepted.
Print Assumptions C03_need_more_iff_pointers_incomplete.
Print Assumptions C03_answer_is_stable.
Print Assumptions C03_probe_agrees_with_decoder.
Print Assumptions C03_single_payload_length.
