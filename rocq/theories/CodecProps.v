(** C01: item pointer codec. *)
From Coq Require Import ZArith List Lia Bool.
From Verif Require Import Base CodecModel CodecProofs.
Open Scope Z_scope.

(** The pair (id, value) that fits a flavour with [hab] address bits. *)
Definition in_range (hab id v : Z) : Prop := 0 <= id < 2 ^ (63 - hab) /\ 0 <= v < 2 ^ hab.

(** Immediates: mode bit, id and value survive, and the word has exactly the
    layout  1 | id | value. *)
Theorem C01_immediate_round_trip : forall hab id v,
  flavour_ok hab = true -> in_range hab id v ->
  let p := encode_immediate hab id v in
  p = 2 ^ 63 + id * 2 ^ hab + v /\ 0 <= p < 2 ^ 64 /\
  is_immediate p = true /\ get_id hab p = id /\ get_immediate hab p = v.
Proof.
  intros hab id v Hf Hr p. pose proof (flavour_ok_range _ Hf) as Hh.
  assert (H : 0 < hab < 64) by lia.
  pose proof (encode_immediate_range hab id v H Hr).
  split; [now apply encode_immediate_arith|].
  split; [unfold p; lia|].
  split; [now apply immediate_is_immediate|].
  split; [now apply immediate_get_id|now apply immediate_get_immediate].
Qed.

Theorem C01_address_round_trip : forall hab id v,
  flavour_ok hab = true -> in_range hab id v ->
  let p := encode_address hab id v in
  p = id * 2 ^ hab + v /\ 0 <= p < 2 ^ 64 /\
  is_immediate p = false /\ get_id hab p = id /\ get_address hab p = v.
Proof.
  intros hab id v Hf Hr p. pose proof (flavour_ok_range _ Hf) as Hh.
  assert (H : 0 < hab < 64) by lia.
  pose proof (encode_address_range hab id v H Hr).
  split; [now apply encode_address_arith|].
  split; [unfold p; lia|].
  split; [now apply address_is_immediate|].
  split; [now apply address_get_id|now apply address_get_address].
Qed.

(** Distinct inputs give distinct pointers. *)
Theorem C01_injective : forall hab (imm1 imm2 : bool) id1 v1 id2 v2,
  flavour_ok hab = true -> in_range hab id1 v1 -> in_range hab id2 v2 ->
  (if imm1 then encode_immediate hab id1 v1 else encode_address hab id1 v1) =
  (if imm2 then encode_immediate hab id2 v2 else encode_address hab id2 v2) ->
  imm1 = imm2 /\ id1 = id2 /\ v1 = v2.
Proof.
  intros hab imm1 imm2 id1 v1 id2 v2 Hf H1 H2 E.
  pose proof (C01_immediate_round_trip hab id1 v1 Hf H1) as (_ & _ & A1 & A2 & A3).
  pose proof (C01_immediate_round_trip hab id2 v2 Hf H2) as (_ & _ & B1 & B2 & B3).
  pose proof (C01_address_round_trip hab id1 v1 Hf H1) as (_ & _ & C1 & C2 & C3).
  pose proof (C01_address_round_trip hab id2 v2 Hf H2) as (_ & _ & D1 & D2 & D3).
  destruct imm1, imm2; rewrite E in *; repeat split; congruence.
Qed.

(** Every 64-bit word is the encoding of what it decodes to. *)
Theorem C01_decode_encode : forall hab p,
  flavour_ok hab = true -> 0 <= p < 2 ^ 64 ->
  in_range hab (get_id hab p) (get_address hab p) /\
  p = (if is_immediate p then encode_immediate hab (get_id hab p) (get_immediate hab p)
       else encode_address hab (get_id hab p) (get_address hab p)).
Proof.
  intros hab p Hf Hp. pose proof (flavour_ok_range _ Hf) as Hh.
  split; [split; [apply get_id_range; lia|apply get_address_range; lia]|].
  apply decode_reconstruct; lia.
Qed.

(** Non-vacuity: flavour 64-48 with a 15-bit id, and a wide-id flavour. *)
Example C01_ex1 : flavour_ok 48 = true /\ in_range 48 0x7123 0xabcdef012345 /\
  encode_immediate 48 0x7123 0xabcdef012345 = 0xf123abcdef012345.
Proof. repeat split; vm_compute; congruence. Qed.
Example C01_ex2 : flavour_ok 8 = true /\ in_range 8 (2 ^ 55 - 1) 255 /\
  get_id 8 (encode_address 8 (2 ^ 55 - 1) 255) = 2 ^ 55 - 1.
Proof. repeat split; vm_compute; congruence. Qed.

Print Assumptions C01_immediate_round_trip.
Print Assumptions C01_address_round_trip.
Print Assumptions C01_injective.
Print Assumptions C01_decode_encode.
