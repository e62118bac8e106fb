(** Proofs about the item-pointer codec. *)
From Coq Require Import ZArith List Lia Bool.
From Coq Require Import ZifyBool.
From Verif Require Import Base CodecModel.
Import ListNotations.
Open Scope Z_scope.

Lemma land_shifted_small a b n :
  0 <= n -> 0 <= b < 2 ^ n -> Z.land (a * 2 ^ n) b = 0.
Proof.
  intros Hn Hb. apply Z.bits_inj'; intros m Hm.
  rewrite Z.land_spec, Z.bits_0.
  destruct (Z.ltb_spec m n) as [Hl|Hl].
  - now rewrite Z.mul_pow2_bits_low.
  - destruct (Z.eq_dec b 0) as [->|Hnz]; [now rewrite Z.bits_0, andb_false_r|].
    rewrite (Z.bits_above_log2 b m); [apply andb_false_r|lia|].
    apply Z.log2_lt_pow2; [lia|].
    eapply Z.lt_le_trans; [apply Hb|]. apply Z.pow_le_mono_r; lia.
Qed.

Lemma lor_shifted_small a b n :
  0 <= n -> 0 <= b < 2 ^ n -> Z.lor (a * 2 ^ n) b = a * 2 ^ n + b.
Proof.
  intros Hn Hb. pose proof (land_shifted_small a b n Hn Hb) as H.
  rewrite <- Z.lxor_lor by exact H. symmetry. now apply Z.add_nocarry_lxor.
Qed.

Lemma flavour_ok_range hab : flavour_ok hab = true -> 8 <= hab <= 56.
Proof.
  unfold flavour_ok. intro H.
  apply andb_prop in H as [H H3]. apply andb_prop in H as [H1 H2].
  apply Z.ltb_lt in H1, H2. apply Z.eqb_eq in H3.
  assert (Hd : hab = 8 * (hab / 8)) by (apply Z.div_exact; lia). lia.
Qed.

Lemma flavour_ok_bytes hab :
  flavour_ok hab = true -> hab = 8 * (hab / 8) /\ 1 <= hab / 8 <= 7.
Proof.
  intro H. pose proof (flavour_ok_range _ H). unfold flavour_ok in H.
  apply andb_prop in H as [H H3]. apply Z.eqb_eq in H3.
  assert (Hd : hab = 8 * (hab / 8)) by (apply Z.div_exact; lia). lia.
Qed.

Lemma encode_address_arith hab id a :
  0 < hab < 64 -> encodable hab id a -> encode_address hab id a = id * 2 ^ hab + a.
Proof.
  intros Hh [Hi Ha]. unfold encode_address.
  rewrite Z.shiftl_mul_pow2 by lia. apply lor_shifted_small; lia.
Qed.

Lemma encode_immediate_arith hab id v :
  0 < hab < 64 -> encodable hab id v ->
  encode_immediate hab id v = 2 ^ 63 + id * 2 ^ hab + v.
Proof.
  intros Hh [Hi Hv]. unfold encode_immediate, immediate_mask.
  rewrite Z.shiftl_mul_pow2 by lia.
  assert (Hp : 2 ^ 63 = 2 ^ (63 - hab) * 2 ^ hab) by (rewrite <- Z.pow_add_r by lia; f_equal; lia).
  rewrite <- Z.lor_assoc, (lor_shifted_small id v hab) by lia.
  rewrite <- (Z.mul_1_l (2 ^ 63)).
  rewrite (lor_shifted_small 1 (id * 2 ^ hab + v) 63); [ring|lia|].
  split; [nia|]. rewrite Hp. nia.
Qed.

Lemma get_address_arith hab p : 0 <= hab -> get_address hab p = p mod 2 ^ hab.
Proof.
  intro H. unfold get_address, address_mask.
  rewrite Z.shiftl_mul_pow2, Z.mul_1_l by lia.
  replace (2 ^ hab - 1) with (Z.ones hab) by (rewrite Z.ones_equiv; lia).
  now apply Z.land_ones.
Qed.

Lemma get_id_arith hab p :
  0 <= hab <= 63 -> get_id hab p = (p / 2 ^ hab) mod 2 ^ (63 - hab).
Proof.
  intro H. unfold get_id, id_mask.
  rewrite Z.shiftl_mul_pow2, Z.mul_1_l by lia.
  replace (2 ^ (63 - hab) - 1) with (Z.ones (63 - hab)) by (rewrite Z.ones_equiv; lia).
  rewrite Z.shiftr_div_pow2 by lia. apply Z.land_ones; lia.
Qed.

Lemma is_immediate_arith p : 0 <= p < 2 ^ 64 -> is_immediate p = (2 ^ 63 <=? p).
Proof.
  intro H. unfold is_immediate. rewrite Z.shiftr_div_pow2 by lia.
  destruct (Z.leb_spec (2 ^ 63) p) as [L|L].
  - assert (1 <= p / 2 ^ 63) by (apply Z.div_le_lower_bound; lia).
    destruct (Z.eqb_spec (p / 2 ^ 63) 0); [lia|reflexivity].
  - rewrite Z.div_small by lia. reflexivity.
Qed.

Lemma get_address_range hab p : 0 <= hab -> 0 <= get_address hab p < 2 ^ hab.
Proof. intro H. rewrite get_address_arith by lia. apply Z.mod_pos_bound, Z.pow_pos_nonneg; lia. Qed.

Lemma get_id_range hab p : 0 <= hab <= 63 -> 0 <= get_id hab p < 2 ^ (63 - hab).
Proof. intro H. rewrite get_id_arith by lia. apply Z.mod_pos_bound, Z.pow_pos_nonneg; lia. Qed.

Section RoundTrip.
  Context (hab id v : Z) (Hh : 0 < hab < 64) (He : encodable hab id v).

  Lemma pow_split : 2 ^ 63 = 2 ^ (63 - hab) * 2 ^ hab.
  Proof. rewrite <- Z.pow_add_r by lia; f_equal; lia. Qed.

  Lemma encode_address_range : 0 <= encode_address hab id v < 2 ^ 63.
  Proof.
    rewrite encode_address_arith by assumption. destruct He as [H1 H2].
    rewrite pow_split. nia.
  Qed.

  Lemma encode_immediate_range : 2 ^ 63 <= encode_immediate hab id v < 2 ^ 64.
  Proof.
    pose proof encode_address_range as H.
    rewrite encode_address_arith in H by assumption.
    rewrite encode_immediate_arith by assumption.
    change (2 ^ 64) with (2 ^ 63 + 2 ^ 63). lia.
  Qed.

  Lemma address_is_immediate : is_immediate (encode_address hab id v) = false.
  Proof.
    pose proof encode_address_range.
    rewrite is_immediate_arith; [lia|]. change (2 ^ 64) with (2 ^ 63 + 2 ^ 63); lia.
  Qed.

  Lemma immediate_is_immediate : is_immediate (encode_immediate hab id v) = true.
  Proof. pose proof encode_immediate_range. rewrite is_immediate_arith; lia. Qed.

  Lemma address_get_address : get_address hab (encode_address hab id v) = v.
  Proof.
    rewrite get_address_arith, encode_address_arith by (assumption || lia).
    destruct He as [H1 H2]. rewrite Z.add_comm, Z.mod_add by lia. apply Z.mod_small; lia.
  Qed.

  Lemma immediate_get_immediate : get_immediate hab (encode_immediate hab id v) = v.
  Proof.
    unfold get_immediate.
    rewrite get_address_arith, encode_immediate_arith by (assumption || lia).
    destruct He as [H1 H2]. rewrite pow_split.
    replace (2 ^ (63 - hab) * 2 ^ hab + id * 2 ^ hab + v)
      with (v + (2 ^ (63 - hab) + id) * 2 ^ hab) by ring.
    rewrite Z.mod_add by lia. apply Z.mod_small; lia.
  Qed.

  Lemma address_get_id : get_id hab (encode_address hab id v) = id.
  Proof.
    rewrite get_id_arith, encode_address_arith by (assumption || lia).
    destruct He as [H1 H2].
    rewrite Z.add_comm, Z.div_add, Z.div_small, Z.add_0_l by lia. apply Z.mod_small; lia.
  Qed.

  Lemma immediate_get_id : get_id hab (encode_immediate hab id v) = id.
  Proof.
    rewrite get_id_arith, encode_immediate_arith by (assumption || lia).
    destruct He as [H1 H2]. rewrite pow_split.
    replace (2 ^ (63 - hab) * 2 ^ hab + id * 2 ^ hab + v)
      with (v + (id + 1 * 2 ^ (63 - hab)) * 2 ^ hab) by ring.
    rewrite Z.div_add, Z.div_small, Z.add_0_l by lia.
    rewrite Z.mod_add by (apply Z.pow_nonzero; lia). apply Z.mod_small; lia.
  Qed.
End RoundTrip.

(** Decoding is injective: the decoded triple determines the pointer. *)
Lemma decode_reconstruct hab p :
  0 < hab < 64 -> 0 <= p < 2 ^ 64 ->
  p = (if is_immediate p then encode_immediate hab (get_id hab p) (get_immediate hab p)
       else encode_address hab (get_id hab p) (get_address hab p)).
Proof.
  intros Hh Hp.
  assert (He : encodable hab (get_id hab p) (get_address hab p)).
  { split; [apply get_id_range; lia|apply get_address_range; lia]. }
  unfold get_immediate.
  rewrite encode_immediate_arith, encode_address_arith by assumption.
  rewrite is_immediate_arith by lia.
  rewrite get_id_arith, get_address_arith by lia.
  pose proof (Z.div_mod p (2 ^ hab) ltac:(apply Z.pow_nonzero; lia)) as Hd.
  assert (Hs : 2 ^ 63 = 2 ^ hab * 2 ^ (63 - hab)) by (rewrite <- Z.pow_add_r by lia; f_equal; lia).
  pose proof (Z.pow_pos_nonneg 2 hab ltac:(lia) ltac:(lia)) as P1.
  pose proof (Z.pow_pos_nonneg 2 (63 - hab) ltac:(lia) ltac:(lia)) as P2.
  destruct (Z.leb_spec (2 ^ 63) p) as [L|L].
  - assert (Hq : (p / 2 ^ hab) mod 2 ^ (63 - hab) = p / 2 ^ hab - 2 ^ (63 - hab)).
    { symmetry. apply (Z.mod_unique _ _ 1).
      - left. split.
        + assert (2 ^ (63 - hab) <= p / 2 ^ hab); [|lia].
          apply Z.div_le_lower_bound; lia.
        + assert (p / 2 ^ hab < 2 * 2 ^ (63 - hab)); [|lia].
          apply Z.div_lt_upper_bound; [lia|].
          change (2 ^ 64) with (2 * 2 ^ 63) in Hp. lia.
      - ring. }
    rewrite Hq, Hs. lia.
  - rewrite Z.mod_small; [lia|]. split; [apply Z.div_pos; lia|].
    apply Z.div_lt_upper_bound; lia.
Qed.
