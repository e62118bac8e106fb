(** C39: parsing of captured frames. C40: the IPv4 header checksum. *)
From Coq Require Import ZArith List Bool Lia.
From Verif Require Import Base RawModel RawSpec.
Import ListNotations.
Open Scope Z_scope.

Lemma slice1 (f : list Z) i : 0 <= i < zlen f -> slice f i 1 = [at8 f i].
Proof.
  intro H. unfold slice, at8, zlen in *. change (Z.to_nat 1) with 1%nat. assert (L : (Z.to_nat i < length f)%nat) by lia. clear H. revert L. generalize (Z.to_nat i). intros k L.
  revert k L. induction f as [|x f IH]; intros k L; [cbn [length] in L; lia|]. destruct k as [|k]; [reflexivity|]. cbn [skipn nth length] in *. apply IH. lia.
Qed.
Lemma slice2 (f : list Z) i : 0 <= i -> i + 2 <= zlen f -> slice f i 2 = [at8 f i; at8 f (i + 1)].
Proof. intros H1 H2. replace 2 with (1 + 1) by lia. rewrite slice_split by lia. rewrite !slice1 by lia. reflexivity. Qed.
Lemma be1 x : be_decode [x] = x. Proof. unfold be_decode. cbn [fold_left]. lia. Qed.
Lemma be2 x y : be_decode [x; y] = 256 * x + y. Proof. unfold be_decode. cbn [fold_left]. lia. Qed.

Lemma get8 mem b off : 0 <= pb_off b + off < zlen mem -> get_be mem b off 1 = POk (at8 mem (pb_off b + off)).
Proof.
  intro H. unfold get_be, get. destruct (Z.leb_spec 0 (pb_off b + off)); [|lia]. destruct (Z.leb_spec (pb_off b + off + 1) (zlen mem)); [|lia]. cbn [andb pbind]. now rewrite slice1, be1 by lia.
Qed.
Lemma get16 mem b off : 0 <= pb_off b + off -> pb_off b + off + 2 <= zlen mem -> get_be mem b off 2 = POk (at16 mem (pb_off b + off)).
Proof.
  intros H1 H2. unfold get_be, get. destruct (Z.leb_spec 0 (pb_off b + off)); [|lia]. destruct (Z.leb_spec (pb_off b + off + 2) (zlen mem)); [|lia]. cbn [andb pbind]. now rewrite slice2, be2 by lia.
Qed.
Lemma at8_ok f i : bytes_ok f -> 0 <= at8 f i < 256.
Proof. intro B. unfold at8. destruct (nth_in_or_default (Z.to_nat i) f 0) as [I|E]; [|rewrite E; lia]. unfold bytes_ok in B. rewrite Forall_forall in B. apply (B _ I). Qed.
Lemma at16_ok f i : bytes_ok f -> 0 <= at16 f i < 65536.
Proof. intro B. unfold at16. pose proof (at8_ok f i B). pose proof (at8_ok f (i + 1) B). lia. Qed.

Lemma land15 v : 0 <= v -> Z.land v 15 = v mod 16. Proof. intro. change 15 with (Z.ones 4). now rewrite Z.land_ones by lia. Qed.
Lemma shr4 v : Z.shiftr v 4 = v / 16. Proof. now rewrite Z.shiftr_div_pow2 by lia. Qed.
Lemma land14 v : Z.land v 16383 = v mod 2 ^ 14. Proof. change 16383 with (Z.ones 14). now rewrite Z.land_ones by lia. Qed.

Ltac zb := repeat match goal with
  | |- context [?a <? ?b] => destruct (Z.ltb_spec a b)
  | |- context [?a <=? ?b] => destruct (Z.leb_spec a b)
  | |- context [?a =? ?b] => destruct (Z.eqb_spec a b)
  end.

Definition judged (L : Z) (f : list Z) (r : pres pbuf) : Prop :=
  r <> PFault /\ forall off len, r = POk {| pb_off := off; pb_len := len |} <->
    let ihl := at8 f L mod 16 in let total := at16 f (L + 2) in let udp := at16 f (L + 4 * ihl + 4) in
    L + 20 <= zlen f /\ at16 f (L - 2) = 2048 /\ at8 f L / 16 = 4 /\ 5 <= ihl /\ at16 f (L + 6) mod 2 ^ 14 = 0 /\ at8 f (L + 9) = 17
    /\ 4 * ihl + 8 <= total /\ L + total <= zlen f /\ 8 <= udp <= total - 4 * ihl /\ off = L + 4 * ihl + 8 /\ len = udp - 8.

(** Everything read is inside the frame, and the result is the payload exactly
    for frames that are UDP datagrams. *)
Theorem C39_parse k f : bytes_ok f -> udp_from k f <> PFault /\ forall off len, udp_from k f = POk {| pb_off := off; pb_len := len |} <-> udp_frame k f off len.
Proof.
  intro B. change (judged (link_len k) f (udp_from k f)). unfold udp_from. set (L := link_len k).
  replace (match k with Ethernet => eth_min | LinuxSll => sll_min end) with L by (now destruct k). replace (match k with Ethernet => 12 | LinuxSll => 14 end) with (L - 2) by (now destruct k).
  assert (HL : 14 <= L) by (unfold L; destruct k; cbn [link_len]; lia). clearbody L. cbv zeta. unfold sized at 1. cbn [pb_len]. destruct (Z.ltb_spec (zlen f) L) as [S|S].
  { cbn [pbind]. split; [discriminate|]. intros off len; cbv zeta. split; [discriminate|]. intros (? & _). lia. }
  cbn [pbind]. rewrite get16 by (cbn [pb_off]; lia). cbn [pbind pb_off]. unfold payload_ipv4, sized at 1. cbn [pb_len pb_off]. unfold ipv4_min. destruct (Z.ltb_spec (zlen f - L) 20) as [S2|S2].
  { cbn [pbind]. split; [discriminate|]. intros off len; cbv zeta. split; [discriminate|]. intros (? & _). lia. }
  cbn [pbind]. rewrite !Z.add_0_l. unfold udp_from_ipv4. destruct (Z.eqb_spec (at16 f (L - 2)) 2048) as [ET|ET]; cbn [negb].
  2:{ split; [discriminate|]. intros off len; cbv zeta. split; [discriminate|]. intros (_ & ? & _). contradiction. }
  unfold version. rewrite get8 by (cbn [pb_off]; lia). cbn [pbind pb_off]. rewrite Z.add_0_r, shr4. pose proof (at8_ok f L B) as BL. destruct (Z.eqb_spec (at8 f L / 16) 4) as [V|V]; cbn [negb].
  2:{ split; [discriminate|]. intros off len; cbv zeta. split; [discriminate|]. intros (_ & _ & ? & _). contradiction. }
  unfold is_fragment. rewrite get16 by (cbn [pb_off]; lia). cbn [pbind pb_off]. rewrite land14. destruct (Z.eqb_spec (at16 f (L + 6) mod 2 ^ 14) 0) as [FR|FR]; cbn [negb].
  2:{ split; [discriminate|]. intros off len; cbv zeta. split; [discriminate|]. intros (_ & _ & _ & _ & ? & _). contradiction. }
  rewrite get8 by (cbn [pb_off]; lia). cbn [pbind pb_off]. destruct (Z.eqb_spec (at8 f (L + 9)) 17) as [PR|PR]; cbn [negb].
  2:{ split; [discriminate|]. intros off len; cbv zeta. split; [discriminate|]. intros (_ & _ & _ & _ & _ & ? & _). contradiction. }
  unfold payload_udp, header_length. rewrite get8 by (cbn [pb_off]; lia). cbn [pbind pb_off]. rewrite Z.add_0_r, land15 by lia. set (ihl := at8 f L mod 16). rewrite get16 by (cbn [pb_off]; lia). cbn [pbind pb_off pb_len].
  set (total := at16 f (L + 2)). unfold ipv4_min. destruct (Z.ltb_spec (4 * ihl) 20) as [HI|HI].
  { cbn [pbind]. split; [discriminate|]. intros off len; cbv zeta. split; [discriminate|]. intros (_ & _ & _ & ? & _). lia. }
  destruct (Z.ltb_spec (zlen f - L) total) as [T1|T1]; cbn [orb pbind].
  { split; [discriminate|]. intros off len; cbv zeta. split; [discriminate|]. intros (_ & _ & _ & _ & _ & _ & _ & ? & _). lia. }
  destruct (Z.ltb_spec total (4 * ihl)) as [T2|T2]; cbn [pbind].
  { split; [discriminate|]. intros off len; cbv zeta. split; [discriminate|]. intros (_ & _ & _ & _ & _ & _ & ? & _). lia. }
  unfold sized. cbn [pb_len]. unfold udp_min. destruct (Z.ltb_spec (total - 4 * ihl) 8) as [T3|T3]; cbn [pbind].
  { split; [discriminate|]. intros off len; cbv zeta. split; [discriminate|]. intros (_ & _ & _ & _ & _ & _ & ? & _). lia. }
  unfold udp_payload. rewrite get16 by (cbn [pb_off]; lia). cbn [pbind pb_off pb_len]. set (udp := at16 f (L + 4 * ihl + 4)). unfold udp_min.
  destruct (Z.ltb_spec (total - 4 * ihl) udp) as [U1|U1]; cbn [orb].
  { split; [discriminate|]. intros off len; cbv zeta. fold ihl total udp. split; [discriminate|]. intros (_ & _ & _ & _ & _ & _ & _ & _ & ? & _). lia. }
  destruct (Z.ltb_spec udp 8) as [U2|U2].
  { split; [discriminate|]. intros off len; cbv zeta. fold ihl total udp. split; [discriminate|]. intros (_ & _ & _ & _ & _ & _ & _ & _ & ? & _). lia. }
  split; [discriminate|]. intros off len; cbv zeta. fold ihl total udp. split.
  - intros [= <- <-]. repeat split; auto; lia.
  - intros (_ & _ & _ & _ & _ & _ & _ & _ & _ & -> & ->). reflexivity.
Qed.
(** The payload is inside the frame, so that the packet given to the decoder is. *)
Theorem C39_inside k f b : bytes_ok f -> udp_from k f = POk b -> 0 <= pb_off b /\ 0 <= pb_len b /\ pb_off b + pb_len b <= zlen f.
Proof.
  intros B E. destruct b as [off len]. apply (C39_parse k f B) in E. destruct E as (E1 & _ & _ & E2 & _ & _ & E3 & E4 & E5 & E6 & E7). cbn [pb_off pb_len] in *.
  assert (14 <= link_len k) by (destruct k; cbn; lia). lia.
Qed.

(** *** C40 *)
Lemma zlen_store mem off l : 0 <= off -> off + zlen l <= zlen mem -> zlen (store mem off l) = zlen mem.
Proof. intros H1 H2. unfold store. pose proof (zlen_nonneg l). rewrite !zlen_app, !zlen_slice by lia. lia. Qed.
Lemma nth_app {A} (l1 l2 : list A) n d : nth n (l1 ++ l2) d = if Nat.ltb n (length l1) then nth n l1 d else nth (n - length l1) l2 d.
Proof. destruct (Nat.ltb_spec n (length l1)); [now apply app_nth1|now apply app_nth2]. Qed.
Lemma nth_slice (l : list Z) off len i : 0 <= off -> 0 <= len -> off + len <= zlen l -> (i < Z.to_nat len)%nat -> nth i (slice l off len) 0 = nth (Z.to_nat off + i) l 0.
Proof.
  intros H1 H2 H3 H4. unfold slice. rewrite <- (firstn_skipn (Z.to_nat len) (skipn (Z.to_nat off) l)) at 1. unfold zlen in H3.
  rewrite <- (firstn_skipn (Z.to_nat off) l) at 3. rewrite (app_nth2 (firstn _ _)) by (rewrite firstn_length_le; lia). rewrite firstn_length_le by lia.
  replace (Z.to_nat off + i - Z.to_nat off)%nat with i by lia. generalize (skipn (Z.to_nat off) l). intro m. rewrite firstn_skipn. clear - H4. revert i H4 m. induction (Z.to_nat len) as [|n IH]; intros i H m; [lia|].
  destruct m as [|x m]; [reflexivity|]. destruct i as [|i]; [reflexivity|]. cbn [firstn nth]. apply IH. lia.
Qed.
Lemma at8_store mem off l i : 0 <= off -> off + zlen l <= zlen mem -> 0 <= i < zlen mem ->
  at8 (store mem off l) i = if (off <=? i) && (i <? off + zlen l) then at8 l (i - off) else at8 mem i.
Proof.
  intros H1 H2 H3. unfold store, at8. pose proof (zlen_nonneg l) as NL. assert (L1 : length (slice mem 0 off) = Z.to_nat off) by (pose proof (zlen_slice mem 0 off ltac:(lia) ltac:(lia) ltac:(lia)) as X; unfold zlen in X; lia).
  rewrite !nth_app, L1. destruct (Z.leb_spec off i) as [A|A]; cbn [andb].
  - destruct (Nat.ltb_spec (Z.to_nat i) (Z.to_nat off)); [lia|]. unfold zlen in *. destruct (Z.ltb_spec i (off + Z.of_nat (length l))) as [C|C].
    + destruct (Nat.ltb_spec (Z.to_nat i - Z.to_nat off) (length l)); [|lia]. f_equal. lia.
    + destruct (Nat.ltb_spec (Z.to_nat i - Z.to_nat off) (length l)); [lia|]. rewrite nth_slice; [f_equal; lia|lia|lia|unfold zlen; lia|lia].
  - destruct (Nat.ltb_spec (Z.to_nat i) (Z.to_nat off)); [|lia]. rewrite nth_slice; [f_equal|lia|lia|lia|lia].
Qed.
Lemma at16_store2 mem off v i : 0 <= off -> off + 2 <= zlen mem -> 0 <= i -> i + 2 <= zlen mem -> i = off \/ i + 2 <= off \/ off + 2 <= i ->
  at16 (store mem off (be_encode 2 v)) i = if i =? off then v mod 65536 else at16 mem i.
Proof.
  intros H1 H2 H3 H4 D. assert (L : zlen (be_encode 2 v) = 2) by apply zlen_be_encode. unfold at16. rewrite !at8_store by lia. rewrite L. destruct (Z.eqb_spec i off) as [E|E].
  - subst i. destruct (Z.leb_spec off off); [|lia]. destruct (Z.ltb_spec off (off + 2)); [|lia]. destruct (Z.leb_spec off (off + 1)); [|lia]. destruct (Z.ltb_spec (off + 1) (off + 2)); [|lia]. cbn [andb].
    replace (off - off) with 0 by lia. replace (off + 1 - off) with 1 by lia. pose proof (be_decode_encode 2 v) as R. change (256 ^ Z.of_nat 2) with 65536 in R. rewrite <- R.
    destruct (be_encode 2 v) as [|x [|y [|z r]]] eqn:EB; unfold zlen in L; cbn [length] in L; try lia. unfold at8. cbn [nth Z.to_nat Pos.to_nat Pos.iter_op]. rewrite be2. reflexivity.
  - destruct (Z.leb_spec off i), (Z.ltb_spec i (off + 2)), (Z.leb_spec off (i + 1)), (Z.ltb_spec (i + 1) (off + 2)); cbn [andb]; try lia.
Qed.

(** Ones' complement sums are sums modulo 65535, with representatives 1 to 65535 for positive sums. *)
Definition lsum (l : list Z) : Z := fold_right Z.add 0 l.
Definition oc (s : Z) : Z := if s =? 0 then 0 else (s - 1) mod 65535 + 1.
Lemma oc_step a w : 0 <= a -> 0 <= w <= 65535 -> oc_add (oc a) w = oc (a + w).
Proof.
  intros Ha Hw. unfold oc_add, oc. destruct (Z.eqb_spec a 0) as [->|N]; cbv zeta.
  - rewrite Z.add_0_l. destruct (Z.ltb_spec 65535 w); [lia|]. destruct (Z.eqb_spec w 0); [lia|]. rewrite Z.mod_small by lia. lia.
  - destruct (Z.eqb_spec (a + w) 0); [lia|]. pose proof (Z.mod_pos_bound (a - 1) 65535 ltac:(lia)) as Q. pose proof (Z.div_mod (a - 1) 65535 ltac:(lia)) as DM.
    destruct (Z.ltb_spec 65535 ((a - 1) mod 65535 + 1 + w)) as [C|C].
    + assert (X : (a + w - 1) mod 65535 = (a - 1) mod 65535 + w - 65535) by (symmetry; apply (Z.mod_unique _ _ ((a - 1) / 65535 + 1)); lia). lia.
    + assert (X : (a + w - 1) mod 65535 = (a - 1) mod 65535 + w) by (symmetry; apply (Z.mod_unique _ _ ((a - 1) / 65535)); lia). lia.
Qed.
Lemma oc_fold l : Forall (fun w => 0 <= w <= 65535) l -> forall a, 0 <= a -> fold_left oc_add l (oc a) = oc (a + lsum l).
Proof.
  induction 1 as [|w l Hw _ IH]; intros a Ha; cbn [fold_left lsum fold_right]; [now rewrite Z.add_0_r|]. rewrite oc_step by lia. rewrite IH by lia. f_equal. unfold lsum. lia.
Qed.
Lemma oc_sum_lsum l : Forall (fun w => 0 <= w <= 65535) l -> oc_sum l = oc (lsum l).
Proof. intro F. unfold oc_sum. change 0 with (oc 0) at 1. rewrite oc_fold by (auto; lia). reflexivity. Qed.
Lemma oc_range s : 0 < s -> 1 <= oc s <= 65535.
Proof. intro H. unfold oc. destruct (Z.eqb_spec s 0); [lia|]. pose proof (Z.mod_pos_bound (s - 1) 65535 ltac:(lia)). lia. Qed.
Lemma oc_small s : 0 < s <= 65535 -> oc s = s.
Proof. intro H. unfold oc. destruct (Z.eqb_spec s 0); [lia|]. rewrite Z.mod_small; lia. Qed.

Lemma fold_sum_spec : forall fuel s, 0 <= s -> s < 65536 + Z.of_nat fuel * 65535 -> fold_sum fuel s = Some (oc s).
Proof.
  induction fuel as [|f IH]; intros s H1 H2; cbn [fold_sum]; destruct (Z.leb_spec s 65535) as [C|C].
  - f_equal. destruct (Z.eqb_spec s 0) as [->|]; [reflexivity|]. rewrite oc_small; lia.
  - lia.
  - f_equal. destruct (Z.eqb_spec s 0) as [->|]; [reflexivity|]. rewrite oc_small; lia.
  - change 65535 with (Z.ones 16) at 1. rewrite Z.land_ones, Z.shiftr_div_pow2 by lia. pose proof (Z.div_mod s (2 ^ 16) ltac:(lia)) as DM. pose proof (Z.mod_pos_bound s (2 ^ 16) ltac:(lia)) as MB. change (2 ^ 16) with 65536 in *.
    assert (D1 : 1 <= s / 65536) by (apply Z.div_le_lower_bound; lia).
    rewrite IH by lia. f_equal. unfold oc. destruct (Z.eqb_spec (s mod 65536 + s / 65536) 0); [lia|]. destruct (Z.eqb_spec s 0); [lia|]. f_equal.
    replace (s - 1) with ((s mod 65536 + s / 65536 - 1) + (s / 65536) * 65535) by lia. now rewrite Z.mod_add by lia.
Qed.

Lemma sum_words_spec mem b : bytes_ok mem -> forall k i s, 0 <= pb_off b + i -> pb_off b + i + 2 * Z.of_nat k <= zlen mem -> 0 <= s -> s + Z.of_nat k * 65535 < 2 ^ 32 ->
  sum_words mem b i k s = POk (s + lsum (map (fun j => at16 mem (pb_off b + i + 2 * Z.of_nat j)) (seq 0 k))).
Proof.
  intro B. induction k as [|k IH]; intros i s H1 H2 H3 H4; cbn [sum_words seq map lsum fold_right]; [now rewrite Z.add_0_r|]. rewrite get16 by lia. cbn [pbind]. pose proof (at16_ok mem (pb_off b + i) B) as BW.
  rewrite Z.mod_small by lia. rewrite IH by lia. f_equal. change (Z.of_nat 0) with 0. rewrite Z.mul_0_r, Z.add_0_r, <- seq_shift, map_map. rewrite <- Z.add_assoc. f_equal. f_equal. unfold lsum. f_equal.
  apply map_ext. intro j. f_equal. lia.
Qed.
Lemma lsum_nonneg l : Forall (fun w => 0 <= w <= 65535) l -> 0 <= lsum l.
Proof. induction 1; cbn [lsum fold_right]; [lia|]. unfold lsum in *. lia. Qed.
Lemma lsum_bound l : Forall (fun w => 0 <= w <= 65535) l -> lsum l <= Z.of_nat (length l) * 65535.
Proof. induction 1; cbn [lsum fold_right length]; [lia|]. unfold lsum in *. lia. Qed.
Lemma words_ok f off n : bytes_ok f -> Forall (fun w => 0 <= w <= 65535) (words f off n).
Proof. intro B. unfold words. apply Forall_forall. intros w Hw. apply in_map_iff in Hw as (j & <- & _). pose proof (at16_ok f (off + 2 * Z.of_nat j) B). lia. Qed.
Lemma lsum_app l1 l2 : lsum (l1 ++ l2) = lsum l1 + lsum l2.
Proof. unfold lsum. induction l1 as [|x l1 IH]; cbn [app fold_right]; [lia|]. rewrite IH. lia. Qed.
Lemma words_split f off n k : (k < n)%nat -> lsum (words f off n) = lsum (words f off k) + at16 f (off + 2 * Z.of_nat k) + lsum (words f (off + 2 * Z.of_nat (S k)) (n - S k)).
Proof.
  intro H. unfold words. replace n with (k + S (n - S k))%nat at 1 by lia. rewrite seq_app, map_app, lsum_app. cbn [seq map]. cbn [Nat.add].
  change (at16 f (off + 2 * Z.of_nat k) :: ?l) with ([at16 f (off + 2 * Z.of_nat k)] ++ l). rewrite lsum_app. unfold lsum at 2. cbn [fold_right]. rewrite Z.add_0_r, Z.add_assoc. f_equal. f_equal.
  generalize (n - S k)%nat. intro m. assert (G : forall z, map (fun i => at16 f (off + 2 * Z.of_nat i)) (seq (S k + z) m) = map (fun i => at16 f (off + 2 * Z.of_nat (S k) + 2 * Z.of_nat i)) (seq z m)).
  { induction m as [|m IH]; intro z; cbn [seq map]; [reflexivity|]. f_equal; [f_equal; lia|]. replace (S (S k + z)) with (S k + S z)%nat by lia. apply IH. }
  rewrite <- G. f_equal. f_equal. lia.
Qed.
Lemma store_ok mem off l : bytes_ok mem -> bytes_ok l -> bytes_ok (store mem off l).
Proof. intros B1 B2. unfold store. rewrite !bytes_ok_app. repeat split; auto; now apply bytes_ok_slice. Qed.
Lemma words_store mem off v base n : 0 <= base -> base + 2 * Z.of_nat n <= zlen mem -> 0 <= off -> off + 2 <= zlen mem -> off + 2 <= base \/ base + 2 * Z.of_nat n <= off ->
  words (store mem off (be_encode 2 v)) base n = words mem base n.
Proof.
  intros H1 H2 H3 H4 D. unfold words. apply map_ext_in. intros j Hj. apply in_seq in Hj. rewrite at16_store2 by lia. destruct (Z.eqb_spec (base + 2 * Z.of_nat j) off); [lia|reflexivity].
Qed.
Lemma set_be_ok mem b off n v : 0 <= pb_off b + off -> pb_off b + off + Z.of_nat n <= zlen mem -> set_be mem b off n v = POk (store mem (pb_off b + off) (be_encode n v)).
Proof. intros H1 H2. unfold set_be, set. rewrite zlen_be_encode. destruct (Z.leb_spec 0 (pb_off b + off)); [|lia]. destruct (Z.leb_spec (pb_off b + off + Z.of_nat n) (zlen mem)); [|lia]. reflexivity. Qed.

(** For an IPv4 header (with options or without) inside a buffer: the words of
    the updated header have ones' complement sum 0xffff, and only the checksum
    has changed. *)
Theorem C40_checksum mem b : bytes_ok mem -> let ihl := at8 mem (pb_off b) mod 16 in
  0 <= pb_off b -> 5 <= ihl -> pb_off b + 4 * ihl <= zlen mem ->
  exists mem', update_checksum mem b = POk mem' /\ oc_sum (words mem' (pb_off b) (Z.to_nat (2 * ihl))) = 65535 /\
    zlen mem' = zlen mem /\ bytes_ok mem' /\ forall i, 0 <= i < zlen mem -> i <> pb_off b + 10 -> i <> pb_off b + 11 -> at8 mem' i = at8 mem i.
Proof.
  intros B ihl H1 H2 H3. pose proof (Z.mod_pos_bound (at8 mem (pb_off b)) 16 ltac:(lia)) as HM. fold ihl in HM. pose proof (at8_ok mem (pb_off b) B) as B0. set (c := pb_off b + 10) in *.
  unfold update_checksum, header_length. rewrite get8 by lia. cbn [pbind]. rewrite Z.add_0_r, land15 by lia. fold ihl. rewrite set_be_ok by lia. cbn [pbind]. fold c. set (m1 := store mem c (be_encode 2 0)).
  assert (L1 : zlen m1 = zlen mem) by (apply zlen_store; rewrite ?zlen_be_encode; lia). assert (B1 : bytes_ok m1) by (apply store_ok; [exact B|apply be_encode_ok]).
  replace (4 * ihl / 2) with (2 * ihl) by (replace (4 * ihl) with (2 * ihl * 2) by lia; now rewrite Z.div_mul by lia). set (n := Z.to_nat (2 * ihl)). assert (Hn : Z.of_nat n = 2 * ihl) by lia.
  rewrite sum_words_spec by (auto; lia). cbn [pbind]. rewrite Z.add_0_l, Z.add_0_r. fold (words m1 (pb_off b) n).
  set (S := lsum (words m1 (pb_off b) n)). pose proof (words_ok m1 (pb_off b) n B1) as W1. pose proof (lsum_nonneg _ W1) as N1. pose proof (lsum_bound _ W1) as U1. fold S in N1, U1.
  assert (LW : length (words m1 (pb_off b) n) = n) by (unfold words; now rewrite map_length, seq_length). rewrite LW in U1.
  rewrite fold_sum_spec by lia.
  (* the first word is not zero *)
  assert (E0 : at8 m1 (pb_off b) = at8 mem (pb_off b)).
  { unfold m1. rewrite at8_store by (rewrite ?zlen_be_encode; lia). destruct (Z.leb_spec c (pb_off b)); [lia|]. reflexivity. }
  assert (PS : 0 < S).
  { unfold S. rewrite (words_split m1 (pb_off b) n 0) by lia. change (2 * Z.of_nat 0) with 0. rewrite Z.add_0_r. pose proof (lsum_nonneg _ (words_ok m1 (pb_off b) 0 B1)). pose proof (lsum_nonneg _ (words_ok m1 (pb_off b + 2 * Z.of_nat 1) (n - 1) B1)).
    unfold at16. rewrite E0. pose proof (at8_ok m1 (pb_off b + 1) B1). assert (0 < at8 mem (pb_off b)) by (destruct (Z.eq_dec (at8 mem (pb_off b)) 0) as [Z0|]; [unfold ihl in H2; rewrite Z0 in H2; cbn in H2; lia|lia]). lia. }
  pose proof (oc_range S PS) as OR. assert (X : Z.lxor (oc S) 65535 = 65535 - oc S).
  { apply Z.bits_inj'. intros i Hi. change 65535 with (Z.ones 16). rewrite Z.lxor_spec, Z.testbit_ones_nonneg by lia.
    assert (SB : Z.ones 16 - oc S = Z.land (Z.lnot (oc S)) (Z.ones 16)).
    { rewrite Z.land_ones by lia. unfold Z.lnot. rewrite <- Z.sub_1_r. change (Z.ones 16) with 65535. change (2 ^ 16) with 65536. apply (Z.mod_unique _ _ (-1)); lia. }
    rewrite SB, Z.land_spec, Z.lnot_spec, Z.testbit_ones_nonneg by lia. destruct (Z.ltb_spec i 16); [rewrite xorb_true_r, andb_true_r; reflexivity|]. rewrite xorb_false_r, andb_false_r.
    apply Z.bits_above_log2; [lia|]. apply Z.log2_lt_pow2; [lia|]. apply Z.lt_le_trans with (2 ^ 16); [change (2 ^ 16) with 65536; lia|apply Z.pow_le_mono_r; lia]. }
  rewrite X, set_be_ok by lia. fold c. set (v := 65535 - oc S). set (m2 := store m1 c (be_encode 2 v)). assert (B2 : bytes_ok m2) by (apply store_ok; [exact B1|apply be_encode_ok]).
  exists m2. split; [reflexivity|]. split; [|split; [|split; [exact B2|]]].
  - rewrite oc_sum_lsum by now apply words_ok. assert (T : lsum (words m2 (pb_off b) n) = S + v).
    { unfold S. rewrite (words_split m2 (pb_off b) n 5), (words_split m1 (pb_off b) n 5) by lia. change (2 * Z.of_nat 5) with 10. fold c. unfold m2. rewrite !(words_store m1) by lia.
      rewrite at16_store2 by lia. rewrite Z.eqb_refl. assert (Z1 : at16 m1 c = 0) by (unfold m1; rewrite at16_store2 by lia; rewrite Z.eqb_refl; reflexivity). rewrite Z1, (Z.mod_small v) by lia. lia. }
    rewrite T. unfold oc in *. destruct (Z.eqb_spec S 0); [lia|]. unfold v. destruct (Z.eqb_spec (S + (65535 - ((S - 1) mod 65535 + 1))) 0); [lia|].
    pose proof (Z.div_mod (S - 1) 65535 ltac:(lia)) as DM. assert (R : (S + (65535 - ((S - 1) mod 65535 + 1)) - 1) mod 65535 = 65534) by (symmetry; apply (Z.mod_unique _ _ ((S - 1) / 65535)); lia). lia.
  - unfold m2. rewrite zlen_store; rewrite ?zlen_be_encode; lia.
  - intros i Hi N10 N11. unfold m2. rewrite at8_store by (rewrite ?zlen_be_encode; lia). rewrite zlen_be_encode. destruct (Z.leb_spec c i), (Z.ltb_spec i (c + Z.of_nat 2)); cbn [andb]; try lia;
      unfold m1; rewrite at8_store by (rewrite ?zlen_be_encode; lia); rewrite zlen_be_encode; destruct (Z.leb_spec c i), (Z.ltb_spec i (c + Z.of_nat 2)); cbn [andb]; try lia; reflexivity.
Qed.

(** *** Examples *)
Definition ex_eth : list Z := [1;0;94;100;1;2; 2;0;0;0;0;1; 8;0].
Definition ex_sll : list Z := [0;0;0;1;0;6;2;0;0;0;0;1;0;0;8;0].
(** IPv4 header with one word of options, identification 7, don't fragment *)
Definition ex_ip : list Z := [70;0;0;34; 0;7;64;0; 4;17;0;0; 10;0;0;1; 239;100;1;2; 1;1;1;0].
Definition ex_udp : list Z := [4;0;31;64;0;10;0;0; 171;205].
Definition ex_trail : list Z := [0;0;0].
Example C39_ex : bytes_ok (ex_eth ++ ex_ip ++ ex_udp ++ ex_trail)
  /\ udp_from Ethernet (ex_eth ++ ex_ip ++ ex_udp ++ ex_trail) = POk {| pb_off := 46; pb_len := 2 |}
  /\ udp_from LinuxSll (ex_sll ++ ex_ip ++ ex_udp) = POk {| pb_off := 48; pb_len := 2 |}
  /\ udp_from Ethernet (ex_eth ++ ex_ip) = PErr LengthError /\ udp_from LinuxSll (ex_eth ++ ex_ip ++ ex_udp) = PErr TypeError.
Proof. split; [|repeat split; reflexivity]. cbv [ex_eth ex_ip ex_udp ex_trail app]. repeat (apply Forall_cons; [unfold byte_ok; lia|]). apply Forall_nil. Qed.
Example C40_ex : let mem := ex_eth ++ ex_ip ++ ex_udp in
  at8 mem 14 mod 16 = 6 /\ update_checksum mem {| pb_off := 14; pb_len := 34 |} = POk (ex_eth ++ [70;0;0;34; 0;7;64;0; 4;17;121;92; 10;0;0;1; 239;100;1;2; 1;1;1;0] ++ ex_udp).
Proof. split; reflexivity. Qed.

Print Assumptions C39_parse.
Print Assumptions C39_inside.
Print Assumptions C40_checksum.
