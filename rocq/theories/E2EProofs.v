(** From the packet generator's output to the receiver's view. *)
From Coq Require Import ZArith List Lia Bool.
From Coq Require Import ZifyBool ZifyNat.
From Verif Require Import Base CodecModel CodecProofs CodecProps PacketSpec RecvPacketModel RecvPacketProofs RecvPacketProps
  SendPacketModel SendSpec SendPacketProofs SendGenProofs SendProps
  LiveHeapModel LiveHeapSpec LiveHeapProofs LiveHeapProps RecvHeapModel RecvHeapProofs RecvHeapProps ReassembleProofs.
Import ListNotations.
Open Scope Z_scope.

(** The decoder's view of a packet. *)
Definition decode_rpkt (d : list Z) : option rpkt :=
  match decode_packet d with
  | Accept h _ => Some (rpkt_of d h)
  | _ => None
  end.

Lemma kept_not_special hab p : kept hab p = true -> special_ptr hab p = false.
Proof.
  unfold kept, special_ptr, imm_with_id, HEAP_CNT_ID, HEAP_LENGTH_ID, PAYLOAD_OFFSET_ID, PAYLOAD_LENGTH_ID.
  destruct (is_immediate p); cbn [andb orb]; [|reflexivity]. lia.
Qed.

Lemma kept_last_imm hab id l :
  1 <= id <= 4 -> Forall (fun p => kept hab p = true) l -> last_imm hab id l = None.
Proof.
  intros Hid. induction 1 as [|p l Hp Hl IH]; [reflexivity|]. cbn [last_imm]. rewrite IH.
  unfold kept in Hp. unfold imm_with_id. destruct (Z.eqb_spec (get_id hab p) id); [lia|]. now rewrite andb_false_r.
Qed.

Lemma kept_skip hab l : Forall (fun p => kept hab p = true) l -> skip_specials hab l = l.
Proof. intros [|p l' Hp _]; [reflexivity|]. cbn [skip_specials]. now rewrite kept_not_special. Qed.

Lemma flavour_small_id hab id : flavour_ok hab = true -> 0 <= id < 64 -> 0 <= id < 2 ^ (63 - hab).
Proof.
  intros Hf H. pose proof (flavour_ok_range _ Hf).
  assert (2 ^ 7 <= 2 ^ (63 - hab)) by (apply Z.pow_le_mono_r; lia). lia.
Qed.

Lemma special_facts hab id v : flavour_ok hab = true -> 1 <= id <= 4 -> 0 <= v < 2 ^ hab ->
  word_ok (encode_immediate hab id v) /\ special_ptr hab (encode_immediate hab id v) = true /\
  forall id', imm_with_id hab id' (encode_immediate hab id v) = (id =? id') /\ get_immediate hab (encode_immediate hab id v) = v.
Proof.
  intros Hf Hid Hv.
  destruct (C01_immediate_round_trip hab id v Hf) as (_ & H1 & H2 & H3 & H4).
  { split; [apply flavour_small_id; [exact Hf|lia]|exact Hv]. }
  split; [exact H1|]. split.
  - unfold special_ptr, imm_with_id. rewrite H2, H3. unfold HEAP_CNT_ID, HEAP_LENGTH_ID, PAYLOAD_OFFSET_ID, PAYLOAD_LENGTH_ID.
    cbn [andb]. lia.
  - intro id'. unfold imm_with_id. rewrite H2, H3. split; [reflexivity|exact H4].
Qed.

Lemma wire_bytes_ok hab ptrs payload :
  flavour_ok hab = true -> bytes_ok payload -> bytes_ok (wire_packet hab 0 ptrs payload).
Proof.
  intros Hf Hp. pose proof (flavour_ok_bytes _ Hf) as [_ Hr]. pose proof (flavour_ok_range _ Hf).
  unfold wire_packet. repeat rewrite bytes_ok_app. split.
  { repeat (apply Forall_cons; [unfold byte_ok; lia|]). apply Forall_nil. }
  split; [apply be_encode_ok|]. split; [apply be_encode_ok|]. split; [|exact Hp].
  induction ptrs as [|p ptrs IH]; [constructor|]. cbn [flat_map]. apply bytes_ok_app. split; [apply be_encode_ok|exact IH].
Qed.

(** A packet consisting of the four specials and kept pointers. *)
Lemma wire_at hab cnt hlen off ptrs payload :
  flavour_ok hab = true -> 0 <= cnt < 2 ^ hab -> 0 <= hlen < 2 ^ hab -> 0 <= off -> off + zlen payload <= hlen ->
  Forall word_ok ptrs -> Forall (fun p => kept hab p = true) ptrs -> zlen ptrs + 4 < 65536 ->
  let ps := special_ptrs hab cnt hlen off (zlen payload) ++ ptrs in
  packet_at (wire_packet hab 0 ps payload) hab ps payload cnt (Some hlen) off /\
  first_imm hab PAYLOAD_LENGTH_ID ps = Some (zlen payload) /\ skip_specials hab ps = ptrs.
Proof.
  intros Hf Hcnt Hhl Hoff Hfit Hw Hk Hn ps. pose proof (zlen_nonneg payload) as Hz.
  pose proof (special_facts hab HEAP_CNT_ID cnt Hf ltac:(unfold HEAP_CNT_ID; lia) Hcnt) as (A1 & A2 & A3).
  pose proof (special_facts hab HEAP_LENGTH_ID hlen Hf ltac:(unfold HEAP_LENGTH_ID; lia) Hhl) as (B1 & B2 & B3).
  pose proof (special_facts hab PAYLOAD_OFFSET_ID off Hf ltac:(unfold PAYLOAD_OFFSET_ID; lia) ltac:(lia)) as (C1 & C2 & C3).
  pose proof (special_facts hab PAYLOAD_LENGTH_ID (zlen payload) Hf ltac:(unfold PAYLOAD_LENGTH_ID; lia) ltac:(lia)) as (D1 & D2 & D3).
  assert (HLI : forall id, 1 <= id <= 4 -> last_imm hab id ptrs = None) by (intros; now apply kept_last_imm).
  unfold ps. split; [|split].
  { constructor.
    - exact Hf.
    - unfold special_ptrs. repeat (apply Forall_cons; [assumption|]). exact Hw.
    - rewrite zlen_app. change (zlen (special_ptrs _ _ _ _ _)) with 4. lia.
    - exists 0, []. split; [lia|]. now rewrite app_nil_r.
    - unfold special_ptrs. cbn [app last_imm]. rewrite HLI by (unfold HEAP_CNT_ID; lia).
      rewrite (proj1 (D3 _)), (proj1 (C3 _)), (proj1 (B3 _)), (proj1 (A3 _)), (proj2 (A3 0)). reflexivity.
    - unfold special_ptrs. cbn [app last_imm]. rewrite HLI by (unfold HEAP_LENGTH_ID; lia).
      rewrite (proj1 (D3 _)), (proj1 (C3 _)), (proj1 (B3 _)), (proj2 (B3 0)). reflexivity.
    - unfold special_ptrs. cbn [app last_imm]. rewrite HLI by (unfold PAYLOAD_OFFSET_ID; lia).
      rewrite (proj1 (D3 _)), (proj1 (C3 _)), (proj2 (C3 0)). reflexivity.
    - unfold special_ptrs. cbn [app last_imm]. rewrite HLI by (unfold PAYLOAD_LENGTH_ID; lia).
      rewrite (proj1 (D3 _)), (proj2 (D3 0)). reflexivity.
    - intros l [= <-]. exact Hfit. }
  { unfold special_ptrs. cbn [app first_imm].
    rewrite (proj1 (A3 _)), (proj1 (B3 _)), (proj1 (C3 _)), (proj1 (D3 _)), (proj2 (D3 0)). reflexivity. }
  { unfold special_ptrs. cbn [app skip_specials]. rewrite A2, B2, C2, D2. now apply kept_skip. }
Qed.

(** A packet consisting of the four specials and kept pointers decodes to
    exactly its contents. *)
Lemma wire_decodes hab cnt hlen off ptrs payload :
  flavour_ok hab = true -> 0 <= cnt < 2 ^ hab -> 0 <= hlen < 2 ^ hab -> 0 <= off -> off + zlen payload <= hlen ->
  Forall word_ok ptrs -> Forall (fun p => kept hab p = true) ptrs -> zlen ptrs + 4 < 65536 -> bytes_ok payload ->
  let d := wire_packet hab 0 (special_ptrs hab cnt hlen off (zlen payload) ++ ptrs) payload in
  let r := {| rp_hab := hab; rp_cnt := cnt; rp_hlen := hlen; rp_off := off; rp_plen := zlen payload;
              rp_ptrs := ptrs; rp_payload := payload |} in
  decode_rpkt d = Some r /\ decoded r.
Proof.
  intros Hf Hcnt Hhl Hoff Hfit Hw Hk Hn Hb d r.
  destruct (wire_at hab cnt hlen off ptrs payload Hf Hcnt Hhl Hoff Hfit Hw Hk Hn) as (PA & _ & HK). fold d in PA.
  destruct (C02_wellformed_accepted _ _ _ _ _ _ _ PA) as (h & HD & H1 & H2 & H3 & H4 & H5 & H6 & H7).
  assert (ER : rpkt_of d h = r).
  { unfold rpkt_of, r. rewrite H1, H2, H3, H4, H5, H6, H7. now rewrite HK. }
  split.
  - unfold decode_rpkt. rewrite HD. now rewrite ER.
  - exists d, h. eexists. split; [now apply wire_bytes_ok|]. split; [exact HD|]. now rewrite ER.
Qed.

(** ** Item pointers of a heap *)
Lemma immediate_data_value hab d :
  flavour_ok hab = true -> bytes_ok d -> zlen d <= hab / 8 -> 0 <= be_decode d < 2 ^ hab.
Proof.
  intros Hf Hb Hl. pose proof (flavour_ok_bytes _ Hf) as [He _]. pose proof (be_decode_bound d Hb) as HB.
  pose proof (zlen_nonneg d).
  assert (256 ^ zlen d <= 256 ^ (hab / 8)) by (apply Z.pow_le_mono_r; lia).
  replace (256 ^ (hab / 8)) with (2 ^ hab) in *; [lia|].
  change 256 with (2 ^ 8). rewrite <- Z.pow_mul_r by lia. f_equal. lia.
Qed.

(** Value carried by an immediate item. *)
Definition imm_value (it : item) : Z :=
  match it with Inline _ v => v | Buffer _ _ d => be_decode d end.

Lemma heap_pointers_In hab items base q :
  In q (heap_pointers hab items base) <->
  exists A it B, items = A ++ it :: B /\
    q = if addressed hab it then encode_address hab (item_id it) (base + zlen (heap_payload hab A))
        else encode_immediate hab (item_id it) (imm_value it).
Proof.
  revert base. induction items as [|it items IH]; intro base.
  - cbn [heap_pointers]. split; [intros []|]. intros (A & it & B & E & _). destruct A; discriminate.
  - assert (HE : heap_pointers hab (it :: items) base =
      (if addressed hab it then encode_address hab (item_id it) base else encode_immediate hab (item_id it) (imm_value it))
      :: heap_pointers hab items (base + zlen (heap_payload hab [it]))).
    { destruct it as [id v|id allow d]; cbn [heap_pointers addressed item_id imm_value].
      - unfold heap_payload. cbn [filter addressed flat_map]. rewrite zlen_nil, Z.add_0_r. reflexivity.
      - unfold heap_payload. cbn [filter addressed flat_map]. destruct (allow && (zlen d <=? hab / 8)); cbn [negb].
        + cbn [flat_map]. rewrite zlen_nil, Z.add_0_r. reflexivity.
        + cbn [flat_map item_data]. rewrite app_nil_r. reflexivity. }
    rewrite HE. cbn [In]. rewrite IH. split.
    + intros [<-|(A & x & B & -> & ->)].
      * exists [], it, items. split; [reflexivity|]. unfold heap_payload at 1. cbn [filter flat_map]. now rewrite zlen_nil, Z.add_0_r.
      * exists (it :: A), x, B. split; [reflexivity|].
        change (it :: A) with ([it] ++ A). rewrite heap_payload_app, zlen_app, Z.add_assoc. reflexivity.
    + intros (A & x & B & E & ->). destruct A as [|y A]; injection E as -> ->.
      * left. unfold heap_payload at 1. cbn [filter flat_map]. now rewrite zlen_nil, Z.add_0_r.
      * right. exists A, x, B. split; [reflexivity|].
        change (y :: A) with ([y] ++ A). rewrite heap_payload_app, zlen_app, Z.add_assoc. reflexivity.
Qed.

Lemma split_compare {A} (l1 l2 l1' l2' : list A) x x' :
  l1 ++ x :: l2 = l1' ++ x' :: l2' ->
  (l1 = l1' /\ x = x' /\ l2 = l2') \/ (exists m, l1' = l1 ++ x :: m /\ l2 = m ++ x' :: l2') \/ (exists m, l1 = l1' ++ x' :: m /\ l2' = m ++ x :: l2).
Proof.
  revert l1'. induction l1 as [|y l1 IH]; intros [|y' l1'] E; cbn [app] in E; injection E as E1 E2.
  - left. auto.
  - right. left. exists l1'. subst. auto.
  - right. right. exists l1. subst. auto.
  - subst. destruct (IH l1' E2) as [(-> & -> & ->)|[(m & -> & ->)|(m & -> & ->)]]; [left; auto|right; left; exists m; auto|right; right; exists m; auto].
Qed.

Lemma first_addressed hab B :
  (exists C y D, B = C ++ y :: D /\ addressed hab y = true /\ heap_payload hab C = []) \/ heap_payload hab B = [].
Proof.
  induction B as [|y B IH]; [right; reflexivity|]. destruct (addressed hab y) eqn:E.
  - left. exists [], y, B. auto.
  - rewrite heap_payload_cons, E. cbn [app]. destruct IH as [(C & z & D & -> & H1 & H2)|IH]; [|now right].
    left. exists (y :: C), z, D. split; [reflexivity|]. split; [exact H1|]. now rewrite heap_payload_cons, E.
Qed.

(** Word, id and address or value of the pointer of an item. *)
Lemma item_ptr_facts hab items L A it B :
  flavour_ok hab = true -> Forall (item_ok hab) items -> zlen (heap_payload hab items) <= L -> L < 2 ^ hab ->
  items = A ++ it :: B ->
  let a := zlen (heap_payload hab A) in
  let q := if addressed hab it then encode_address hab (item_id it) a
           else encode_immediate hab (item_id it) (imm_value it) in
  word_ok q /\ is_immediate q = negb (addressed hab it) /\ get_id hab q = item_id it /\
  0 <= a <= L /\
  (if addressed hab it then get_address hab q = a else get_immediate hab q = imm_value it).
Proof.
  intros Hf Hok HP HL -> a q. apply Forall_app in Hok as [_ Hok]. inversion Hok as [|? ? Hit _]; subst.
  assert (Ha : 0 <= a <= L).
  { unfold a. rewrite heap_payload_app, zlen_app in HP. pose proof (zlen_nonneg (heap_payload hab A)).
    pose proof (zlen_nonneg (heap_payload hab (it :: B))). lia. }
  assert (Hid : 0 <= item_id it < 2 ^ (63 - hab)) by (destruct it; cbn in *; tauto).
  unfold q. destruct (addressed hab it) eqn:EA.
  - destruct (C01_address_round_trip hab (item_id it) a Hf ltac:(split; lia)) as (_ & H1 & H2 & H3 & H4).
    cbn [negb]. repeat split; try assumption; try (apply H1); lia.
  - assert (Hv : 0 <= imm_value it < 2 ^ hab).
    { destruct it as [id v|id allow d]; cbn [imm_value item_ok addressed] in *; [tauto|].
      apply negb_false_iff, andb_true_iff in EA as [_ EA]. apply immediate_data_value; [exact Hf|tauto|lia]. }
    destruct (C01_immediate_round_trip hab (item_id it) (imm_value it) Hf ltac:(split; lia)) as (_ & H1 & H2 & H3 & H4).
    cbn [negb]. repeat split; try assumption; try (apply H1); lia.
Qed.

(** ** The receiver's items are the sender's items *)
(** What the receiver gets for an item: addressed values as sent; immediates
    as address-sized big-endian numbers, i.e. small buffers padded with zeros
    on the left. *)
Definition received_value (hab : Z) (it : item) : list Z :=
  match it with
  | Inline _ v => be_encode (Z.to_nat (hab / 8)) v
  | Buffer _ allow d =>
      if allow && (zlen d <=? hab / 8) then repeat 0 (Z.to_nat (hab / 8 - zlen d)) ++ d else d
  end.

Lemma be_encode_0 n : be_encode n 0 = repeat 0 n.
Proof.
  induction n as [|n IH]; [reflexivity|]. cbn [be_encode]. rewrite Z.div_0_l, Z.mod_0_l by lia. rewrite IH.
  symmetry. apply repeat_cons.
Qed.

Lemma be_encode_pad d n : bytes_ok d -> zlen d <= Z.of_nat n ->
  be_encode n (be_decode d) = repeat 0 (n - length d) ++ d.
Proof.
  intros Hb. unfold zlen. revert n. induction d as [|b d IH] using rev_ind; intros n Hl.
  - cbn [length app]. rewrite Nat.sub_0_r, app_nil_r. change (be_decode []) with 0. apply be_encode_0.
  - rewrite app_length in *. cbn [length] in *. destruct n as [|n]; [lia|]. cbn [be_encode].
    apply bytes_ok_app in Hb as [Hb1 Hb2]. inversion Hb2 as [|? ? Hb3 _]; subst. unfold byte_ok in Hb3.
    rewrite be_decode_snoc.
    replace ((be_decode d * 256 + b) / 256) with (be_decode d) by (apply (Z.div_unique_pos _ _ _ b); lia).
    replace ((be_decode d * 256 + b) mod 256) with b by (apply (Z.mod_unique_pos _ _ (be_decode d)); lia).
    rewrite IH by (try exact Hb1; lia). rewrite <- app_assoc. f_equal. f_equal. lia.
Qed.

Lemma received_immediate hab items it :
  flavour_ok hab = true -> Forall (item_ok hab) items -> In it items -> addressed hab it = false ->
  received_value hab it = be_encode (Z.to_nat (hab / 8)) (imm_value it).
Proof.
  intros Hf Hok Hin EA. rewrite Forall_forall in Hok. specialize (Hok it Hin).
  destruct it as [id v|id allow d]; cbn [received_value imm_value addressed item_ok] in *; [reflexivity|].
  apply negb_false_iff in EA. rewrite EA. apply andb_true_iff in EA as [_ EA].
  pose proof (flavour_ok_bytes _ Hf). pose proof (zlen_nonneg d). rewrite be_encode_pad by (try tauto; lia).
  f_equal. f_equal. unfold zlen. lia.
Qed.

Lemma NoDup_single {A} (l : list A) p : NoDup l -> In p l -> (forall x, In x l -> x = p) -> l = [p].
Proof.
  intros HN Hp HA. destruct l as [|x [|y l]]; [destruct Hp| |].
  - now rewrite (HA x (or_introl eq_refl)).
  - exfalso. inversion HN as [|? ? HN1 _]; subst. apply HN1.
    rewrite (HA x (or_introl eq_refl)), (HA y (or_intror (or_introl eq_refl))). now left.
Qed.

(** The pointers the receiver holds are the sender's, possibly with a NULL
    pointer to the end of the user payload. *)
Definition sent_pointers (hab L : Z) (items : list item) : list Z :=
  heap_pointers hab items 0 ++
  (if zlen (heap_payload hab items) <? L then [encode_address hab NULL_ID (zlen (heap_payload hab items))] else []).

Lemma sent_regions hab items L ptrs :
  flavour_ok hab = true -> Forall (item_ok hab) items -> zlen (heap_payload hab items) <= L -> L < 2 ^ hab ->
  Forall (fun it => 4 < item_id it /\ (addressed hab it = true -> item_data it <> [])) items ->
  NoDup ptrs -> (forall q, In q ptrs <-> In q (sent_pointers hab L items)) ->
  forall id a b,
  (exists p, item_region hab ptrs L p a b /\ get_id hab p = id /\ id <> 0) <->
  (exists A it B, items = A ++ it :: B /\ addressed hab it = true /\ item_id it = id /\
     a = zlen (heap_payload hab A) /\ b = a + zlen (item_data it)).
Proof.
  intros Hf Hok HPL HL Hit HN HI id a b.
  set (P := zlen (heap_payload hab items)) in *.
  (* shape of the addressed pointers *)
  assert (HAp : forall q, In q ptrs -> is_immediate q = false ->
    (exists A it B, items = A ++ it :: B /\ addressed hab it = true /\ get_id hab q = item_id it /\
       get_address hab q = zlen (heap_payload hab A) /\ q = encode_address hab (item_id it) (zlen (heap_payload hab A)))
    \/ (get_id hab q = 0 /\ get_address hab q = P /\ P < L)).
  { intros q Hq Hi. apply HI in Hq. unfold sent_pointers in Hq. apply in_app_or in Hq as [Hq|Hq].
    - left. apply heap_pointers_In in Hq as (A & it & B & E & Eq). rewrite Z.add_0_l in Eq.
      pose proof (item_ptr_facts hab items L A it B Hf Hok HPL HL E) as HF0. cbv zeta in HF0. rewrite <- Eq in HF0.
      destruct HF0 as (F1 & F2 & F3 & F4 & F5). rewrite Hi in F2. symmetry in F2. apply negb_false_iff in F2.
      rewrite F2 in F5, Eq. exists A, it, B. repeat split; assumption.
    - right. fold P in Hq. destruct (P <? L) eqn:EP; [|destruct Hq]. destruct Hq as [<-|[]].
      assert (0 <= P) by apply zlen_nonneg.
      destruct (C01_address_round_trip hab NULL_ID P Hf) as (_ & _ & _ & H3 & H4).
      { split; [apply flavour_small_id; [exact Hf|unfold NULL_ID; lia]|lia]. }
      rewrite H3, H4. split; [reflexivity|]. split; [reflexivity|lia]. }
  assert (HItem : forall A it B, items = A ++ it :: B -> addressed hab it = true ->
    In (encode_address hab (item_id it) (zlen (heap_payload hab A))) ptrs /\
    is_immediate (encode_address hab (item_id it) (zlen (heap_payload hab A))) = false /\
    get_id hab (encode_address hab (item_id it) (zlen (heap_payload hab A))) = item_id it /\
    get_address hab (encode_address hab (item_id it) (zlen (heap_payload hab A))) = zlen (heap_payload hab A) /\
    0 < zlen (item_data it) /\ zlen (heap_payload hab A) + zlen (item_data it) + zlen (heap_payload hab B) = P /\
    4 < item_id it).
  { intros A it B E EA. pose proof (item_ptr_facts hab items L A it B Hf Hok HPL HL E) as HF0. cbv zeta in HF0.
    rewrite EA in HF0. destruct HF0 as (F1 & F2 & F3 & F4 & F5). cbn [negb] in F2.
    split. { apply HI. unfold sent_pointers. apply in_or_app. left. apply heap_pointers_In. exists A, it, B.
             split; [exact E|]. now rewrite EA, Z.add_0_l. }
    split; [exact F2|]. split; [exact F3|]. split; [exact F5|].
    assert (Hin : In it items) by (rewrite E; apply in_or_app; right; now left).
    rewrite Forall_forall in Hit. destruct (Hit it Hin) as [H4 H5]. specialize (H5 EA).
    split. { destruct (item_data it); [contradiction|]. rewrite zlen_cons. pose proof (zlen_nonneg l). lia. }
    split; [|exact H4]. unfold P. rewrite E, heap_payload_app, heap_payload_cons, EA, !zlen_app. lia. }
  assert (HCmp : forall A it B A' it' B', items = A ++ it :: B -> items = A' ++ it' :: B' ->
    addressed hab it = true -> addressed hab it' = true ->
    (A = A' /\ it = it' /\ B = B') \/
    zlen (heap_payload hab A) + zlen (item_data it) <= zlen (heap_payload hab A') \/
    zlen (heap_payload hab A') + zlen (item_data it') <= zlen (heap_payload hab A)).
  { intros A it B A' it' B' E E' EA EA'. rewrite E in E'.
    destruct (split_compare _ _ _ _ _ _ E') as [H|[(m & -> & _)|(m & -> & _)]]; [now left| |].
    - right. left. rewrite heap_payload_app, heap_payload_cons, EA, !zlen_app. pose proof (zlen_nonneg (heap_payload hab m)). lia.
    - right. right. rewrite heap_payload_app, heap_payload_cons, EA', !zlen_app. pose proof (zlen_nonneg (heap_payload hab m)). lia. }
  (* there is a pointer where each item ends, unless it ends the heap *)
  assert (HEnd : forall A it B, items = A ++ it :: B -> addressed hab it = true ->
    zlen (heap_payload hab A) + zlen (item_data it) = L \/
    exists q, In q ptrs /\ is_immediate q = false /\ get_address hab q = zlen (heap_payload hab A) + zlen (item_data it)).
  { intros A it B E EA. destruct (HItem A it B E EA) as (_ & _ & _ & _ & _ & HS & _).
    destruct (first_addressed hab B) as [(C & y & D & EB & EY & EC)|EB].
    - right. assert (E2 : items = (A ++ it :: C) ++ y :: D) by (rewrite E, EB, <- app_assoc; reflexivity).
      destruct (HItem _ y D E2 EY) as (G1 & G2 & _ & G4 & _).
      eexists. split; [exact G1|]. split; [exact G2|]. rewrite G4.
      rewrite heap_payload_app, heap_payload_cons, EA, !zlen_app, EC, zlen_nil. lia.
    - rewrite EB, zlen_nil in HS. destruct (Z.eq_dec P L) as [EL|EL]; [left; lia|]. right.
      assert (0 <= P) by apply zlen_nonneg.
      destruct (C01_address_round_trip hab NULL_ID P Hf) as (_ & _ & H2 & H3 & H4).
      { split; [apply flavour_small_id; [exact Hf|unfold NULL_ID; lia]|lia]. }
      exists (encode_address hab NULL_ID P). split.
      + apply HI. unfold sent_pointers. fold P. destruct (P <? L) eqn:EP; [|lia]. apply in_or_app. right. now left.
      + split; [exact H2|]. rewrite H4. lia. }
  split.
  - intros (p & HR & Hid & Hid0). destruct HR as [(R1 & R2 & R3) _ R5 R6 R7].
    destruct (HAp p R1 R2) as [(A & it & B & E & EA & Ei & Ea & _)|(Ei & _)]; [|congruence].
    destruct (HItem A it B E EA) as (_ & _ & _ & _ & HZ & HS & _).
    pose proof (zlen_nonneg (heap_payload hab B)) as HB0.
    exists A, it, B. split; [exact E|]. split; [exact EA|]. split; [congruence|]. split; [congruence|].
    assert (EA0 : a = zlen (heap_payload hab A)) by congruence.
    assert (HB1 : a + zlen (item_data it) <= b).
    { destruct R6 as [->|(q & Q1 & Q2 & Q3)]; [lia|].
      destruct (HAp q Q1 Q2) as [(A' & it' & B' & E' & EA' & _ & Ea' & _)|(_ & Ea' & _)]; [|lia].
      destruct (HCmp A it B A' it' B' E E' EA EA') as [(<- & <- & <-)|[H|H]]; [lia|lia|].
      destruct (HItem A' it' B' E' EA') as (_ & _ & _ & _ & HZ' & _). lia. }
    destruct (HEnd A it B E EA) as [H|(q & Q1 & Q2 & Q3)]; [lia|].
    destruct (R7 q Q1 Q2); lia.
  - intros (A & it & B & E & EA & Ei & Ea & Eb).
    destruct (HItem A it B E EA) as (G1 & G2 & G3 & G4 & HZ & HS & H4).
    pose proof (zlen_nonneg (heap_payload hab B)) as HB0.
    exists (encode_address hab (item_id it) (zlen (heap_payload hab A))).
    split; [|split; [congruence|lia]].
    assert (HU : forall q, In q ptrs -> is_immediate q = false -> get_address hab q = a ->
       q = encode_address hab (item_id it) (zlen (heap_payload hab A))).
    { intros q Q1 Q2 Q3. destruct (HAp q Q1 Q2) as [(A' & it' & B' & E' & EA' & _ & Ea' & Eq)|(_ & Ea' & _)]; [|lia].
      destruct (HItem A' it' B' E' EA') as (_ & _ & _ & _ & HZ' & _).
      destruct (HCmp A it B A' it' B' E E' EA EA') as [(<- & <- & <-)|[H|H]]; [exact Eq|lia|lia]. }
    constructor.
    + split; [exact G1|]. split; [exact G2|]. congruence.
    + exists []. apply NoDup_single.
      * now apply NoDup_filter.
      * apply filter_In. split; [exact G1|]. unfold addressed_at. rewrite G2, G4, Ea, Z.eqb_refl. reflexivity.
      * intros x Hx. apply filter_In in Hx as [Hx1 Hx2]. unfold addressed_at in Hx2. apply andb_true_iff in Hx2 as [Hx2 Hx3].
        apply negb_true_iff in Hx2. apply HU; [exact Hx1|exact Hx2|lia].
    + lia.
    + destruct (HEnd A it B E EA) as [H|(q & Q1 & Q2 & Q3)]; [left; lia|right]. exists q. rewrite Q3. repeat split; try assumption; lia.
    + intros q Q1 Q2. destruct (HAp q Q1 Q2) as [(A' & it' & B' & E' & EA' & _ & Ea' & _)|(_ & Ea' & _)]; [|lia].
      destruct (HItem A' it' B' E' EA') as (_ & _ & _ & _ & HZ' & _).
      destruct (HCmp A it B A' it' B' E E' EA EA') as [(<- & <- & <-)|[H|H]]; lia.
Qed.
