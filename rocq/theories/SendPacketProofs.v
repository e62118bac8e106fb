(** Proofs about the packet generator. *)
From Coq Require Import ZArith List Lia Bool.
From Coq Require Import ZifyBool.
From Verif Require Import Base CodecModel CodecProofs PacketSpec SendPacketModel SendSpec.
Import ListNotations.
Open Scope Z_scope.

Lemma usub_le a b : b <= a -> usub a b = a - b.
Proof. intro H. unfold usub. destruct (Z.leb_spec b a); lia. Qed.

Lemma addressed_use_immediate hab it : use_immediate it (hab / 8) = negb (addressed hab it).
Proof. destruct it as [id v|id allow d]; cbn; [reflexivity|]. now rewrite negb_involutive. Qed.

Lemma item_len_data it : item_len it = zlen (item_data it).
Proof. destruct it; reflexivity. Qed.

Lemma heap_payload_cons hab it items :
  heap_payload hab (it :: items) =
  (if addressed hab it then item_data it else []) ++ heap_payload hab items.
Proof. unfold heap_payload; cbn [filter]. destruct (addressed hab it); reflexivity. Qed.

Lemma heap_payload_app hab l1 l2 :
  heap_payload hab (l1 ++ l2) = heap_payload hab l1 ++ heap_payload hab l2.
Proof. unfold heap_payload. now rewrite filter_app, flat_map_app. Qed.

Lemma real_payload_size_spec items hab :
  real_payload_size items (hab / 8) = zlen (heap_payload hab items).
Proof.
  unfold real_payload_size.
  assert (G : forall acc, fold_left (fun acc it => if use_immediate it (hab / 8) then acc else acc + item_len it) items acc
              = acc + zlen (heap_payload hab items)).
  { induction items as [|it items IH]; intro acc; cbn [fold_left]; [change (zlen (heap_payload hab [])) with 0; lia|].
    rewrite IH, heap_payload_cons, zlen_app, addressed_use_immediate, item_len_data.
    destruct (addressed hab it); cbn [negb]; rewrite ?(@zlen_nil Z); lia. }
  rewrite G. lia.
Qed.

(** ** Pointers *)

Lemma small_buffer_pointer hab id d :
  flavour_ok hab = true -> 0 <= id < 2 ^ (63 - hab) -> bytes_ok d -> zlen d <= hab / 8 ->
  be_decode (slice (be_encode 8 (encode_immediate hab id 0)) 0 (8 - zlen d) ++ d)
  = encode_immediate hab id (be_decode d).
Proof.
  intros Hf Hid Hb Hl.
  pose proof (flavour_ok_bytes _ Hf) as [He Hr]. pose proof (zlen_nonneg d) as Hd0.
  pose proof (be_decode_bound d Hb) as HB.
  assert (Hp8 : 256 ^ zlen d = 2 ^ (8 * zlen d)) by (rewrite Z.pow_mul_r by lia; reflexivity).
  assert (Hle : 2 ^ (8 * zlen d) <= 2 ^ hab) by (apply Z.pow_le_mono_r; lia).
  assert (Hh : 0 < hab < 64) by lia.
  assert (HE0 : encodable hab id 0) by (split; lia).
  assert (HE1 : encodable hab id (be_decode d)) by (split; lia).
  rewrite be_decode_app. 
  set (p0 := encode_immediate hab id 0).
  assert (Hp0 : p0 = 2 ^ 63 + id * 2 ^ hab) by (unfold p0; rewrite encode_immediate_arith by assumption; lia).
  assert (Hrange : 0 <= p0 < 2 ^ 64).
  { pose proof (encode_immediate_range hab id 0 Hh HE0). unfold p0. lia. }
  assert (HS : be_decode (slice (be_encode 8 p0) 0 (8 - zlen d)) * 256 ^ zlen d = p0).
  { pose proof (be_decode_encode_small 8 p0 Hrange) as HD.
    rewrite <- (slice_0_all (be_encode 8 p0) 8) in HD by (rewrite zlen_be_encode; lia).
    replace (slice (be_encode 8 p0) 0 8) with (slice (be_encode 8 p0) 0 ((8 - zlen d) + zlen d)) in HD by (f_equal; lia).
    rewrite slice_split in HD by lia. rewrite be_decode_app in HD.
    assert (HL : zlen (slice (be_encode 8 p0) (0 + (8 - zlen d)) (zlen d)) = zlen d)
      by (apply zlen_slice; rewrite ?zlen_be_encode; lia).
    rewrite HL in HD.
    pose proof (be_decode_bound (slice (be_encode 8 p0) (0 + (8 - zlen d)) (zlen d))
      (bytes_ok_slice _ _ _ (be_encode_ok _ _))) as HB2. rewrite HL in HB2.
    set (lo := be_decode (slice (be_encode 8 p0) (0 + (8 - zlen d)) (zlen d))) in *.
    set (hi := be_decode (slice (be_encode 8 p0) 0 (8 - zlen d))) in *.
    assert (Hdiv : p0 mod 256 ^ zlen d = 0).
    { rewrite Hp8, Hp0.
      replace (2 ^ 63 + id * 2 ^ hab) with ((2 ^ (63 - 8 * zlen d) + id * 2 ^ (hab - 8 * zlen d)) * 2 ^ (8 * zlen d)).
      - apply Z.mod_mul. lia.
      - rewrite Z.mul_add_distr_r, <- Z.mul_assoc, <- !Z.pow_add_r by lia.
        do 2 f_equal; [lia|]. f_equal. lia. }
    assert (Hlo : lo = 0).
    { assert (p0 mod 256 ^ zlen d = lo).
      { rewrite <- HD. rewrite Z.add_comm, Z.mod_add by lia. apply Z.mod_small. lia. }
      lia. }
    lia. }
  rewrite HS, Hp0, encode_immediate_arith by assumption. lia.
Qed.

Lemma item_pointer_spec hab it addr rest :
  flavour_ok hab = true -> item_ok hab it ->
  heap_pointers hab (it :: rest) addr =
    fst (item_pointer hab it addr) :: heap_pointers hab rest (snd (item_pointer hab it addr)) /\
  snd (item_pointer hab it addr) = addr + zlen (heap_payload hab [it]).
Proof.
  intros Hf Hok. destruct it as [id v|id allow d]; cbn [heap_pointers item_pointer].
  - cbn [fst snd]. split; [reflexivity|]. cbn. rewrite (@zlen_nil Z); lia.
  - rewrite heap_payload_cons. cbn [addressed item_data].
    destruct (allow && (zlen d <=? hab / 8)) eqn:E; cbn [fst snd negb].
    + destruct Hok as [Hid Hb].
      rewrite small_buffer_pointer by (assumption || lia).
      split; [reflexivity|]. cbn; rewrite (@zlen_nil Z); lia.
    + split; [reflexivity|]. cbn. rewrite app_nil_r. reflexivity.
Qed.

(** All the pointers of the heap, including the final NULL one. *)
Definition all_pointers (c : gen_cfg) : list Z :=
  heap_pointers (g_hab c) (g_items c) 0 ++
  (if g_null c then [encode_address (g_hab c) NULL_ID (zlen (heap_payload (g_hab c) (g_items c)))] else []).

Definition bz (b : bool) : Z := if b then 1 else 0.

Lemma heap_pointers_length hab items addr : zlen (heap_pointers hab items addr) = zlen items.
Proof.
  revert addr; induction items as [|it items IH]; intro addr; [reflexivity|].
  destruct it as [id v|id allow d]; cbn [heap_pointers].
  - rewrite !zlen_cons, IH. reflexivity.
  - destruct (allow && _); rewrite !zlen_cons, IH; reflexivity.
Qed.

Lemma all_pointers_length c : zlen (all_pointers c) = zlen (g_items c) + bz (g_null c).
Proof.
  unfold all_pointers. rewrite zlen_app, heap_pointers_length.
  destruct (g_null c); [rewrite zlen_cons|]; rewrite (@zlen_nil Z); cbn; lia.
Qed.

Lemma heap_pointers_app hab l1 l2 addr :
  heap_pointers hab (l1 ++ l2) addr =
  heap_pointers hab l1 addr ++ heap_pointers hab l2 (addr + zlen (heap_payload hab l1)).
Proof.
  revert addr; induction l1 as [|it l1 IH]; intro addr.
  - cbn. rewrite (@zlen_nil Z), Z.add_0_r. reflexivity.
  - rewrite heap_payload_cons, zlen_app.
    destruct it as [id v|id allow d]; cbn [app heap_pointers addressed item_data].
    + rewrite IH, zlen_nil. reflexivity.
    + destruct (allow && _); cbn [negb]; rewrite IH, ?(@zlen_nil Z); cbn [app]; do 3 f_equal; lia.
Qed.

Lemma nth_error_split_firstn {A} (l : list A) n x :
  nth_error l n = Some x -> l = firstn n l ++ x :: skipn (S n) l.
Proof.
  revert n; induction l as [|y l IH]; intros [|n] H; cbn in H; try discriminate.
  - injection H as ->. reflexivity.
  - cbn [firstn skipn app]. f_equal. now apply IH.
Qed.

Lemma firstn_S_nth {A} (l : list A) n x :
  nth_error l n = Some x -> firstn (S n) l = firstn n l ++ [x].
Proof.
  revert n; induction l as [|y l IH]; intros [|n] H; cbn in H; try discriminate.
  - injection H as ->. reflexivity.
  - cbn [firstn app]. f_equal. now apply IH.
Qed.

Lemma skipn_nth {A} (l : list A) n x :
  nth_error l n = Some x -> skipn n l = x :: skipn (S n) l.
Proof.
  revert n; induction l as [|y l IH]; intros [|n] H; cbn in H; try discriminate.
  - injection H as ->. reflexivity.
  - cbn [skipn]. now apply IH.
Qed.

(** The address counter is right for position [nip]. *)
Definition addr_at (c : gen_cfg) (nip : Z) : Z :=
  zlen (heap_payload (g_hab c) (firstn (Z.to_nat nip) (g_items c))).

Lemma all_pointers_drop c nip :
  0 <= nip <= zlen (g_items c) ->
  skipn (Z.to_nat nip) (all_pointers c) =
  heap_pointers (g_hab c) (skipn (Z.to_nat nip) (g_items c)) (addr_at c nip) ++
  (if g_null c then [encode_address (g_hab c) NULL_ID (zlen (heap_payload (g_hab c) (g_items c)))] else []).
Proof.
  intro H. unfold all_pointers, addr_at.
  rewrite <- (firstn_skipn (Z.to_nat nip) (g_items c)) at 1.
  rewrite heap_pointers_app, <- app_assoc, Z.add_0_l.
  set (A := heap_pointers (g_hab c) (firstn (Z.to_nat nip) (g_items c)) 0).
  assert (HA : length A = Z.to_nat nip).
  { pose proof (heap_pointers_length (g_hab c) (firstn (Z.to_nat nip) (g_items c)) 0) as HL.
    fold A in HL. unfold zlen in *. rewrite firstn_length in HL. lia. }
  rewrite <- HA at 1. rewrite skipn_app, skipn_all, Nat.sub_diag. reflexivity.
Qed.

Lemma emit_pointers_spec c k :
  flavour_ok (g_hab c) = true -> Forall (item_ok (g_hab c)) (g_items c) ->
  forall nip, 0 <= nip -> nip + Z.of_nat k <= zlen (g_items c) + bz (g_null c) ->
  emit_pointers c k nip (addr_at c nip) =
  Some (slice (all_pointers c) nip (Z.of_nat k), nip + Z.of_nat k, addr_at c (nip + Z.of_nat k), true).
Proof.
  intros Hf Hok. induction k as [|k IH]; intros nip Hn Hle.
  - rewrite Z.add_0_r. reflexivity.
  - cbn [emit_pointers].
    replace (Z.of_nat (S k)) with (1 + Z.of_nat k) by lia.
    rewrite slice_split by lia.
    destruct (Z.eqb_spec nip (zlen (g_items c))) as [E|E].
    + assert (Hnull : g_null c = true) by (destruct (g_null c); [reflexivity|cbn [bz] in Hle; lia]).
      assert (k = 0%nat) as -> by (rewrite Hnull in Hle; cbn [bz] in Hle; lia).
      cbn [emit_pointers]. rewrite Hnull. cbn [andb].
      pose proof (all_pointers_drop c nip ltac:(lia)) as HD. rewrite Hnull in HD.
      rewrite (skipn_all2 (g_items c)) in HD by (unfold zlen in E; lia).
      cbn [heap_pointers app] in HD.
      unfold slice at 1. rewrite HD. cbn [Z.to_nat Pos.to_nat].
      change (Z.to_nat 1) with 1%nat. cbn [firstn].
      assert (Haddr : addr_at c nip = zlen (heap_payload (g_hab c) (g_items c))).
      { unfold addr_at. rewrite firstn_all2 by (unfold zlen in E; lia). reflexivity. }
      rewrite Haddr.
      assert (Haddr' : addr_at c (nip + (1 + Z.of_nat 0)) = zlen (heap_payload (g_hab c) (g_items c))).
      { unfold addr_at. rewrite firstn_all2 by (unfold zlen in E; lia). reflexivity. }
      rewrite Haddr'. cbn [app]. do 3 f_equal.
    + assert (Hlt : nip < zlen (g_items c)).
      { destruct (g_null c); cbn [bz] in Hle; lia. }
      destruct (nth_error (g_items c) (Z.to_nat nip)) as [it|] eqn:EN.
      2: { apply nth_error_None in EN. unfold zlen in Hlt. lia. }
      assert (Hit : item_ok (g_hab c) it).
      { eapply Forall_forall; [exact Hok|]. eapply nth_error_In; eassumption. }
      destruct (item_pointer (g_hab c) it (addr_at c nip)) as [p addr1] eqn:EP.
      pose proof (item_pointer_spec (g_hab c) it (addr_at c nip)
                    (skipn (S (Z.to_nat nip)) (g_items c)) Hf Hit) as [HP1 HP2].
      rewrite EP in HP1, HP2. cbn [fst snd] in HP1, HP2.
      assert (Haddr : addr1 = addr_at c (nip + 1)).
      { rewrite HP2. unfold addr_at. replace (Z.to_nat (nip + 1)) with (S (Z.to_nat nip)) by lia.
        rewrite (firstn_S_nth _ _ _ EN), heap_payload_app, zlen_app. reflexivity. }
      rewrite Haddr, IH by lia.
      pose proof (all_pointers_drop c nip ltac:(lia)) as HD.
      rewrite (skipn_nth _ _ _ EN), HP1 in HD.
      unfold slice at 2. rewrite HD. change (Z.to_nat 1) with 1%nat. cbn [app firstn].
      replace (nip + (1 + Z.of_nat k)) with (nip + 1 + Z.of_nat k) by lia. reflexivity.
Qed.

(** ** Payload *)

(** Real payload not yet sent at position ([nitem] = start of [rest], [nioff]). *)
Definition remaining (hab : Z) (rest : list item) (nioff : Z) : list Z :=
  skipn (Z.to_nat nioff) (heap_payload hab rest).

Definition pos_ok (hab : Z) (rest : list item) (nioff : Z) : Prop :=
  0 <= nioff /\
  (0 < nioff -> match rest with
                | [] => False
                | it :: _ => addressed hab it = true /\ nioff < zlen (item_data it)
                end).

Lemma pos_ok_0 hab rest : pos_ok hab rest 0.
Proof. split; [lia|]. intro H; lia. Qed.

Lemma fill_payload_spec c rest : forall nitem nioff len nout,
  0 <= len -> pos_ok (g_hab c) rest nioff ->
  let avail := remaining (g_hab c) rest nioff in
  let r := Z.min len (zlen avail) in
  let f := fill_payload c rest nitem nioff len nout in
  concat (f_bufs f) = slice avail 0 r /\
  f_pad f = len - r /\
  exists k, f_nitem f = nitem + Z.of_nat k /\ (k <= length rest)%nat /\
    pos_ok (g_hab c) (skipn k rest) (f_nioff f) /\
    remaining (g_hab c) (skipn k rest) (f_nioff f) = skipn (Z.to_nat r) avail /\
  (f_pad f = 0 -> f_asserts f = true).
Proof.
  induction rest as [|it rest IH]; intros nitem nioff len nout Hlen Hpos avail r f.
  - assert (Ha : avail = []).
    { unfold avail, remaining. cbn. apply skipn_nil. }
    assert (Hr : r = 0) by (unfold r; rewrite Ha, zlen_nil; lia).
    unfold f; cbn [fill_payload]. rewrite Hr, Ha.
    destruct (Z.leb_spec len 0) as [L|L]; cbn [f_bufs f_pad f_nitem f_nioff f_asserts concat].
    + split; [reflexivity|]. split; [lia|]. exists 0%nat. rewrite Z.add_0_r.
      repeat split; try lia; try (apply Hpos); auto.
    + split; [reflexivity|]. split; [lia|]. exists 0%nat. rewrite Z.add_0_r.
      repeat split; try lia; try (apply Hpos); auto.
  - unfold f; cbn [fill_payload].
    destruct (Z.leb_spec len 0) as [L|L]; cbn [f_bufs f_pad f_nitem f_nioff f_asserts concat].
    + assert (Hr : r = 0) by (unfold r; pose proof (zlen_nonneg avail); lia). rewrite Hr.
      split; [reflexivity|]. split; [lia|]. exists 0%nat. rewrite Z.add_0_r.
      repeat split; try lia; try (apply Hpos); auto.
    + destruct Hpos as [Hpos1 Hpos2].
      rewrite addressed_use_immediate. destruct (addressed (g_hab c) it) eqn:EA; cbn [negb].
      * (* an addressed item *)
        assert (Hlt : nioff <= zlen (item_data it)).
        { destruct (Z.eq_dec nioff 0) as [->|N]; [apply zlen_nonneg|].
          pose proof (Hpos2 ltac:(lia)) as [_ ?]; lia. }
        rewrite item_len_data, usub_le by lia.
        set (d := item_data it) in *.
        set (send := Z.min (zlen d - nioff) len).
        assert (Hav : avail = slice d nioff (zlen d - nioff) ++ heap_payload (g_hab c) rest).
        { unfold avail, remaining. rewrite heap_payload_cons, EA. fold d.
          rewrite skipn_app.
          replace (Z.to_nat nioff - length d)%nat with 0%nat by (unfold zlen in Hlt; lia).
          cbn [skipn]. f_equal. unfold slice. rewrite firstn_all2; [reflexivity|].
          rewrite skipn_length. unfold zlen in *; lia. }
        set (d' := slice d nioff (zlen d - nioff)) in *.
        assert (Hd' : zlen d' = zlen d - nioff) by (apply zlen_slice; lia).
        assert (Hbuf : slice d nioff send = slice d' 0 send).
        { unfold d'. rewrite slice_slice by lia. f_equal; lia. }
        assert (Havl : zlen avail = zlen d' + zlen (heap_payload (g_hab c) rest))
          by (rewrite Hav, zlen_app; reflexivity).
        pose proof (zlen_nonneg (heap_payload (g_hab c) rest)) as Hnn.
        destruct (Z.eqb_spec (nioff + send) (zlen d)) as [Efull|Efull].
        -- (* item exhausted *)
           assert (Hsend : send = zlen d') by lia.
           specialize (IH (nitem + 1) 0 (len - send) (nout + 1) ltac:(lia)
                          (pos_ok_0 _ _)).
           cbv zeta in IH.
           change (remaining (g_hab c) rest 0) with (heap_payload (g_hab c) rest) in IH.
           set (fi := fill_payload c rest (nitem + 1) 0 (len - send) (nout + 1)) in *.
           destruct IH as (I1 & I2 & k & I3 & I4 & I5 & I6 & I7).
           cbn [f_bufs f_pad f_nitem f_nioff f_asserts concat].
           assert (Hr : r = zlen d' + Z.min (len - send) (zlen (heap_payload (g_hab c) rest)))
             by (unfold r; lia).
           split.
           { rewrite I1, Hbuf, Hsend, slice_full, Hr, Hav.
             rewrite slice_split by lia. rewrite slice_app_l by lia. rewrite slice_full.
             f_equal. rewrite slice_app_r by lia. f_equal; lia. }
           split; [lia|].
           exists (S k). split; [lia|]. split; [cbn [length]; lia|].
           cbn [skipn]. split; [exact I5|]. split; [|exact I7].
           rewrite I6, Hav, Hr.
           replace (Z.to_nat (zlen d' + Z.min (len - send) (zlen (heap_payload (g_hab c) rest))))
             with (length d' + Z.to_nat (Z.min (len - send) (zlen (heap_payload (g_hab c) rest))))%nat
             by (unfold zlen; lia).
           rewrite skipn_app, (skipn_all2 d') by lia. cbn [app]. f_equal. lia.
        -- (* item not exhausted *)
           assert (Hsend : send = len) by lia.
           assert (Hr : r = len) by (unfold r; lia).
           cbn [f_bufs f_pad f_nitem f_nioff f_asserts concat]. rewrite app_nil_r.
           split.
           { rewrite Hbuf, Hr, Hsend, Hav. rewrite slice_app_l by lia. reflexivity. }
           split; [lia|]. exists 0%nat. split; [lia|]. split; [lia|].
           cbn [skipn]. split; [split; [lia|intros _; split; [exact EA|fold d; lia]]|].
           split; [|reflexivity].
           unfold remaining, avail, remaining. rewrite skipn_skipn'. f_equal. lia.
      * (* an immediate item *)
        assert (Hz : nioff = 0).
        { destruct (Z.eq_dec nioff 0) as [|N]; [assumption|].
          pose proof (Hpos2 ltac:(lia)) as [? _]; congruence. }
        specialize (IH (nitem + 1) 0 len nout Hlen (pos_ok_0 _ _)).
        cbv zeta in IH.
        assert (Hav : avail = remaining (g_hab c) rest 0).
        { unfold avail, remaining. rewrite heap_payload_cons, EA, Hz. reflexivity. }
        rewrite <- Hav in IH. fold r in IH.
        destruct IH as (I1 & I2 & k & I3 & I4 & I5 & I6 & I7).
        split; [exact I1|]. split; [exact I2|]. exists (S k).
        split; [lia|]. split; [cbn [length]; lia|]. cbn [skipn]. auto.
Qed.

(** ** Invariant *)

(** What the constructor establishes. *)
Record cfg_ok (c : gen_cfg) : Prop := {
  co_flavour : flavour_ok (g_hab c) = true;
  co_items : Forall (item_ok (g_hab c)) (g_items c);
  co_m : 1 <= g_m c;
  co_mps : g_mps c = 48 + 8 * g_m c;
  co_psize : 8 * (zlen (g_items c) / g_m c) + 1 <= g_psize c;
  co_null : g_null c = true ->
            g_psize c = 8 * (zlen (g_items c) / g_m c) + 1 /\
            zlen (heap_payload (g_hab c) (g_items c)) < g_psize c;
  co_real : g_null c = false -> g_psize c = zlen (heap_payload (g_hab c) (g_items c));
  co_repeat : g_repeat c = true -> zlen (g_items c) < g_m c
}.

Lemma gen_ctor_ok hab items rep cnt mps c :
  flavour_ok hab = true -> Forall (item_ok hab) items -> 0 <= mps ->
  gen_ctor hab items rep cnt mps = Some c ->
  cfg_ok c /\ g_hab c = hab /\ g_items c = items /\ g_repeat c = rep /\ g_cnt c = cnt /\
  g_mps c <= mps.
Proof.
  intros Hf Hok Hmps. unfold gen_ctor.
  pose proof (Z.mod_pos_bound mps 8 ltac:(lia)) as Hm8.
  set (q := mps - mps mod 8) in *.
  assert (Hq : q = 8 * (mps / 8)) by (unfold q; pose proof (Z.div_mod mps 8 ltac:(lia)); lia).
  unfold prefix_size. destruct (Z.ltb_spec q (40 + 2 * 8)) as [L|L]; [discriminate|].
  rewrite usub_le by lia.
  set (m := (q - (40 + 8)) / 8) in *.
  assert (Hm : q = 48 + 8 * m).
  { unfold m. rewrite Hq. replace (8 * (mps / 8) - (40 + 8)) with ((mps / 8 - 6) * 8) by lia.
    rewrite Z.div_mul by lia. lia. }
  rewrite real_payload_size_spec.
  replace (1 <? zlen items / m + 1) with (0 <? zlen items / m) by lia.
  pose proof (zlen_nonneg items) as HN.
  assert (Hd : 0 <= zlen items / m) by (apply Z.div_pos; lia).
  destruct (rep && (0 <? zlen items / m)) eqn:ER; [discriminate|].
  intro H; injection H as <-. cbn [g_hab g_items g_repeat g_cnt g_mps g_m g_psize g_null].
  split; [|unfold q in *; repeat split; lia].
  set (P := zlen (heap_payload hab items)) in *.
  constructor; cbn [g_hab g_items g_repeat g_cnt g_mps g_m g_psize g_null]; try assumption; try lia.
  - fold P. destruct (Z.ltb_spec P ((zlen items / m + 1 - 1) * 8 + 1)); lia.
  - fold P. destruct (Z.ltb_spec P ((zlen items / m + 1 - 1) * 8 + 1)); [lia|discriminate].
  - fold P. destruct (Z.ltb_spec P ((zlen items / m + 1 - 1) * 8 + 1)); [discriminate|lia].
Qed.

Record inv (c : gen_cfg) (s : gen_state) : Prop := {
  iv_poff : 0 <= s_poff s <= g_psize c;
  iv_nip : 0 <= s_nip s <= zlen (g_items c) + bz (g_null c);
  iv_addr : s_naddr s = addr_at c (s_nip s);
  iv_room : 0 < zlen (g_items c) + bz (g_null c) - s_nip s ->
            8 * ((zlen (g_items c) + bz (g_null c) - s_nip s - 1) / g_m c) + 1 <= g_psize c - s_poff s;
  iv_null : g_null c = true -> s_poff s < g_psize c ->
            exists k, s_poff s = 8 * k /\ s_nip s = g_m c * k;
  iv_nitem : 0 <= s_nitem s <= zlen (g_items c);
  iv_pos : pos_ok (g_hab c) (skipn (Z.to_nat (s_nitem s)) (g_items c)) (s_nioff s);
  iv_rest : remaining (g_hab c) (skipn (Z.to_nat (s_nitem s)) (g_items c)) (s_nioff s)
            = skipn (Z.to_nat (s_poff s)) (heap_payload (g_hab c) (g_items c))
}.

Lemma inv_init c : cfg_ok c -> inv c gen_init.
Proof.
  intros [Hf Hok Hm Hmps Hps Hnull Hreal Hrep]. pose proof (zlen_nonneg (g_items c)) as HN.
  assert (Hd : 0 <= zlen (g_items c) / g_m c) by (apply Z.div_pos; lia).
  constructor; cbn [gen_init s_poff s_nip s_naddr s_nitem s_nioff].
  - lia.
  - unfold bz; destruct (g_null c); lia.
  - reflexivity.
  - intros _.
    assert (E : (zlen (g_items c) + bz (g_null c) - 0 - 1) / g_m c <= zlen (g_items c) / g_m c).
    { apply Z.div_le_mono; unfold bz; destruct (g_null c); lia. }
    lia.
  - intros _ _. exists 0. lia.
  - lia.
  - split; [lia|lia].
  - reflexivity.
Qed.

(** The values that determine the next packet. *)
Definition nip0 (c : gen_cfg) (s : gen_state) : Z := if g_repeat c then 0 else s_nip s.
Definition pkt_n (c : gen_cfg) (s : gen_state) : Z :=
  Z.min (g_m c) (zlen (g_items c) + bz (g_null c) - nip0 c s).
Definition pkt_plen (c : gen_cfg) (s : gen_state) : Z :=
  Z.min (g_psize c - s_poff s) (g_mps c - 8 * pkt_n c s - 40).
(** Bytes of user payload in the packet. *)
Definition pkt_real (c : gen_cfg) (s : gen_state) : Z :=
  Z.min (pkt_plen c s)
        (zlen (skipn (Z.to_nat (s_poff s)) (heap_payload (g_hab c) (g_items c)))).

Lemma zlen_skipn_pos {A} (l : list A) n : 0 <= n -> zlen (skipn (Z.to_nat n) l) = Z.max 0 (zlen l - n).
Proof. intro H. unfold zlen. rewrite skipn_length. lia. Qed.

(** The arithmetic of one packet, on plain numbers. *)
Lemma pkt_numbers c s :
  cfg_ok c -> inv c s -> has_next_packet c s = true ->
  let n := pkt_n c s in
  let plen := pkt_plen c s in
  let r := pkt_real c s in
  let pay := heap_payload (g_hab c) (g_items c) in
  0 <= n <= g_m c /\ 0 < plen /\ 0 <= r <= plen /\ 40 + 8 * n + plen <= g_mps c /\
  s_poff s + plen <= g_psize c /\ nip0 c s + n <= zlen (g_items c) + bz (g_null c) /\
  (n < g_m c -> nip0 c s + n = zlen (g_items c) + bz (g_null c)) /\
  (n = g_m c -> plen = Z.min (g_psize c - s_poff s) 8) /\
  r = Z.min plen (Z.max 0 (zlen pay - s_poff s)) /\
  (r < plen -> g_null c = true) /\
  (g_null c = true ->
     (s_poff s + plen = g_psize c /\ plen = 1) \/ (g_repeat c = false /\ plen = 8 /\ n = g_m c)).
Proof.
  intros Hc Hi Hnext n plen r pay. unfold has_next_packet in Hnext.
  apply Z.ltb_lt in Hnext.
  pose proof (co_m c Hc) as Hm. pose proof (co_mps c Hc) as Hmps.
  pose proof (iv_poff c s Hi) as Ipoff. pose proof (iv_nip c s Hi) as Inip.
  pose proof (zlen_nonneg (g_items c)) as HN.
  assert (Hb : 0 <= bz (g_null c) <= 1) by (unfold bz; destruct (g_null c); lia).
  assert (Hn0 : 0 <= nip0 c s <= zlen (g_items c) + bz (g_null c)) by (unfold nip0; destruct (g_repeat c); lia).
  assert (En : n = Z.min (g_m c) (zlen (g_items c) + bz (g_null c) - nip0 c s)) by reflexivity.
  assert (Ep : plen = Z.min (g_psize c - s_poff s) (g_mps c - 8 * n - 40)) by reflexivity.
  assert (Er : r = Z.min plen (Z.max 0 (zlen pay - s_poff s))).
  { unfold r, pkt_real. rewrite zlen_skipn_pos by lia. reflexivity. }
  clearbody n plen r.
  assert (Hn : 0 <= n <= g_m c) by lia.
  assert (Hpl : 0 < plen) by lia.
  split; [exact Hn|]. split; [exact Hpl|]. split; [lia|]. split; [lia|]. split; [lia|].
  split; [lia|]. split; [lia|]. split; [lia|]. split; [exact Er|]. split.
  - intro L. destruct (g_null c) eqn:E; [reflexivity|].
    pose proof (co_real c Hc E) as Hreal. fold pay in Hreal. exfalso. lia.
  - intro E. destruct (co_null c Hc E) as [E1 _].
    destruct (iv_null c s Hi E Hnext) as (k & K1 & K2).
    assert (Hb1 : bz (g_null c) = 1) by (rewrite E; reflexivity).
    pose proof (co_repeat c Hc) as Hrep. unfold nip0 in *.
    set (N := zlen (g_items c)) in *.
    destruct (g_repeat c).
    + left. specialize (Hrep eq_refl).
      assert (E0 : N / g_m c = 0) by (apply Z.div_small; lia). rewrite E0 in E1. lia.
    + clear Hrep Hc Hi.
      assert (Hk : k <= N / g_m c) by lia.
      assert (Hge : g_m c * (N / g_m c) <= N) by (apply Z.mul_div_le; lia).
      assert (Hlt : N < g_m c * (N / g_m c) + g_m c).
      { pose proof (Z.mod_pos_bound N (g_m c) ltac:(lia)). rewrite Z.mod_eq in H by lia. lia. }
      set (q := N / g_m c) in *. clearbody q.
      destruct (Z.eq_dec k q) as [->|Ek].
      * left. lia.
      * right. assert (g_m c * (k + 1) <= g_m c * q) by (apply Z.mul_le_mono_nonneg_l; lia).
        assert (Hnm : n = g_m c) by lia.
        split; [reflexivity|]. split; [lia|exact Hnm].
Qed.

Lemma next_packet_spec c s :
  cfg_ok c -> inv c s -> has_next_packet c s = true ->
  let n := pkt_n c s in
  let plen := pkt_plen c s in
  let r := pkt_real c s in
  let pay := heap_payload (g_hab c) (g_items c) in
  exists bufs ok s',
    next_packet c s = Some
      ({| pk_words := (header_word (g_hab c / 8) n
                       :: special_ptrs (g_hab c) (g_cnt c) (g_psize c) (s_poff s) plen
                       ++ slice (all_pointers c) (nip0 c s) n)
                      ++ (if r <? plen then [0] else []);
          pk_len0 := 40 + 8 * n + (plen - r);
          pk_bufs := bufs;
          pk_asserts := ok |}, s') /\
    concat bufs = slice pay (s_poff s) r /\
    (r = plen -> ok = true) /\
    s_poff s' = s_poff s + plen /\ s_nip s' = nip0 c s + n /\ inv c s'.
Proof.
  intros Hc Hi Hnext n plen r pay.
  pose proof (pkt_numbers c s Hc Hi Hnext) as HNUM. cbv zeta in HNUM.
  fold n plen r pay in HNUM.
  destruct HNUM as (Hn & Hpl & Hr & Hfit & Hps & Hle & Hlast & Hfull & Hr_eq & _ & Hnullplen).
  pose proof (zlen_nonneg (g_items c)) as HN.
  assert (Hn0 : 0 <= nip0 c s).
  { pose proof (iv_nip c s Hi). unfold nip0; destruct (g_repeat c); lia. }
  pose proof (iv_poff c s Hi) as Ipoff.
  set (b := bz (g_null c)) in *. set (N := zlen (g_items c)) in *.
  (* run the code *)
  assert (Haddr0 : (if g_repeat c then 0 else s_naddr s) = addr_at c (nip0 c s)).
  { unfold nip0. destruct (g_repeat c); [reflexivity|apply (iv_addr c s Hi)]. }
  assert (En : Z.min (g_m c) (usub (N + b) (nip0 c s)) = n) by (rewrite usub_le by lia; reflexivity).
  assert (Ep : Z.min (g_psize c - s_poff s) (usub (usub (g_mps c) (n * 8)) prefix_size) = plen).
  { clear - Hfit Hpl Hn. unfold prefix_size. rewrite (usub_le (g_mps c) (n * 8)), usub_le by lia.
    unfold plen, pkt_plen. fold n. f_equal. lia. }
  assert (Ee : emit_pointers c (Z.to_nat n) (nip0 c s) (addr_at c (nip0 c s)) =
               Some (slice (all_pointers c) (nip0 c s) n, nip0 c s + n, addr_at c (nip0 c s + n), true)).
  { rewrite emit_pointers_spec; [rewrite Z2Nat.id by lia; reflexivity|apply Hc|apply Hc|exact Hn0|].
    fold N b. rewrite Z2Nat.id by lia. exact Hle. }
  unfold next_packet.
  change (if g_repeat c then 0 else s_nip s) with (nip0 c s).
  change (if g_null c then 1 else 0) with b.
  fold N. rewrite Haddr0, En, Ep, Ee.
  pose proof (fill_payload_spec c (skipn (Z.to_nat (s_nitem s)) (g_items c)) (s_nitem s) (s_nioff s) plen 1
                ltac:(lia) (iv_pos c s Hi)) as HF.
  cbv zeta in HF. rewrite (iv_rest c s Hi) in HF. fold pay in HF.
  change (Z.min plen (zlen (skipn (Z.to_nat (s_poff s)) pay))) with r in HF.
  set (f := fill_payload c (skipn (Z.to_nat (s_nitem s)) (g_items c)) (s_nitem s) (s_nioff s) plen 1) in *.
  destruct HF as (F1 & F2 & k & F3 & F4 & F5 & F6 & F7).
  rewrite F2.
  replace (0 <? plen - r) with (r <? plen) by (clear; lia).
  eexists (f_bufs f), _, _. split.
  { f_equal. f_equal. 
    instantiate (1 := (0 <? plen) && true && f_asserts f).
    unfold prefix_size.
    destruct (r <? plen); [reflexivity|]. rewrite app_nil_r. reflexivity. }
  split.
  { rewrite F1. unfold slice. change (Z.to_nat 0) with 0%nat. reflexivity. }
  split.
  { intro E. rewrite F7 by (clear - F2 E; lia). replace (0 <? plen) with true by (clear - Hpl; lia). reflexivity. }
  cbn [s_poff s_nip]. split; [reflexivity|]. split; [reflexivity|].
  rewrite skipn_length in F4.
  constructor; cbn [s_poff s_nip s_naddr s_nitem s_nioff]; fold N b.
  - clear - Hps Ipoff Hpl. lia.
  - clear - Hle Hn0 Hn. lia.
  - reflexivity.
  - intro HR.
    assert (Hnm : n = g_m c) by (clear - HR Hlast Hn; lia).
    assert (ER : g_repeat c = false).
    { pose proof (co_repeat c Hc) as Hrep. fold N in Hrep. unfold nip0 in *.
      destruct (g_repeat c) eqn:ER; [|reflexivity]. specialize (Hrep eq_refl).
      clear - HR Hrep Hnm. unfold b, bz in *. destruct (g_null c); lia. }
    unfold nip0 in *. rewrite ER in *.
    pose proof (iv_room c s Hi) as Iroom. fold N b in Iroom.
    specialize (Iroom ltac:(clear - HR Hn; lia)).
    specialize (Hfull Hnm).
    pose proof (co_m c Hc) as Hm.
    assert (Hdiv : (N + b - s_nip s - 1) / g_m c = (N + b - (s_nip s + n) - 1) / g_m c + 1).
    { rewrite Hnm. rewrite <- Z.div_add by lia. f_equal. lia. }
    assert (0 <= (N + b - (s_nip s + n) - 1) / g_m c) by (apply Z.div_pos; lia).
    clear - Hdiv H Iroom Hfull. lia.
  - intros E L. destruct (Hnullplen E) as [[A _]|(ER & A & B)]; [clear - A L; lia|].
    destruct (iv_null c s Hi E ltac:(clear - L Hpl; lia)) as (k' & K1 & K2).
    exists (k' + 1). unfold nip0. rewrite ER. clear - K1 K2 A B. lia.
  - rewrite F3. pose proof (iv_nitem c s Hi) as Hnit. clear - Hnit F4. unfold N, zlen in *. lia.
  - rewrite F3. pose proof (iv_nitem c s Hi) as Hnit.
    replace (Z.to_nat (s_nitem s + Z.of_nat k)) with (Z.to_nat (s_nitem s) + k)%nat by (clear - Hnit; lia).
    rewrite <- skipn_skipn'. exact F5.
  - rewrite F3. pose proof (iv_nitem c s Hi) as Hnit.
    replace (Z.to_nat (s_nitem s + Z.of_nat k)) with (Z.to_nat (s_nitem s) + k)%nat by (clear - Hnit; lia).
    rewrite <- skipn_skipn'. rewrite F6, skipn_skipn'.
    destruct (Z.eq_dec r plen) as [->|Ne].
    + fold pay. f_equal. clear - Ipoff Hpl. lia.
    + (* all real payload consumed *)
      fold pay. clear - Hr_eq Ne Hpl Ipoff. rewrite !skipn_all2; [reflexivity| |]; unfold zlen in Hr_eq; lia.
Qed.
