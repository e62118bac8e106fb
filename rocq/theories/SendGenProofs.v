(** Whole-heap facts about the packet generator. *)
From Coq Require Import ZArith List Lia Bool.
From Coq Require Import ZifyBool.
From Verif Require Import Base CodecModel CodecProofs PacketSpec RecvPacketProofs
  SendPacketModel SendSpec SendPacketProofs.
Import ListNotations.
Open Scope Z_scope.

(** ** The header word *)

Lemma header_word_arith mis n :
  0 <= mis <= 8 -> 0 <= n -> n + 4 < 65536 ->
  header_word mis n = 21252 * 2 ^ 48 + (8 - mis) * 2 ^ 40 + mis * 2 ^ 32 + (n + 4).
Proof.
  intros Hm Hn Hl. unfold header_word. rewrite !Z.shiftl_mul_pow2 by lia.
  rewrite (lor_shifted_small 21252 ((8 - mis) * 2 ^ 40) 48) by lia.
  replace (21252 * 2 ^ 48 + (8 - mis) * 2 ^ 40) with ((21252 * 2 ^ 8 + (8 - mis)) * 2 ^ 40) by lia.
  rewrite lor_shifted_small by lia.
  replace ((21252 * 2 ^ 8 + (8 - mis)) * 2 ^ 40 + mis * 2 ^ 32)
    with (((21252 * 2 ^ 8 + (8 - mis)) * 2 ^ 8 + mis) * 2 ^ 32) by lia.
  rewrite lor_shifted_small by lia. lia.
Qed.

Lemma header_word_bytes hab n :
  flavour_ok hab = true -> 0 <= n -> n + 4 < 65536 ->
  be_encode 8 (header_word (hab / 8) n) =
  [83; 4; 8 - hab / 8; hab / 8] ++ be_encode 2 0 ++ be_encode 2 (n + 4).
Proof.
  intros Hf Hn Hl. pose proof (flavour_ok_bytes _ Hf) as [He Hr].
  rewrite header_word_arith by lia.
  rewrite !be_encode_2.
  set (l := [83; 4; 8 - hab / 8; hab / 8] ++ [0 / 256 mod 256; 0 mod 256] ++ [(n + 4) / 256 mod 256; (n + 4) mod 256]).
  assert (Hl8 : bytes_ok l).
  { unfold l, bytes_ok. cbn [app].
    repeat (apply Forall_cons; [unfold byte_ok; first [lia | apply Z.mod_pos_bound; lia]|]).
    apply Forall_nil. }
  rewrite <- (be_encode_decode l Hl8). change (length l) with 8%nat. f_equal.
  unfold l; cbn [app]. rewrite be_decode8.
  change (0 / 256 mod 256) with 0. change (0 mod 256) with 0.
  rewrite (Z.mod_small ((n + 4) / 256)); [|split; [apply Z.div_pos; lia|apply Z.div_lt_upper_bound; lia]].
  pose proof (Z.div_mod (n + 4) 256 ltac:(lia)). lia.
Qed.

(** ** Packet descriptions *)

Record pinfo := { pi_off : Z; pi_ptrs : list Z; pi_payload : list Z }.

(** Sizes of the packet: total, scratch usage. *)
Record pkt_sized (c : gen_cfg) (pk : packet) (i : pinfo) : Prop := {
  pz_words : exists pad, pk_words pk =
    (header_word (g_hab c / 8) (zlen (pi_ptrs i))
     :: special_ptrs (g_hab c) (g_cnt c) (g_psize c) (pi_off i) (zlen (pi_payload i)) ++ pi_ptrs i) ++ pad;
  pz_bytes : zlen (packet_bytes pk) = 40 + 8 * zlen (pi_ptrs i) + zlen (pi_payload i);
  pz_fits : zlen (packet_bytes pk) <= g_mps c;
  pz_scratch : 8 * zlen (pk_words pk) <= g_mps c;
  pz_init : 0 <= pk_len0 pk <= 8 * zlen (pk_words pk);
  pz_payload : 0 < zlen (pi_payload i);
  pz_ptrs : zlen (pi_ptrs i) <= g_m c
}.

(** The bytes of the packet, when the pointer count fits the header. *)
Definition pkt_wire (c : gen_cfg) (pk : packet) (i : pinfo) : Prop :=
  zlen (pi_ptrs i) + 4 < 65536 ->
  packet_bytes pk =
  wire_packet (g_hab c) 0
    (special_ptrs (g_hab c) (g_cnt c) (g_psize c) (pi_off i) (zlen (pi_payload i)) ++ pi_ptrs i)
    (pi_payload i).

(** Where the packet's payload comes from: [pay] is the user's payload. *)
Definition pkt_content (c : gen_cfg) (i : pinfo) : Prop :=
  let pay := heap_payload (g_hab c) (g_items c) in
  let r := Z.min (zlen (pi_payload i)) (Z.max 0 (zlen pay - pi_off i)) in
  pi_payload i = repeat 0 (Z.to_nat (zlen (pi_payload i) - r)) ++ slice pay (pi_off i) r /\
  (r < zlen (pi_payload i) -> g_null c = true) /\
  (g_null c = true -> exists k, pi_off i = 8 * k /\
     (zlen (pi_payload i) = 8 \/ (zlen (pi_payload i) = 1 /\ pi_off i + 1 = g_psize c))).

Fixpoint tiles (off : Z) (l : list pinfo) (stop : Z) : Prop :=
  match l with
  | [] => off = stop
  | i :: l' => pi_off i = off /\ tiles (off + zlen (pi_payload i)) l' stop
  end.

Lemma repeat0_be k : (k <= 8)%nat -> slice (be_encode 8 0) 0 (Z.of_nat k) = repeat 0 k.
Proof. intro H. do 9 (destruct k as [|k]; [reflexivity|]). lia. Qed.

Lemma next_packet_info c s :
  cfg_ok c -> inv c s -> has_next_packet c s = true ->
  exists pk s' i,
    next_packet c s = Some (pk, s') /\ inv c s' /\
    pkt_sized c pk i /\ pkt_wire c pk i /\ pkt_content c i /\
    pi_off i = s_poff s /\ s_poff s' = s_poff s + zlen (pi_payload i) /\
    pi_ptrs i = slice (all_pointers c) (nip0 c s) (zlen (pi_ptrs i)) /\
    s_nip s' = nip0 c s + zlen (pi_ptrs i) /\
    (g_repeat c = true -> pi_ptrs i = all_pointers c) /\
    (pk_asserts pk = false -> g_null c = true).
Proof.
  intros Hc Hi Hnext.
  pose proof (pkt_numbers c s Hc Hi Hnext) as HNUM. cbv zeta in HNUM.
  pose proof (next_packet_spec c s Hc Hi Hnext) as HS. cbv zeta in HS.
  set (n := pkt_n c s) in *. set (plen := pkt_plen c s) in *. set (r := pkt_real c s) in *.
  set (pay := heap_payload (g_hab c) (g_items c)) in *.
  destruct HS as (bufs & ok & s' & HN & Hbufs & Hok & Hpo & Hnip & Hinv).
  destruct HNUM as (Hn & Hpl & Hr & Hfit & Hps & Hle & Hlast & Hfull & Hr_eq & Hpn & Hnullplen).
  pose proof (iv_poff c s Hi) as Ipoff.
  assert (Hpad : 0 <= plen - r <= 8).
  { destruct (Z.eq_dec r plen) as [E|E]; [lia|].
    destruct (Hnullplen (Hpn ltac:(lia))) as [[_ ->]|(_ & -> & _)]; lia. }
  assert (Hn0 : 0 <= nip0 c s).
  { pose proof (iv_nip c s Hi). unfold nip0; destruct (g_repeat c); lia. }
  set (ptrs := slice (all_pointers c) (nip0 c s) n) in *.
  assert (Hptrs : zlen ptrs = n).
  { unfold ptrs. apply zlen_slice; [lia|lia|]. rewrite all_pointers_length. lia. }
  set (real := slice pay (s_poff s) r) in *.
  assert (Hreal : zlen real = r).
  { unfold real. destruct (Z.eq_dec r 0) as [->|Ne]; [reflexivity|].
    apply zlen_slice; [lia|lia|]. clear - Hr_eq Ne Hr. lia. }
  set (payload := repeat 0 (Z.to_nat (plen - r)) ++ real).
  assert (Hpay : zlen payload = plen).
  { unfold payload. rewrite zlen_app, zlen_repeat, Hreal. lia. }
  set (i := {| pi_off := s_poff s; pi_ptrs := ptrs; pi_payload := payload |}).
  match type of HN with _ = Some (?k, _) => set (pk := k) in * end.
  exists pk, s', i.
  assert (Hspec : zlen (special_ptrs (g_hab c) (g_cnt c) (g_psize c) (s_poff s) plen) = 4) by reflexivity.
  set (specials := special_ptrs (g_hab c) (g_cnt c) (g_psize c) (s_poff s) plen) in *.
  assert (Hwords : zlen (pk_words pk) = 5 + n + (if r <? plen then 1 else 0)).
  { unfold pk; cbn [pk_words]. rewrite zlen_app, zlen_cons, zlen_app, Hspec, Hptrs.
    destruct (r <? plen); rewrite ?zlen_cons, ?(@zlen_nil Z); lia. }
  assert (Hbytes0 : slice (flat_map (be_encode 8) (pk_words pk)) 0 (pk_len0 pk) =
    be_encode 8 (header_word (g_hab c / 8) n) ++ flat_map (be_encode 8) (specials ++ ptrs)
    ++ repeat 0 (Z.to_nat (plen - r))).
  { unfold pk; cbn [pk_words pk_len0].
    rewrite flat_map_app. cbn [flat_map].
    set (A := be_encode 8 (header_word (g_hab c / 8) n) ++ flat_map (be_encode 8) (specials ++ ptrs)).
    assert (HA : zlen A = 40 + 8 * n).
    { unfold A. rewrite zlen_app, zlen_be_encode, flat_map_be_length, zlen_app, Hspec, Hptrs. lia. }
    rewrite slice_split by lia. rewrite Z.add_0_l.
    rewrite slice_app_l by lia. rewrite <- HA at 1. rewrite slice_full.
    rewrite app_assoc. f_equal.
    rewrite slice_app_r by lia. rewrite HA, Z.sub_diag.
    destruct (Z.ltb_spec r plen).
    - cbn [flat_map]. rewrite app_nil_r.
      replace (plen - r) with (Z.of_nat (Z.to_nat (plen - r))) at 1 by lia.
      apply repeat0_be. lia.
    - replace (plen - r) with 0 by lia. reflexivity. }
  assert (Hbytes : packet_bytes pk =
    be_encode 8 (header_word (g_hab c / 8) n) ++ flat_map (be_encode 8) (specials ++ ptrs) ++ payload).
  { unfold packet_bytes. rewrite Hbytes0.
    change (pk_bufs pk) with bufs. rewrite Hbufs. unfold payload. rewrite <- !app_assoc. reflexivity. }
  assert (Hlen : zlen (packet_bytes pk) = 40 + 8 * n + plen).
  { rewrite Hbytes, !zlen_app, zlen_be_encode, flat_map_be_length, zlen_app, Hspec, Hptrs, Hpay. lia. }
  split; [exact HN|]. split; [exact Hinv|].
  split.
  { constructor; cbn [i pi_off pi_ptrs pi_payload]; rewrite ?Hptrs, ?Hpay; try (clear - Hlen Hfit Hpl Hn; lia).
    - unfold pk; cbn [pk_words]. eexists; reflexivity.
    - pose proof (co_mps c Hc). rewrite Hwords. clear - H Hn. destruct (r <? plen); lia.
    - unfold pk; cbn [pk_len0]. fold pk. rewrite Hwords. clear - Hpad Hn.
      destruct (Z.ltb_spec r plen); lia. }
  split.
  { unfold pkt_wire; cbn [i pi_off pi_ptrs pi_payload]. rewrite Hptrs, Hpay. intro Hn4.
    rewrite Hbytes. rewrite header_word_bytes by (apply Hc || lia).
    unfold wire_packet. fold specials. rewrite zlen_app, Hspec, Hptrs.
    rewrite (Z.add_comm 4 n), <- !app_assoc. reflexivity. }
  split.
  { unfold pkt_content; cbn [i pi_off pi_ptrs pi_payload]. rewrite Hpay. fold pay.
    rewrite <- Hr_eq. split; [reflexivity|]. split; [exact Hpn|].
    intro E. pose proof (iv_null c s Hi E ltac:(apply Z.ltb_lt; exact Hnext)) as (k & K1 & K2).
    exists k. split; [exact K1|]. destruct (Hnullplen E) as [[A B]|(A & B & _)]; [right|left]; lia. }
  cbn [i pi_off pi_ptrs pi_payload]. rewrite Hpay, Hptrs.
  split; [reflexivity|]. split; [exact Hpo|]. split; [reflexivity|]. split; [exact Hnip|].
  split.
  - intro ER. unfold ptrs, nip0. rewrite ER.
    pose proof (co_repeat c Hc ER) as Hrep.
    apply slice_0_all. rewrite all_pointers_length.
    unfold n, pkt_n, nip0. rewrite ER.
    clear - Hrep. unfold bz. destruct (g_null c); lia.
  - cbn. intro F. destruct (Z.eq_dec r plen) as [E|E]; [rewrite (Hok E) in F; discriminate|].
    apply Hpn. lia.
Qed.

(** Results for the whole run. *)
Record run_ok (c : gen_cfg) (s : gen_state) (pks : list packet) (infos : list pinfo) : Prop := {
  ro_sized : Forall2 (pkt_sized c) pks infos;
  ro_wire : Forall2 (pkt_wire c) pks infos;
  ro_content : Forall (pkt_content c) infos;
  ro_tiles : tiles (s_poff s) infos (g_psize c);
  ro_ptrs : g_repeat c = false ->
            concat (map pi_ptrs infos) = skipn (Z.to_nat (s_nip s)) (all_pointers c);
  ro_repeat : g_repeat c = true -> Forall (fun i => pi_ptrs i = all_pointers c) infos;
  ro_asserts : g_null c = false -> Forall (fun pk => pk_asserts pk = true) pks
}.

Lemma skipn_slice_app {A} (l : list A) off n :
  0 <= off -> 0 <= n -> slice l off n ++ skipn (Z.to_nat (off + n)) l = skipn (Z.to_nat off) l.
Proof.
  intros H1 H2. unfold slice.
  replace (Z.to_nat (off + n)) with (Z.to_nat off + Z.to_nat n)%nat by lia.
  rewrite <- skipn_skipn'. apply firstn_skipn.
Qed.

Lemma run_ok_done c s : cfg_ok c -> inv c s -> s_poff s = g_psize c -> run_ok c s [] [].
Proof.
  intros Hc Hi E. split.
  - apply Forall2_nil.
  - apply Forall2_nil.
  - apply Forall_nil.
  - exact E.
  - intros _. cbn [map concat]. symmetry. apply skipn_all2.
    pose proof (iv_room c s Hi) as HR. pose proof (iv_nip c s Hi) as Hn.
    pose proof (all_pointers_length c) as HL. unfold zlen in HL at 1.
    pose proof (co_m c Hc).
    destruct (Z_le_gt_dec (zlen (g_items c) + bz (g_null c) - s_nip s) 0) as [L|G]; [lia|].
    specialize (HR ltac:(lia)).
    assert (0 <= (zlen (g_items c) + bz (g_null c) - s_nip s - 1) / g_m c) by (apply Z.div_pos; lia).
    lia.
  - intros _. apply Forall_nil.
  - intros _. apply Forall_nil.
Qed.

Lemma generate_spec c fuel : forall s,
  cfg_ok c -> inv c s -> g_psize c - s_poff s <= Z.of_nat fuel ->
  exists pks s' infos,
    generate c fuel s = Some (pks, s') /\ has_next_packet c s' = false /\
    run_ok c s pks infos.
Proof.
  induction fuel as [|fuel IH]; intros s Hc Hi Hf.
  - pose proof (iv_poff c s Hi) as Hp.
    exists [], s, []. cbn [generate].
    split; [reflexivity|]. split; [unfold has_next_packet; lia|].
    apply run_ok_done; [assumption..|lia].
  - cbn [generate]. destruct (has_next_packet c s) eqn:Hnext.
    + destruct (next_packet_info c s Hc Hi Hnext)
        as (pk & s1 & i & HN & Hi1 & Hsz & Hwi & Hco & Hoff & Hpo & Hpt & Hnip & Hrep & Has).
      rewrite HN.
      pose proof (pz_payload c pk i Hsz) as Hpl.
      destruct (IH s1 Hc Hi1 ltac:(lia)) as (pks & s' & infos & HG & Hdone & R).
      rewrite HG. exists (pk :: pks), s', (i :: infos).
      split; [reflexivity|]. split; [exact Hdone|].
      destruct R as [R1 R2 R3 R4 R5 R6 R7].
      split.
      * constructor; assumption.
      * constructor; assumption.
      * constructor; assumption.
      * cbn [tiles]. split; [exact Hoff|]. rewrite <- Hpo. exact R4.
      * intro ER. cbn [map concat]. rewrite (R5 ER), Hnip.
        rewrite Hpt at 1. unfold nip0; rewrite ER.
        pose proof (iv_nip c s Hi) as Hn.
        apply skipn_slice_app; [lia|apply zlen_nonneg].
      * intro ER. constructor; [now apply Hrep|now apply R6].
      * intro E. constructor; [|now apply R7].
        destruct (pk_asserts pk) eqn:EA; [reflexivity|]. rewrite (Has eq_refl) in E. discriminate.
    + exists [], s, []. unfold has_next_packet in Hnext.
      pose proof (iv_poff c s Hi) as Hp.
      split; [reflexivity|]. split; [unfold has_next_packet; lia|].
      apply run_ok_done; [assumption..|lia].
Qed.

(** ** From the constructor *)

Lemma generated c fuel :
  cfg_ok c -> g_psize c <= Z.of_nat fuel ->
  exists pks s' infos,
    generate c fuel gen_init = Some (pks, s') /\ has_next_packet c s' = false /\
    run_ok c gen_init pks infos.
Proof.
  intros Hc Hf. apply generate_spec; [exact Hc|now apply inv_init|]. cbn. lia.
Qed.

(** The whole transmitted payload when padding is not interleaved. *)
Definition padded (c : gen_cfg) : list Z :=
  let pay := heap_payload (g_hab c) (g_items c) in
  pay ++ repeat 0 (Z.to_nat (g_psize c - zlen pay)).

Lemma slice_repeat {A} (x : A) n off len :
  0 <= off -> 0 <= len -> off + len <= Z.of_nat n -> slice (repeat x n) off len = repeat x (Z.to_nat len).
Proof.
  intros H1 H2 H3. unfold slice.
  assert (E1 : skipn (Z.to_nat off) (repeat x n) = repeat x (n - Z.to_nat off)).
  { replace n with (Z.to_nat off + (n - Z.to_nat off))%nat at 1 by lia.
    rewrite repeat_app, skipn_app, repeat_length, skipn_all2 by (rewrite repeat_length; lia).
    rewrite Nat.sub_diag. reflexivity. }
  rewrite E1. replace (n - Z.to_nat off)%nat with (Z.to_nat len + (n - Z.to_nat off - Z.to_nat len))%nat by lia.
  rewrite repeat_app, firstn_app, repeat_length, firstn_all2 by (rewrite repeat_length; lia).
  rewrite Nat.sub_diag. cbn [firstn]. now rewrite app_nil_r.
Qed.

Lemma content_no_interleave c i :
  cfg_ok c -> pkt_content c i -> 0 <= pi_off i -> pi_off i + zlen (pi_payload i) <= g_psize c ->
  (g_null c = false \/ zlen (heap_payload (g_hab c) (g_items c)) mod 8 = 0) ->
  pi_payload i = slice (padded c) (pi_off i) (zlen (pi_payload i)).
Proof.
  intros Hc (H1 & H2 & H3) Hoff Hend Hmode. unfold padded.
  set (pay := heap_payload (g_hab c) (g_items c)) in *.
  set (L := zlen (pi_payload i)) in *.
  set (r := Z.min L (Z.max 0 (zlen pay - pi_off i))) in *.
  assert (HL : 0 <= L) by apply zlen_nonneg.
  pose proof (zlen_nonneg pay) as HP.
  destruct (Z.eq_dec r L) as [E|E].
  - destruct (Z.eq_dec L 0) as [E0|E0].
    + rewrite E0, slice_zero. unfold L in E0. destruct (pi_payload i); [reflexivity|].
      rewrite zlen_cons in E0. pose proof (zlen_nonneg l). lia.
    + rewrite slice_app_l by lia. rewrite H1, E. rewrite Z.sub_diag. reflexivity.
  - assert (Hn : g_null c = true) by (apply H2; lia).
    destruct Hmode as [Hm|Hm]; [congruence|].
    destruct (H3 Hn) as (k & K1 & K2).
    destruct (co_null c Hc Hn) as [_ Hlt]. fold pay in Hlt.
    assert (Hr0 : r = 0).
    { pose proof (Z.div_mod (zlen pay) 8 ltac:(lia)) as HD. rewrite Hm in HD.
      unfold r in *. clear - K1 K2 HD E. lia. }
    rewrite slice_app_r by lia.
    rewrite slice_repeat by lia.
    rewrite H1, Hr0, slice_zero, app_nil_r. f_equal. lia.
Qed.

Lemma tiles_concat (whole : list Z) infos : forall off,
  0 <= off -> tiles off infos (zlen whole) ->
  Forall (fun i => pi_payload i = slice whole (pi_off i) (zlen (pi_payload i))) infos ->
  concat (map pi_payload infos) = skipn (Z.to_nat off) whole.
Proof.
  induction infos as [|i infos IH]; intros off Ho Ht Hf; cbn [tiles map concat] in *.
  - symmetry. apply skipn_all2. unfold zlen in Ht. lia.
  - destruct Ht as [Ht1 Ht2]. inversion Hf as [|? ? Hi Hf']; subst.
    rewrite (IH (pi_off i + zlen (pi_payload i))) by (try assumption; pose proof (zlen_nonneg (pi_payload i)); lia).
    rewrite Hi at 1. apply skipn_slice_app; [lia|apply zlen_nonneg].
Qed.

Lemma tiles_bounds infos : forall off stop,
  tiles off infos stop ->
  off <= stop /\ Forall (fun i => off <= pi_off i /\ pi_off i + zlen (pi_payload i) <= stop) infos.
Proof.
  induction infos as [|i infos IH]; intros off stop Ht; cbn [tiles] in Ht.
  - split; [lia|constructor].
  - destruct Ht as [<- Ht]. pose proof (zlen_nonneg (pi_payload i)).
    destruct (IH _ _ Ht) as [H1 H2]. split; [lia|]. constructor; [lia|].
    eapply Forall_impl; [|exact H2]. cbn. intros j Hj. lia.
Qed.

Lemma run_no_interleave c pks infos :
  cfg_ok c -> run_ok c gen_init pks infos ->
  (g_null c = false \/ zlen (heap_payload (g_hab c) (g_items c)) mod 8 = 0) ->
  Forall (fun i => pi_payload i = slice (padded c) (pi_off i) (zlen (pi_payload i))) infos.
Proof.
  intros Hc R Hm. pose proof (ro_tiles _ _ _ _ R) as HT. cbn [gen_init s_poff] in HT.
  destruct (tiles_bounds _ _ _ HT) as [_ HB]. pose proof (ro_content _ _ _ _ R) as HC.
  rewrite Forall_forall in *. intros i Hin.
  specialize (HB i Hin). specialize (HC i Hin).
  apply content_no_interleave; try assumption; lia.
Qed.

Lemma padded_length c : cfg_ok c -> zlen (padded c) = g_psize c.
Proof.
  intro Hc. unfold padded. rewrite zlen_app, zlen_repeat.
  destruct (g_null c) eqn:E.
  - destruct (co_null c Hc E) as [_ H]. lia.
  - rewrite (co_real c Hc E). lia.
Qed.

Lemma run_concat c pks infos :
  cfg_ok c -> run_ok c gen_init pks infos ->
  (g_null c = false \/ zlen (heap_payload (g_hab c) (g_items c)) mod 8 = 0) ->
  concat (map pi_payload infos) = padded c.
Proof.
  intros Hc R Hm. pose proof (run_no_interleave c pks infos Hc R Hm) as HF.
  pose proof (ro_tiles _ _ _ _ R) as HT. cbn [gen_init s_poff] in HT.
  rewrite <- (padded_length c Hc) in HT.
  apply (tiles_concat (padded c) infos 0 ltac:(lia) HT HF).
Qed.
