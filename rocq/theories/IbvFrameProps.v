(** C55: the frames of the ibverbs sender. *)
From Coq Require Import ZArith List Bool Lia.
From Verif Require Import Base ConcBase SendPacketModel SendSpec SendProps RawModel RawSpec RawProps IbvFrameModel IbvFrameSpec IbvFrameProofs.
Import ListNotations.
Open Scope Z_scope.

(** RFC 1112: the low 23 bits of the address after 01:00:5e *)
Theorem C55_multicast_mac a : length a = 4%nat -> bytes_ok a -> zlen (multicast_mac a) = 6 /\ bytes_ok (multicast_mac a) /\ be_decode (multicast_mac a) = 0x01005e000000 + be_decode a mod 2 ^ 23.
Proof.
  intros L B. destruct (mac_ok a L B) as (H1 & H2). split; [exact H1|]. split; [exact H2|]. destruct a as [|a0 [|a1 [|a2 [|a3 [|]]]]]; cbn in L; try lia.
  unfold bytes_ok in B. rewrite !Forall_cons_iff in B. destruct B as (B0 & B1 & B2 & B3 & _). unfold byte_ok in *. cbn [multicast_mac]. change 127 with (Z.ones 7). rewrite Z.land_ones by lia. change (2 ^ 7) with 128.
  unfold be_decode. cbn [fold_left]. change (2 ^ 23) with 8388608. pose proof (Z.div_mod a1 128 ltac:(lia)). pose proof (Z.mod_pos_bound a1 128 ltac:(lia)). pose proof (Z.div_pos a1 128). assert (a1 / 128 < 2) by (apply Z.div_lt_upper_bound; lia).
  assert (E : ((((0 * 256 + a0) * 256 + a1) * 256 + a2) * 256 + a3) mod 8388608 = (a1 mod 128) * 65536 + a2 * 256 + a3).
  { symmetry. apply (Z.mod_unique _ _ (2 * a0 + a1 / 128)); lia. }
  rewrite E. lia.
Qed.

(** The constructor accepts a configuration exactly if there is an endpoint and no two
    regions overlap, and makes no access outside the slot. *)
Theorem C55_constructor c : cfg_ok c -> ic_mps c <= 65507 ->
  new_slot c <> PFault /\ ((exists f, new_slot c = POk (f, 42)) <-> ic_eps c <> [] /\ apart (ic_regions c)).
Proof.
  intros CO HM. pose proof (co_mps c CO). assert (OK : ok16 (ic_mps c)) by (unfold ok16; rewrite Z.mod_small; lia).
  destruct (ic_eps c) as [|[addr port] rest] eqn:E.
  - assert (N : new_slot c = PErr TypeError) by (unfold new_slot; now rewrite E). rewrite N. split; [discriminate|]. split; [intros (f & K); discriminate|intros (K & _); congruence].
  - destruct (no_overlap (reg_sort (ic_regions c))) eqn:NO.
    + destruct (new_slot_shape c CO addr port rest E NO OK) as (f & pay & N & _). rewrite N. split; [discriminate|]. split; [intros _; split; [discriminate|apply no_overlap_apart; [apply (co_sizes c CO)|exact NO]]|eauto].
    + assert (N : new_slot c = PErr TypeError) by (unfold new_slot; now rewrite E, NO). rewrite N. split; [discriminate|]. split; [intros (f & K); discriminate|]. intros (_ & K). apply apart_no_overlap in K. congruence.
Qed.

Lemma reached_good c pay f : cfg_ok c -> ok16 (ic_mps c) -> (forall p, fits c p -> ok16 (ip_size p)) -> reached c pay f -> pay = 42 /\ good c f /\ apart (ic_regions c).
Proof.
  intros CO OK OP R. induction R as [pay f N|mem at_ pay f p f' l R (-> & G & A) MO FI P].
  - destruct (new_slot_good c CO f pay OK N) as (-> & G). split; [reflexivity|]. split; [exact G|]. unfold new_slot in N. destruct (ic_eps c) as [|[a0 p0] r]; [discriminate|]. destruct (no_overlap (reg_sort (ic_regions c))) eqn:NO; [|discriminate]. apply no_overlap_apart; [apply (co_sizes c CO)|exact NO].
  - split; [reflexivity|]. split; [|exact A]. destruct (nth_error (ic_eps c) (ip_sub p)) as [[addr port]|] eqn:NE; [|apply nth_error_None in NE; pose proof (f_sub c p FI); lia].
    destruct (put_packet_spec c CO A mem at_ f p addr port MO G FI NE (OP p FI)) as (f2 & l2 & ck & Q1 & Q2 & _). rewrite Q1 in P. injection P as <- <-. exact Q2.
Qed.
Lemma size_ok c p : fits c p -> 0 <= ip_size p <= ic_mps c.
Proof. intros [F1 F2 F3 F4 F5 F6]. rewrite size_total. split; [|rewrite <- size_total; exact F5]. assert (0 <= total snd (ip_bufs p)) by (clear - F4; induction F4; cbn [total]; lia). lia. Qed.
Lemma zlen_packet_data c mem p : fits c p -> zlen (packet_data mem p) = ip_size p.
Proof.
  intros [F1 F2 F3 F4 F5 F6]. rewrite size_total. unfold packet_data. rewrite zlen_app, zlen_slice by lia. f_equal. clear - F4. induction F4; cbn [flat_map total]; [reflexivity|]. rewrite zlen_app, zlen_load by auto. lia.
Qed.

(** What a receiver makes of the frame *)
Ltac gets k := erewrite (get_field _ _ _ k); [|reflexivity|zl; lia|zl; lia]; cbn [fields upd pbind].
Lemma headers_parse dmac smac sa da ttl sp dp n ck data : zlen dmac = 6 -> zlen smac = 6 -> zlen sa = 4 -> zlen da = 4 -> zlen ck = 2 -> zlen data = n -> 28 <= (n + 28) mod 65536 ->
  udp_from Ethernet (headers dmac smac sa da ttl sp dp n ck ++ data) = POk {| pb_off := 42; pb_len := n mod 65536 |}.
Proof.
  intros Z1 Z2 Z3 Z4 Z5 Z6 OK. pose proof (zlen_nonneg data) as Z0.
  assert (E : headers dmac smac sa da ttl sp dp n ck ++ data = concat (fields dmac smac [8;0] [69] [0] (be_encode 2 (20 + 8 + n)) [0;0] [64;0] [ttl] [17] ck sa da (be_encode 2 sp) (be_encode 2 dp) (be_encode 2 (8 + n)) [0;0] data)).
  { unfold headers. cbn [fields concat]. rewrite app_nil_r, <- !app_assoc. cbn [app]. reflexivity. }
  rewrite E. set (F := fields _ _ _ _ _ _ _ _ _ _ _ _ _ _ _ _ _ _). assert (ZF : zlen (concat F) = 42 + n) by (unfold F; zl; lia).
  unfold udp_from, sized. cbn [pb_len pb_off]. rewrite ZF. unfold eth_min. destruct (Z.ltb_spec (42 + n) 14); [lia|]. cbn [pbind].
  unfold F. gets 2%nat. unfold payload_ipv4, sized, ipv4_min. cbn [pb_len pb_off]. destruct (Z.ltb_spec (42 + n - 14) 20); [lia|]. cbn [pbind].
  unfold udp_from_ipv4. change (be_decode [8; 0]) with 2048. cbn [negb Z.eqb Pos.eqb]. unfold version, is_fragment. gets 3%nat. rewrite be1. change (Z.shiftr 69 4) with 4. cbn [negb Z.eqb Pos.eqb].
  gets 7%nat. change (Z.land (be_decode [64; 0]) 16383) with 0. cbn [negb Z.eqb]. gets 9%nat. rewrite be1. cbn [negb Z.eqb Pos.eqb].
  unfold payload_udp, header_length, sized, ipv4_min, udp_min. cbn [pb_off pb_len]. gets 3%nat. rewrite be1. change (4 * Z.land 69 15) with 20. gets 5%nat. change (20 <? 20) with false. cbv iota. rewrite be_decode_encode. change (256 ^ Z.of_nat 2) with 65536.
  replace (20 + 8 + n) with (n + 28) by lia. pose proof (Z.mod_le (n + 28) 65536 ltac:(lia) ltac:(lia)) as LE. pose proof (Z.div_mod (n + 28) 65536 ltac:(lia)) as DM. pose proof (Z.mod_pos_bound (n + 28) 65536 ltac:(lia)) as BM. set (T := (n + 28) mod 65536) in *.
  destruct (Z.ltb_spec (42 + n - 14) T); [lia|]. destruct (Z.ltb_spec T 20); [lia|]. cbn [orb]. destruct (Z.ltb_spec (T - 20) 8); [lia|]. cbn [pbind].
  unfold udp_payload. cbn [pb_off pb_len]. gets 15%nat. rewrite be_decode_encode. change (256 ^ Z.of_nat 2) with 65536. unfold udp_min.
  assert (U : (8 + n) mod 65536 = T - 20) by (symmetry; apply (Z.mod_unique _ _ ((n + 28) / 65536)); lia). assert (V : n mod 65536 = T - 28) by (symmetry; apply (Z.mod_unique _ _ ((n + 28) / 65536)); lia).
  rewrite U, V. destruct (Z.ltb_spec (T - 20) (T - 20)); [lia|]. destruct (Z.ltb_spec (T - 20) 8); [lia|]. cbn [orb]. f_equal. f_equal. lia.
Qed.

Lemma good_zlen c f : cfg_ok c -> good c f -> zlen f = raw_size c.
Proof.
  intros CO (d & tl & ck & da & dp & ul & pay & (-> & Z1 & Z2 & Z3 & Z4 & Z5 & Z6 & Z7 & _) & _). destruct (co_mac c CO) as (SM1 & _). destruct (co_addr c CO) as (SA1 & _). apply zlen_of_length in SM1, SA1. unfold raw_size, header_size, eth_min, ipv4_min, udp_min. zl. lia.
Qed.
Lemma zlen_wire_total c mem at_ f l : cfg_ok c -> zlen f = raw_size c -> Forall (entry_ok c at_) l -> zlen (wire c mem at_ f l) = total e_len l.
Proof.
  intros CO ZF F. unfold wire. induction F as [|e l (E0 & E) F IH]; cbn [flat_map total]; [reflexivity|]. rewrite zlen_app, IH. f_equal. unfold sge_bytes. destruct (Z.eqb_spec (e_key e) (ic_key c)) as [K|K]; [|now apply zlen_load].
  destruct E as [(E1 & E2 & E3)|(r & R1 & R2 & _)]; [apply zlen_slice; lia|]. exfalso. apply (key_differs c CO r R1). congruence.
Qed.

(** Whatever the slot was used for before, a packet that fits is put on the wire without
    an access outside the slot or the array of entries: each entry is inside memory
    registered under its key; the bytes the device gathers are the headers for the
    packet's substream followed by exactly the packet; a receiver finds the packet; the IP
    checksum is right unless the device computes it; and with up to four buffers those in
    registered memory, and only those, are not copied.  The entries have 42 bytes more than
    the packet (which reap relies on). *)
Theorem C55_frame c pay f mem at_ p addr port : cfg_ok c -> ic_mps c <= 65507 -> reached c pay f -> (forall a, byte_ok (mem a)) -> fits c p -> nth_error (ic_eps c) (ip_sub p) = Some (addr, port) ->
  exists f' l ck, put_packet c mem at_ pay f p = POk (f', l) /\ Forall (entry_ok c at_) l /\ (1 <= length l <= 4)%nat /\
    wire c mem at_ f' l = headers (multicast_mac addr) (ic_mac c) (ic_addr c) addr (ic_ttl c) (ic_port c) port (ip_size p) ck ++ packet_data mem p /\
    udp_from Ethernet (wire c mem at_ f' l) = POk {| pb_off := 42; pb_len := ip_size p |} /\ slice (wire c mem at_ f' l) 42 (ip_size p) = packet_data mem p /\
    (if ic_csum c then ck = [0; 0] else oc_sum (words (wire c mem at_ f' l) 14 10) = 65535) /\
    direct c l = (if Nat.leb (length (ip_bufs p)) 3 then total (fun b => if registered c b then snd b else 0) (ip_bufs p) else 0) /\ total e_len l = 42 + ip_size p.
Proof.
  intros CO HM R MO FI NE. pose proof (co_mps c CO). assert (OK : forall n, 0 <= n <= ic_mps c -> ok16 n) by (intros; unfold ok16; rewrite Z.mod_small; lia).
  assert (M0 : 0 <= ic_mps c <= ic_mps c) by lia. destruct (reached_good c pay f CO (OK _ M0) (fun q Hq => OK _ (size_ok c q Hq)) R) as (-> & G & AP). pose proof (size_ok c p FI) as SZ.
  destruct (put_packet_spec c CO AP mem at_ f p addr port MO G FI NE (OK _ SZ)) as (f' & l & ck & Q1 & Q2 & Q3 & Q4 & Q5 & Q6 & Q7 & Q8 & Q9 & Q10).
  exists f', l, ck. split; [exact Q1|]. split; [exact Q3|]. split; [exact Q4|]. split; [exact Q5|]. pose proof (zlen_packet_data c mem p FI) as ZD.
  assert (EP : ep_ok (addr, port)) by (pose proof (co_eps c CO) as K; rewrite Forall_forall in K; apply K; eapply nth_error_In; eauto). destruct EP as (EA & EB & _). cbn [fst] in *.
  destruct (mac_ok addr EA EB) as (M1 & _). destruct (co_mac c CO) as (SM1 & _). destruct (co_addr c CO) as (SA1 & _). apply zlen_of_length in EA, SM1, SA1.
  assert (ZH : zlen (headers (multicast_mac addr) (ic_mac c) (ic_addr c) addr (ic_ttl c) (ic_port c) port (ip_size p) ck) = 42) by (unfold headers; zl; lia).
  split; [|split; [|split; [destruct (ic_csum c); auto|split; [exact Q10|]]]].
  - rewrite Q5, headers_parse; auto; [now rewrite Z.mod_small by lia|]. apply OK. lia.
  - rewrite Q5. rewrite slice_app_r by lia. rewrite ZH, Z.sub_diag, <- ZD. apply slice_full.
  - rewrite <- (zlen_wire_total c mem at_ f' l CO (good_zlen c f' CO Q2) Q3), Q5, zlen_app. lia.
Qed.

(** The packets of the packet generator fit: what is on the wire is the packet. *)
Theorem C55_generated c pay f mem at_ p hab items rep cnt g pks pk : cfg_ok c -> ic_mps c <= 65507 -> reached c pay f -> (forall a, byte_ok (mem a)) ->
  accepted hab items rep cnt (ic_mps c) g -> packets_of g pks -> In pk pks ->
  ip_words p = flat_map (be_encode 8) (pk_words pk) -> ip_len0 p = pk_len0 pk -> Forall2 (fun b l => snd b = zlen l /\ load mem (fst b) (snd b) = l) (ip_bufs p) (pk_bufs pk) -> (ip_sub p < length (ic_eps c))%nat ->
  exists f' l, put_packet c mem at_ pay f p = POk (f', l) /\ udp_from Ethernet (wire c mem at_ f' l) = POk {| pb_off := 42; pb_len := zlen (packet_bytes pk) |} /\ slice (wire c mem at_ f' l) 42 (zlen (packet_bytes pk)) = packet_bytes pk.
Proof.
  intros CO HM R MO AC PO IN E1 E2 E3 E4. destruct (C04_packets_fit_and_carry_payload hab items rep cnt (ic_mps c) g AC) as (pks' & PO' & F & _). rewrite (packets_of_unique _ _ _ PO' PO) in F. rewrite Forall_forall in F.
  destruct (F pk IN) as (ptrs & payload & off & pad & P1 & P2 & P3 & P4 & P5 & P6).
  assert (ZW : zlen (ip_words p) = 8 * zlen (pk_words pk)). { rewrite E1. clear. induction (pk_words pk) as [|x l IH]; [reflexivity|]. cbn [flat_map]. rewrite zlen_app, zlen_be_encode, zlen_cons, IH. lia. }
  assert (PD : packet_data mem p = packet_bytes pk). { unfold packet_data, packet_bytes. rewrite E1, E2. f_equal. clear - E3. induction E3 as [|b l bs ls (_ & H) _ IH]; cbn [flat_map concat]; [reflexivity|]. now rewrite H, IH. }
  assert (TS : total snd (ip_bufs p) = zlen (concat (pk_bufs pk))). { clear - E3. induction E3 as [|b l bs ls (H & _) _ IH]; cbn [total concat]; [reflexivity|]. rewrite zlen_app. lia. }
  assert (SZ : ip_size p = zlen (packet_bytes pk)). { rewrite size_total. unfold packet_bytes. rewrite zlen_app, <- TS, E2, zlen_slice; [reflexivity|lia|lia|]. rewrite <- E1, ZW. lia. }
  assert (FI : fits c p).
  { constructor; rewrite ?ZW, ?E2; auto; try lia.
    - rewrite E1. apply Forall_flat_map, Forall_forall. intros x _. apply be_encode_ok.
    - clear - E3. induction E3 as [|b l bs ls (H & _) _ IH]; constructor; auto. rewrite H. apply zlen_nonneg. }
  destruct (nth_error (ic_eps c) (ip_sub p)) as [[addr port]|] eqn:NE; [|apply nth_error_None in NE; lia].
  destruct (C55_frame c pay f mem at_ p addr port CO HM R MO FI NE) as (f' & l & ck & Q1 & _ & _ & _ & Q2 & Q3 & _). exists f', l. rewrite <- SZ, <- PD. auto.
Qed.

(** Nothing limits max_packet_size.  From 65536 on the constructor can succeed and the
    lengths in the headers wrap: a receiver finds [size mod 65536] bytes. *)
Lemma large c : cfg_ok c -> ic_eps c <> [] -> apart (ic_regions c) -> ok16 (ic_mps c) ->
  exists f, new_slot c = POk (f, 42) /\ forall mem at_ p, (forall a, byte_ok (mem a)) -> fits c p -> ok16 (ip_size p) ->
    exists f' l, put_packet c mem at_ 42 f p = POk (f', l) /\ udp_from Ethernet (wire c mem at_ f' l) = POk {| pb_off := 42; pb_len := ip_size p mod 65536 |}.
Proof.
  intros CO NE AP OK. destruct (ic_eps c) as [|[a0 p0] rest] eqn:E; [congruence|]. destruct (new_slot_shape c CO a0 p0 rest E (apart_no_overlap _ AP) OK) as (f & pay & N & _). exists f. split; [exact N|].
  destruct (new_slot_good c CO f 42 OK N) as (_ & G). intros mem at_ p MO FI OP. destruct (nth_error (ic_eps c) (ip_sub p)) as [[addr port]|] eqn:NN; [|apply nth_error_None in NN; pose proof (f_sub c p FI); lia].
  destruct (put_packet_spec c CO AP mem at_ f p addr port MO G FI NN OP) as (f' & l & ck & Q1 & Q2 & Q3 & Q4 & Q5 & Q6 & _). exists f', l. split; [exact Q1|]. rewrite Q5.
  assert (EP : ep_ok (addr, port)) by (pose proof (co_eps c CO) as K; rewrite Forall_forall in K; apply K; eapply nth_error_In; eauto). destruct EP as (EA & EB & _). cbn [fst] in *.
  destruct (mac_ok addr EA EB) as (M1 & _). destruct (co_mac c CO) as (SM1 & _). destruct (co_addr c CO) as (SA1 & _). apply zlen_of_length in EA, SM1, SA1. apply headers_parse; auto. exact (zlen_packet_data c mem p FI).
Qed.

(** *** Examples *)
Definition ex_cfg (mps : Z) : icfg :=
  {| ic_mps := mps; ic_key := 7; ic_regions := [{| rg_ptr := 5000; rg_size := 1000; rg_key := 8 |}; {| rg_ptr := 4096; rg_size := 100; rg_key := 9 |}];
     ic_eps := [([239; 200; 1; 2], 8888); ([239; 1; 1; 3], 8889)]; ic_mac := [2; 0; 0; 0; 0; 1]; ic_addr := [10; 0; 0; 1]; ic_port := 40000; ic_ttl := 4; ic_csum := false |}.
Definition ex_mem (a : Z) : Z := a mod 256.
(** 16 bytes by the packet generator, then memory of one region, of none, of the other *)
Definition ex_pkt : ipkt := {| ip_words := [83; 4; 2; 6; 0; 0; 0; 1] ++ [128; 1; 0; 0; 0; 0; 0; 5] ++ [0; 0; 0; 0; 0; 0; 0; 0]; ip_len0 := 16; ip_bufs := [(5000, 3); (100, 2); (4190, 6)]; ip_sub := 1%nat |}.
Lemma ex_bytes l : forallb (fun x => (0 <=? x) && (x <? 256)) l = true -> bytes_ok l.
Proof. intro H. apply Forall_forall. intros x Hx. rewrite forallb_forall in H. apply H in Hx. apply andb_true_iff in Hx as (H1 & H2). apply Z.leb_le in H1. apply Z.ltb_lt in H2. split; auto. Qed.
Lemma ex_cfg_ok mps : 0 < mps -> cfg_ok (ex_cfg mps).
Proof.
  intro H. constructor; cbn [ex_cfg ic_mps ic_key ic_regions ic_eps ic_mac ic_addr ic_port ic_ttl map rg_key]; auto.
  - repeat constructor; cbn; lia.
  - split; [reflexivity|]. now apply ex_bytes.
  - split; [reflexivity|]. now apply ex_bytes.
  - unfold byte_ok. lia.
  - repeat constructor.
  - repeat constructor; cbn [In]; intuition lia.
Qed.
Lemma ex_apart mps : apart (ic_regions (ex_cfg mps)).
Proof. split; [repeat constructor; cbn [In rg_ptr]; intuition lia|]. intros a b [<-|[<-|[]]] [<-|[<-|[]]]; cbn [rg_ptr rg_size]; lia. Qed.
Ltac ex_fits := constructor; [now apply ex_bytes|vm_compute; split; discriminate|vm_compute; discriminate|repeat constructor; vm_compute; discriminate|vm_compute; discriminate|vm_compute; lia].
Definition ex_slot : list Z := Eval vm_compute in match new_slot (ex_cfg 64) with POk (f, _) => f | _ => [] end.
Definition ex_put : list Z * list sge := Eval vm_compute in match put_packet (ex_cfg 64) ex_mem 1000000 42 ex_slot ex_pkt with POk r => r | _ => ([], []) end.
Example C55_ex : new_slot (ex_cfg 64) = POk (ex_slot, 42) /\ fits (ex_cfg 64) ex_pkt /\ put_packet (ex_cfg 64) ex_mem 1000000 42 ex_slot ex_pkt = POk ex_put /\
  snd ex_put = [{| e_addr := 1000000; e_len := 58; e_key := 7 |}; {| e_addr := 5000; e_len := 3; e_key := 8 |}; {| e_addr := 1000058; e_len := 2; e_key := 7 |}; {| e_addr := 4190; e_len := 6; e_key := 9 |}] /\
  wire (ex_cfg 64) ex_mem 1000000 (fst ex_put) (snd ex_put) = [1; 0; 94; 1; 1; 3; 2; 0; 0; 0; 0; 1; 8; 0; 69; 0; 0; 55; 0; 0; 64; 0; 4; 17; 124; 177; 10; 0; 0; 1; 239; 1; 1; 3; 156; 64; 34; 185; 0; 35; 0; 0;
    83; 4; 2; 6; 0; 0; 0; 1; 128; 1; 0; 0; 0; 0; 0; 5; 136; 137; 138; 100; 101; 94; 95; 96; 97; 98; 99].
Proof.
  split; [vm_compute; reflexivity|]. split; [ex_fits|]. split; [vm_compute; reflexivity|]. split; vm_compute; reflexivity.
Qed.
(** A datagram of 65536 bytes: the receiver finds an empty one; one of 65530 bytes: the
    sender throws std::length_error from its handler. *)
Theorem C55_large_refuted : exists c f p f' l p', cfg_ok c /\ ic_mps c = 65536 /\ new_slot c = POk (f, 42) /\ (forall a, byte_ok (ex_mem a)) /\
  fits c p /\ ip_size p = 65536 /\ put_packet c ex_mem 1000000 42 f p = POk (f', l) /\ udp_from Ethernet (wire c ex_mem 1000000 f' l) = POk {| pb_off := 42; pb_len := 0 |} /\
  fits c p' /\ ip_size p' = 65530 /\ put_packet c ex_mem 1000000 42 f p' = PErr LengthError.
Proof.
  set (c := ex_cfg 65536). set (p := {| ip_words := repeat 0 16; ip_len0 := 16; ip_bufs := [(7000, 65520)]; ip_sub := 0%nat |}). set (p' := {| ip_words := []; ip_len0 := 0; ip_bufs := [(7000, 65530)]; ip_sub := 0%nat |}).
  pose proof (ex_cfg_ok 65536 ltac:(lia)) as CO. fold c in CO. assert (MO : forall a, byte_ok (ex_mem a)) by (intro a; unfold byte_ok, ex_mem; apply Z.mod_pos_bound; lia).
  assert (OK : ok16 (ic_mps c)) by (cbv; discriminate). destruct (large c CO ltac:(discriminate) (ex_apart 65536) OK) as (f & N & L).
  assert (FI : fits c p) by (ex_fits). assert (FI' : fits c p') by (ex_fits).
  destruct (L ex_mem 1000000 p MO FI OK) as (f' & l & Q1 & Q2). exists c, f, p, f', l, p'.
  repeat (split; [first [assumption|reflexivity]|]).
  destruct (new_slot_good c CO f 42 OK N) as (_ & G). apply (put_packet_error c CO ex_mem 1000000 f p' [239; 200; 1; 2] 8888 MO G FI' eq_refl). reflexivity.
Qed.
Print Assumptions C55_multicast_mac.
Print Assumptions C55_constructor.
Print Assumptions C55_frame.
Print Assumptions C55_generated.
Print Assumptions C55_large_refuted.
