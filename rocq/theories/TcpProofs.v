(** Proofs about the TCP reader. *)
From Coq Require Import ZArith List Lia Bool.
From Coq Require Import ZifyBool ZifyNat.
From Verif Require Import Base CodecModel CodecProofs PacketSpec RecvPacketModel RecvPacketProofs LiveHeapModel TcpModel TcpSpec.
Import ListNotations.
Open Scope Z_scope.

(** * The reference parser *)
Lemma probe_cases d r : bytes_ok d -> get_packet_size d = Some r -> r = -1 \/ r = 0 \/ 0 < r.
Proof.
  intro Hb. unfold get_packet_size. destruct (Z.ltb_spec (zlen d) 8) as [L|L]; [intros [= <-]; auto|].
  destruct (decode_header d) as [[[hab n]|]|] eqn:EH; [|intros [= <-]; auto|discriminate].
  destruct (Z.ltb_spec (zlen d) (n * 8 + 8)) as [L2|L2]; [intros [= <-]; auto|].
  destruct (decode_header_inv d hab n Hb L EH ltac:(lia)) as (Hf & Hn & _). pose proof (flavour_ok_range _ Hf) as Hh.
  rewrite find_payload_length_first by (rewrite ?Z2Nat.id; lia).
  destruct (first_imm _ _ _) as [v|] eqn:E; cbn.
  - assert (Hv : 0 <= v).
    { clear - E Hh. revert E. generalize (ptrs_at d 0 (Z.to_nat n)) as l.
      induction l as [|p l IH]; [discriminate|]. cbn [first_imm].
      destruct (imm_with_id _ _ p); [|exact IH]. intro H; injection H as <-. apply get_address_range; lia. }
    destruct (Z.eqb_spec v (-1)); intros [= <-]; lia.
  - intros [= <-]. auto.
Qed.
Section Ref.
Context (max win : Z).
Context (Hmax : 0 < max) (Hwin : win = 64 * max).

(** One step of the reference parser: what is delivered and what remains. *)
Definition ref_step (d : list Z) : option (list rpkt * list Z) :=
  match get_packet_size (slice d 0 win) with
  | None => None
  | Some r =>
      if r =? 0 then if win <=? zlen d then Some ([], zskip win d) else None
      else if r <? 0 then Some ([], zskip 8 d)
      else if max <? r then Some ([], zskip r d)
      else if zlen d <? r then None
      else Some (whole_packet (slice d 0 r), zskip r d)
  end.
Lemma packets_in_step fuel d : packets_in (S fuel) max win d =
  match ref_step d with Some (ps, d') => ps ++ packets_in fuel max win d' | None => [] end.
Proof.
  cbn [packets_in]. unfold ref_step. destruct (get_packet_size _) as [r|]; [|reflexivity].
  destruct (r =? 0); [destruct (win <=? zlen d); reflexivity|]. destruct (r <? 0); [reflexivity|].
  destruct (max <? r); [reflexivity|]. destruct (zlen d <? r); reflexivity.
Qed.
Lemma small_headers_step fuel d : small_headers (S fuel) max win d <->
  (forall hab n, header_at d hab n -> 8 + 8 * n <= win / 2) /\
  match ref_step d with Some (_, d') => small_headers fuel max win d' | None => True end.
Proof.
  cbn [small_headers]. unfold ref_step. destruct (get_packet_size _) as [r|]; [|reflexivity].
  destruct (r =? 0); [destruct (win <=? zlen d); reflexivity|]. destruct (r <? 0); [reflexivity|].
  destruct (max <? r); [reflexivity|]. destruct (zlen d <? r); reflexivity.
Qed.
Lemma probe_neg d r : get_packet_size d = Some r -> r <> 0 -> 8 <= zlen d.
Proof. unfold get_packet_size. destruct (Z.ltb_spec (zlen d) 8); [intros [= <-]; congruence|lia]. Qed.
Lemma zlen_slice0 {A} (d : list A) n : 0 <= n -> zlen (slice d 0 n) = Z.min n (zlen d).
Proof. intros Hn. unfold slice, zlen. rewrite skipn_O, firstn_length. lia. Qed.
Lemma length_skipn_lt n (d : list Z) : 0 < n -> (0 < length d)%nat -> (length (zskip n d) < length d)%nat.
Proof. unfold zskip. rewrite skipn_length. lia. Qed.
Lemma ref_step_shrinks d ps d' : ref_step d = Some (ps, d') -> (length d' < length d)%nat.
Proof.
  unfold ref_step. destruct (get_packet_size _) as [r|] eqn:E; [|discriminate].
  destruct (Z.eqb_spec r 0) as [->|Hr].
  - destruct (Z.leb_spec win (zlen d)); [|discriminate]. intros [= <- <-]. unfold zlen in *. apply length_skipn_lt; lia.
  - pose proof (probe_neg _ _ E Hr) as H8. rewrite zlen_slice0 in H8 by lia. unfold zlen in *.
    destruct (Z.ltb_spec r 0); [intros [= <- <-]; apply length_skipn_lt; lia|].
    destruct (Z.ltb_spec max r); [intros [= <- <-]; apply length_skipn_lt; lia|].
    destruct (Z.ltb_spec (Z.of_nat (length d)) r); [discriminate|]. intros [= <- <-]. apply length_skipn_lt; lia.
Qed.
Lemma packets_in_fuel n m d : (length d < n)%nat -> (length d < m)%nat -> packets_in n max win d = packets_in m max win d.
Proof.
  revert m d. induction n as [|n IH]; intros m d Hn Hm; [lia|]. destruct m as [|m]; [lia|].
  rewrite !packets_in_step. destruct (ref_step d) as [[ps d']|] eqn:E; [|reflexivity].
  apply ref_step_shrinks in E. f_equal. apply IH; lia.
Qed.
Lemma small_headers_fuel n m d : (length d < n)%nat -> (length d < m)%nat -> (small_headers n max win d <-> small_headers m max win d).
Proof.
  revert m d. induction n as [|n IH]; intros m d Hn Hm; [lia|]. destruct m as [|m]; [lia|].
  rewrite !small_headers_step. destruct (ref_step d) as [[ps d']|] eqn:E; [|reflexivity].
  apply ref_step_shrinks in E. rewrite (IH m d') by lia. reflexivity.
Qed.
Lemma stream_packets_step d :
  stream_packets max win d = match ref_step d with Some (ps, d') => ps ++ stream_packets max win d' | None => [] end.
Proof.
  unfold stream_packets. rewrite packets_in_step. destruct (ref_step d) as [[ps d']|] eqn:E; [|reflexivity].
  apply ref_step_shrinks in E. f_equal. apply packets_in_fuel; lia.
Qed.
Lemma headers_fit_step d : headers_fit max win d <->
  (forall hab n, header_at d hab n -> 8 + 8 * n <= win / 2) /\
  match ref_step d with Some (_, d') => headers_fit max win d' | None => True end.
Proof.
  unfold headers_fit. rewrite small_headers_step. destruct (ref_step d) as [[ps d']|] eqn:E; [|reflexivity].
  apply ref_step_shrinks in E. rewrite (small_headers_fuel (length d) (S (length d')) d') by lia. reflexivity.
Qed.
Lemma slice_app_win (a b : list Z) : zlen a <= win -> slice (a ++ b) 0 win = a ++ slice b 0 (win - zlen a).
Proof.
  clear Hmax Hwin max. intro H. unfold slice, zlen in *. rewrite !skipn_O. rewrite firstn_app.
  rewrite (firstn_all2 a) by lia. f_equal. f_equal. lia.
Qed.

(** The step taken for [data ++ more] when the probe of [data] is decisive. *)
Lemma ref_step_app data more r : bytes_ok data -> zlen data <= win -> get_packet_size data = Some r -> r <> 0 ->
  ref_step (data ++ more) =
    if r <? 0 then Some ([], zskip 8 (data ++ more))
    else if max <? r then Some ([], zskip r (data ++ more))
    else if zlen (data ++ more) <? r then None
    else Some (whole_packet (slice (data ++ more) 0 r), zskip r (data ++ more)).
Proof.
  intros Hb Hl HP Hr. unfold ref_step. rewrite slice_app_win by exact Hl. rewrite (get_packet_size_app _ _ r) by assumption.
  now rewrite (proj2 (Z.eqb_neq r 0) Hr).
Qed.
Lemma ref_step_nil : ref_step [] = None.
Proof.
  unfold ref_step. replace (slice [] 0 win) with (@nil Z) by (unfold slice; now rewrite skipn_nil, firstn_nil).
  cbn. destruct (Z.leb_spec win (zlen (@nil Z))); [rewrite zlen_nil in *; lia|reflexivity].
Qed.
Lemma stream_packets_nil : stream_packets max win [] = [].
Proof. now rewrite stream_packets_step, ref_step_nil. Qed.
End Ref.

Lemma until_stop_stopped stop acc l : stop acc = true -> until_stop stop acc l = acc.
Proof. intro H. destruct l; cbn [until_stop]; now rewrite H. Qed.

(** * The reader *)
Section Reader.
Context (max : Z) (stop : list rpkt -> bool).
Context (Hmax : 0 < max).
Notation win := (bufsize max).
Lemma win_eq : win = 64 * max. Proof. unfold bufsize, pkts_per_buffer. lia. Qed.
Notation ref := (stream_packets max win).

(** What is still to come, if [more] follows. *)
Definition pend (s : tcp) (more : list Z) : list Z := zskip (tc_skip s) (tc_data s ++ more).

Record tinv (s : tcp) : Prop := {
  ti_len : zlen (tc_buf s) = win;
  ti_bytes : bytes_ok (tc_buf s);
  ti_head : 0 <= tc_head s <= tc_tail s;
  ti_tail : tc_tail s <= win;
  ti_pktnn : 0 <= tc_pkt s;
  ti_skipnn : 0 <= tc_skip s;
  ti_skip : 0 < tc_skip s -> 0 < tc_pkt s;
  ti_pkt : 0 < tc_pkt s -> tc_skip s = 0 -> get_packet_size (tc_data s) = Some (tc_pkt s) /\ tc_pkt s <= max
}.
Lemma tinv_in_buffer s : tinv s -> in_buffer s = true.
Proof. intros []. unfold in_buffer. lia. Qed.
Lemma tinv_data s : tinv s -> zlen (tc_data s) = tc_tail s - tc_head s /\ bytes_ok (tc_data s).
Proof. intros []. unfold tc_data. split; [apply zlen_slice; lia|]. now apply bytes_ok_slice. Qed.
Lemma skipn_slice (l : list Z) off len n : 0 <= off -> 0 <= n <= len -> skipn (Z.to_nat n) (slice l off len) = slice l (off + n) (len - n).
Proof.
  intros Ho Hn. unfold slice. rewrite skipn_firstn_comm. rewrite skipn_skipn'. f_equal; [lia|]. f_equal. lia.
Qed.

(** After [process_buffer] asks for more: everything buffered is incomplete. *)
Definition waiting (s : tcp) : Prop :=
  tc_data s = [] \/
  (tc_skip s = 0 /\ 0 < tc_pkt s /\ zlen (tc_data s) < tc_pkt s) \/
  (tc_skip s = 0 /\ tc_pkt s = 0 /\ get_packet_size (tc_data s) = Some 0 /\ zlen (tc_data s) < win).

(** [s'] continues from [s]: same future deliveries. *)
Definition same_future (s : tcp) (hist : list rpkt) (s' : tcp) (hist' : list rpkt) : Prop :=
  forall more, bytes_ok more -> until_stop stop hist (ref (pend s more)) = until_stop stop hist' (ref (pend s' more)).

Lemma process_ok fuel : forall s hist, tinv s -> stop hist = false -> (Z.to_nat (tc_tail s - tc_head s) < fuel)%nat ->
  exists s' hist' more, process_loop fuel max stop s hist = Some (s', hist', more) /\ tinv s' /\
    same_future s hist s' hist' /\
    (forall e, bytes_ok e -> headers_fit max win (pend s e) -> more = true -> headers_fit max win (pend s' e)) /\
    (more = true -> stop hist' = false /\ waiting s') /\ (more = false -> stop hist' = true).
Proof.
  pose proof win_eq as Hw.
  induction fuel as [|fuel IH]; intros s hist I Hns Hf; [lia|]. cbn [process_loop].
  pose proof (tinv_data s I) as [HDl HDb]. pose proof I as [].
  destruct (Z.ltb_spec (tc_head s) (tc_tail s)) as [Hlt|Hge]; cbn [negb].
  2: { exists s, hist, true. split; [reflexivity|]. split; [exact I|]. split; [intros e He; reflexivity|]. split; [auto|]. split; [|discriminate].
       intros _. split; [exact Hns|]. left. destruct (tc_data s); [reflexivity|]. rewrite zlen_cons in HDl. pose proof (zlen_nonneg l). lia. }
  (* Continue with the induction hypothesis from s2 with an equal future. *)
  assert (Cont : forall s2 hist2, tinv s2 -> stop hist2 = false -> tc_head s < tc_head s2 -> tc_tail s2 = tc_tail s ->
            same_future s hist s2 hist2 -> (forall e, bytes_ok e -> headers_fit max win (pend s e) -> headers_fit max win (pend s2 e)) ->
            exists s' hist' more, process_loop fuel max stop s2 hist2 = Some (s', hist', more) /\ tinv s' /\
              same_future s hist s' hist' /\
              (forall e, bytes_ok e -> headers_fit max win (pend s e) -> more = true -> headers_fit max win (pend s' e)) /\
              (more = true -> stop hist' = false /\ waiting s') /\ (more = false -> stop hist' = true)).
  { intros s2 hist2 I2 Hns2 Hh Ht HF HX. pose proof I2 as [? ? Hhd ? ? ? ? ?].
    destruct (IH s2 hist2 I2 Hns2) as (s' & hist' & more & A & B & C & D & E & F); [lia|].
    exists s', hist', more. split; [exact A|]. split; [exact B|]. split; [intros e He; rewrite (HF e He); now apply C|]. split; [|split; assumption].
    intros e He Hx. apply D; [exact He|]. now apply HX. }
  (* The rest of the body for a state with a known packet size. *)
  assert (Body : forall s1, tinv s1 -> 0 < tc_pkt s1 -> tc_head s1 = tc_head s -> tc_tail s1 = tc_tail s -> same_future s hist s1 hist ->
            (forall e, bytes_ok e -> headers_fit max win (pend s e) -> headers_fit max win (pend s1 e)) ->
            exists s' hist' more,
              match skip_bytes s1 with
              | (s2, true) => Some (s2, hist, true)
              | (s2, false) =>
                if tc_pkt s2 =? 0 then process_loop fuel max stop s2 hist
                else if tc_tail s2 - tc_head s2 <? tc_pkt s2 then Some (s2, hist, true)
                else match parse_packet s2 with
                     | None => None
                     | Some (s3, []) => process_loop fuel max stop s3 hist
                     | Some (s3, ps) => if stop (hist ++ ps) then Some (s3, hist ++ ps, false) else process_loop fuel max stop s3 (hist ++ ps)
                     end
              end = Some (s', hist', more) /\ tinv s' /\
              same_future s hist s' hist' /\
              (forall e, bytes_ok e -> headers_fit max win (pend s e) -> more = true -> headers_fit max win (pend s' e)) /\
              (more = true -> stop hist' = false /\ waiting s') /\ (more = false -> stop hist' = true)).
  { clear ti_len0 ti_bytes0 ti_tail0 ti_pktnn0 ti_skipnn0 ti_skip0 ti_pkt0 ti_head0.
    intros s1 I1 Hp Eh Et HF HX. pose proof (tinv_data s1 I1) as [HDl1 HDb1]. pose proof I1 as [].
    unfold skip_bytes. destruct (Z.eqb_spec (tc_skip s1) 0) as [Hs|Hs].
    - destruct (Z.eqb_spec (tc_pkt s1) 0); [lia|]. destruct (ti_pkt0 Hp Hs) as [HP HM].
      destruct (Z.ltb_spec (tc_tail s1 - tc_head s1) (tc_pkt s1)) as [HT|HT].
      + exists s1, hist, true. split; [reflexivity|]. split; [exact I1|]. split; [exact HF|]. split; [auto|]. split; [|discriminate].
        intros _. split; [exact Hns|]. right. left. split; [exact Hs|]. split; [exact Hp|]. lia.
      + (* a whole packet *)
        unfold parse_packet. rewrite (tinv_in_buffer s1 I1). rewrite (proj2 (Z.ltb_lt _ _) Hp), (proj2 (Z.leb_le _ _) HT). cbn [andb negb].
        set (d := slice (tc_buf s1) (tc_head s1) (tc_pkt s1)).
        assert (Hd : forall e, slice (tc_data s1 ++ e) 0 (tc_pkt s1) = d).
        { intro e. rewrite slice_app_l by lia. unfold tc_data, d. rewrite slice_slice by lia. now rewrite Z.add_0_r. }
        assert (Hdl : zlen d = tc_pkt s1) by (unfold d; apply zlen_slice; lia).
        set (s3 := {| tc_buf := tc_buf s1; tc_head := tc_head s1 + tc_pkt s1; tc_tail := tc_tail s1; tc_pkt := 0; tc_skip := tc_skip s1 |}).
        assert (I3 : tinv s3) by (constructor; cbn; try assumption; try lia).
        assert (Hpd : forall e, pend s3 e = zskip (tc_pkt s1) (tc_data s1 ++ e)).
        { intro e. unfold pend, s3, zskip, tc_data. cbn [tc_skip tc_buf tc_head tc_tail]. rewrite Hs. change (Z.to_nat 0) with 0%nat. rewrite skipn_O.
          rewrite skipn_app. rewrite skipn_slice by lia. f_equal; [f_equal; lia|].
          replace (Z.to_nat (tc_pkt s1) - length (slice (tc_buf s1) (tc_head s1) (tc_tail s1 - tc_head s1)))%nat with 0%nat; [reflexivity|].
          unfold tc_data, zlen in HDl1. lia. }
        assert (Hps : forall e, pend s1 e = tc_data s1 ++ e) by (intro e; unfold pend, zskip; rewrite Hs; reflexivity).
        assert (Hst : forall e, ref_step max win (tc_data s1 ++ e) = Some (whole_packet d, pend s3 e)).
        { intro e. rewrite (ref_step_app max win (tc_data s1) e (tc_pkt s1)) by (assumption || lia).
          destruct (Z.ltb_spec (tc_pkt s1) 0); [lia|]. destruct (Z.ltb_spec max (tc_pkt s1)); [lia|].
          destruct (Z.ltb_spec (zlen (tc_data s1 ++ e)) (tc_pkt s1)) as [X|X]; [rewrite zlen_app in X; pose proof (zlen_nonneg e); lia|].
          now rewrite Hd, Hpd. }
        assert (Href : forall e, ref (pend s1 e) = whole_packet d ++ ref (pend s3 e)).
        { intro e. rewrite Hps, (stream_packets_step max win Hmax Hw), Hst. reflexivity. }
        assert (Hfit : forall e, bytes_ok e -> headers_fit max win (pend s e) -> headers_fit max win (pend s3 e)).
        { intros e He Hx. apply (HX e He) in Hx. rewrite Hps in Hx. apply (headers_fit_step max win Hmax Hw) in Hx as [_ Hx]. now rewrite Hst in Hx. }
        assert (Hnone : whole_packet d = [] -> exists s' hist' more, process_loop fuel max stop s3 hist = Some (s', hist', more) /\ tinv s' /\
              same_future s hist s' hist' /\
              (forall e, bytes_ok e -> headers_fit max win (pend s e) -> more = true -> headers_fit max win (pend s' e)) /\
              (more = true -> stop hist' = false /\ waiting s') /\ (more = false -> stop hist' = true)).
        { intro HW. apply Cont; [exact I3|exact Hns|cbn; lia|exact Et| |exact Hfit].
          intros e He. rewrite (HF e He), Href, HW. reflexivity. }
        destruct (decode_packet d) as [| |h size] eqn:ED.
        * exfalso. eapply decode_packet_no_oob; [|exact ED]. unfold d. now apply bytes_ok_slice.
        * apply Hnone. unfold whole_packet. now rewrite ED.
        * destruct (Z.eqb_spec size (tc_pkt s1)) as [Hsz|Hsz].
          2: { apply Hnone. unfold whole_packet. rewrite ED, Hdl. now rewrite (proj2 (Z.eqb_neq _ _) Hsz). }
          assert (HW : whole_packet d = [rpkt_of d h]) by (unfold whole_packet; rewrite ED, Hdl, (proj2 (Z.eqb_eq _ _) Hsz); reflexivity).
          assert (HF3 : same_future s hist s3 (hist ++ [rpkt_of d h])).
          { intros e He. rewrite (HF e He), Href, HW. cbn [app until_stop]. now rewrite Hns. }
          destruct (stop (hist ++ [rpkt_of d h])) eqn:ES.
          { exists s3, (hist ++ [rpkt_of d h]), false. split; [reflexivity|]. split; [exact I3|]. split; [exact HF3|]. split; [discriminate|]. split; [discriminate|auto]. }
          { apply Cont; [exact I3|exact ES|cbn; lia|exact Et|exact HF3|exact Hfit]. }
    - destruct (Z.eqb_spec (tc_tail s1) (tc_head s1)); [lia|].
      set (diff := Z.min (tc_tail s1 - tc_head s1) (tc_skip s1)). set (sk := tc_skip s1 - diff).
      set (s2 := {| tc_buf := tc_buf s1; tc_head := tc_head s1 + diff; tc_tail := tc_tail s1; tc_pkt := if sk =? 0 then 0 else tc_pkt s1; tc_skip := sk |}).
      assert (Hdf : 0 < diff <= tc_tail s1 - tc_head s1) by lia.
      assert (Hpd : forall e, pend s2 e = pend s1 e).
      { intro e. unfold pend, s2, zskip, tc_data. cbn [tc_skip tc_buf tc_head tc_tail].
        set (dd := slice (tc_buf s1) (tc_head s1) (tc_tail s1 - tc_head s1)).
        replace (slice (tc_buf s1) (tc_head s1 + diff) (tc_tail s1 - (tc_head s1 + diff))) with (skipn (Z.to_nat diff) dd) by (unfold dd; rewrite skipn_slice by lia; f_equal; lia).
        assert (Hdd : zlen dd = tc_tail s1 - tc_head s1) by exact HDl1.
        replace (skipn (Z.to_nat diff) dd ++ e) with (skipn (Z.to_nat diff) (dd ++ e)).
        - rewrite skipn_skipn'. f_equal. lia.
        - rewrite skipn_app. replace (Z.to_nat diff - length dd)%nat with 0%nat by (unfold zlen in Hdd; lia). reflexivity. }
      assert (I2 : tinv s2).
      { constructor; cbn [s2 tc_buf tc_head tc_tail tc_pkt tc_skip]; try assumption; try lia; destruct (Z.eqb_spec sk 0); lia. }
      assert (HF2 : same_future s hist s2 hist) by (intros e He; rewrite (HF e He), Hpd; reflexivity).
      assert (HX2 : forall e, bytes_ok e -> headers_fit max win (pend s e) -> headers_fit max win (pend s2 e)) by (intros e He Hx; rewrite Hpd; auto).
      destruct (Z.ltb_spec 0 sk) as [H0|H0].
      + exists s2, hist, true. split; [reflexivity|]. split; [exact I2|]. split; [exact HF2|]. split; [auto|]. split; [|discriminate].
        intros _. split; [exact Hns|]. left. pose proof (tinv_data s2 I2) as [X _]. cbn [s2 tc_tail tc_head] in X.
        destruct (tc_data s2) as [|z l]; [reflexivity|]. rewrite zlen_cons in X. pose proof (zlen_nonneg l). lia.
      + assert (E0 : sk = 0) by lia. assert (Ep2 : tc_pkt s2 = 0) by (cbn [s2 tc_pkt]; rewrite E0; reflexivity). rewrite Ep2. cbn [Z.eqb].
        apply Cont; [exact I2|exact Hns|cbn [s2 tc_head]; lia|exact Et|exact HF2|exact HX2]. }
  unfold parse_packet_size. destruct (Z.ltb_spec 0 (tc_pkt s)) as [Hp|Hp].
  - apply Body; auto. intros e He. reflexivity.
  - rewrite (tinv_in_buffer s I). cbn [negb]. assert (Hp0 : tc_pkt s = 0) by lia. assert (Hs0 : tc_skip s = 0) by lia.
    assert (Hps : forall e, pend s e = tc_data s ++ e) by (intro e; unfold pend, zskip; rewrite Hs0; reflexivity).
    destruct (get_packet_size (tc_data s)) as [r|] eqn:EP; [|exfalso; exact (get_packet_size_no_oob _ HDb EP)].
    destruct (Z.eqb_spec r (-1)) as [->|Hr1].
    { (* malformed header *)
      pose proof (probe_neg _ _ EP ltac:(lia)) as H8.
      set (s1 := set_head s (tc_head s + 8)). unfold skip_bytes. change (tc_skip s1) with (tc_skip s). rewrite Hs0. cbn [Z.eqb]. change (tc_pkt s1) with (tc_pkt s). rewrite Hp0. cbn [Z.eqb].
      assert (I1 : tinv s1) by (constructor; cbn [s1 set_head tc_buf tc_head tc_tail tc_pkt tc_skip]; try assumption; try lia).
      assert (Hp1 : forall e, pend s1 e = zskip 8 (tc_data s ++ e)).
      { intro e. unfold pend, s1, zskip, tc_data. cbn [set_head tc_skip tc_buf tc_head tc_tail]. rewrite Hs0. change (Z.to_nat 0) with 0%nat. rewrite skipn_O.
        rewrite skipn_app, skipn_slice by lia. f_equal; [f_equal; lia|].
        replace (Z.to_nat 8 - length (slice (tc_buf s) (tc_head s) (tc_tail s - tc_head s)))%nat with 0%nat; [reflexivity|].
        unfold tc_data, zlen in HDl, H8. lia. }
      assert (Hst : forall e, ref_step max win (tc_data s ++ e) = Some ([], pend s1 e)).
      { intro e. rewrite (ref_step_app max win (tc_data s) e (-1)) by (assumption || lia). cbn [Z.ltb]. now rewrite Hp1. }
      apply Cont; [exact I1|exact Hns|cbn [s1 set_head tc_head]; lia|reflexivity| |].
      - intros e He. rewrite Hps, (stream_packets_step max win Hmax Hw), Hst. reflexivity.
      - intros e He Hx. rewrite Hps in Hx. apply (headers_fit_step max win Hmax Hw) in Hx as [_ Hx]. now rewrite Hst in Hx. }
    destruct (Z.eqb_spec r 0) as [->|Hr0].
    { destruct (Z.eqb_spec (tc_tail s - tc_head s) win) as [Hb|Hb].
      - (* discard the whole buffer *)
        set (s1 := set_head s (tc_tail s)). unfold skip_bytes. change (tc_skip s1) with (tc_skip s). rewrite Hs0. cbn [Z.eqb]. change (tc_pkt s1) with (tc_pkt s). rewrite Hp0. cbn [Z.eqb].
        assert (I1 : tinv s1) by (constructor; cbn [s1 set_head tc_buf tc_head tc_tail tc_pkt tc_skip]; try assumption; try lia).
        assert (Hp1 : forall e, pend s1 e = zskip win (tc_data s ++ e)).
        { intro e. unfold pend, s1, zskip. cbn [set_head tc_skip]. rewrite Hs0. change (Z.to_nat 0) with 0%nat. rewrite skipn_O.
          rewrite skipn_app. rewrite (skipn_all2 (tc_data s)) by (unfold zlen in HDl; lia).
          replace (Z.to_nat win - length (tc_data s))%nat with 0%nat by (unfold zlen in HDl; lia). rewrite skipn_O. f_equal.
          unfold tc_data. cbn [tc_buf tc_head tc_tail set_head]. replace (tc_tail s - tc_tail s) with 0 by lia. apply slice_zero. }
        assert (Hst : forall e, ref_step max win (tc_data s ++ e) = Some ([], pend s1 e)).
        { intro e. unfold ref_step. rewrite (slice_app_win win (tc_data s) e) by lia. replace (win - zlen (tc_data s)) with 0 by lia. rewrite slice_zero, app_nil_r, EP. cbn [Z.eqb].
          destruct (Z.leb_spec win (zlen (tc_data s ++ e))) as [X|X]; [now rewrite Hp1|]. rewrite zlen_app in X. pose proof (zlen_nonneg e). lia. }
        apply Cont; [exact I1|exact Hns|cbn [s1 set_head tc_head]; lia|reflexivity| |].
        + intros e He. rewrite Hps, (stream_packets_step max win Hmax Hw), Hst. reflexivity.
        + intros e He Hx. rewrite Hps in Hx. apply (headers_fit_step max win Hmax Hw) in Hx as [_ Hx]. now rewrite Hst in Hx.
      - exists s, hist, true. split; [reflexivity|]. split; [exact I|]. split; [intros e He; reflexivity|]. split; [auto|]. split; [|discriminate].
        intros _. split; [exact Hns|]. right. right. split; [exact Hs0|]. split; [exact Hp0|]. split; [exact EP|]. lia. }
    assert (Hrp : 0 < r).
    { destruct (probe_cases _ _ HDb EP) as [?|[?|?]]; [contradiction|contradiction|assumption]. }
    set (s1 := {| tc_buf := tc_buf s; tc_head := tc_head s; tc_tail := tc_tail s; tc_pkt := r; tc_skip := if max <? r then r else tc_skip s |}).
    assert (I1 : tinv s1).
    { constructor; cbn [s1 tc_buf tc_head tc_tail tc_pkt tc_skip]; try assumption; try lia; destruct (Z.ltb_spec max r); try lia.
      intros _ Hx. split; [exact EP|lia]. }
    assert (Hst : max < r -> forall e, ref_step max win (tc_data s ++ e) = Some ([], pend s1 e)).
    { intros Hx e. rewrite (ref_step_app max win (tc_data s) e r) by (assumption || lia).
      destruct (Z.ltb_spec r 0); [lia|]. destruct (Z.ltb_spec max r); [|lia]. unfold pend, s1. cbn [tc_skip].
      destruct (Z.ltb_spec max r); [reflexivity|lia]. }
    assert (Hsm : r <= max -> forall e, pend s1 e = pend s e).
    { intros Hx e. unfold pend, s1. cbn [tc_skip]. destruct (Z.ltb_spec max r); [lia|]. reflexivity. }
    apply Body; [exact I1|exact Hrp|reflexivity|reflexivity| |].
    + intros e He. destruct (Z.ltb_spec max r) as [Hx|Hx].
      * rewrite Hps, (stream_packets_step max win Hmax Hw), Hst by exact Hx. reflexivity.
      * now rewrite Hsm.
    + intros e He Hx. destruct (Z.ltb_spec max r) as [Hy|Hy].
      * rewrite Hps in Hx. apply (headers_fit_step max win Hmax Hw) in Hx as [_ Hx]. now rewrite Hst in Hx.
      * now rewrite Hsm.
Qed.

(** * Whole runs *)
Lemma enqueue_ok s : tinv s -> exists s', enqueue_receive max s = Some s' /\ tinv s' /\ tc_data s' = tc_data s /\
  tc_pkt s' = tc_pkt s /\ tc_skip s' = tc_skip s /\ tc_head s' <= win / 2.
Proof.
  intro I. pose proof (tinv_data s I) as [HDl HDb]. pose proof I as []. pose proof win_eq as Hw. unfold enqueue_receive.
  rewrite (proj2 (Z.leb_le (tc_head s) (tc_tail s))), (proj2 (Z.leb_le 0 (tc_head s))), (proj2 (Z.leb_le (tc_tail s) (zlen (tc_buf s)))) by lia. cbn [andb negb].
  pose proof (Z.div_mod win 2 ltac:(lia)) as HM. pose proof (Z.mod_pos_bound win 2 ltac:(lia)).
  destruct (Z.ltb_spec (win / 2) (tc_head s)) as [Hh|Hh].
  2: { exists s. auto 10. }
  destruct (Z.ltb_spec (tc_head s) (tc_tail s - tc_head s)); [lia|].
  set (len := tc_tail s - tc_head s) in *.
  assert (HD' : forall rest, slice (tc_data s ++ rest) 0 (len - 0) = tc_data s).
  { intro rest. rewrite Z.sub_0_r. rewrite slice_app_l by lia. apply slice_0_all. lia. }
  eexists. split; [reflexivity|]. split; [|split; [|cbn [tc_pkt tc_skip tc_head]; split; [reflexivity|split; [reflexivity|lia]]]].
  - constructor; cbn [tc_buf tc_head tc_tail tc_pkt tc_skip]; try assumption; try lia.
    + rewrite zlen_app, HDl, zlen_slice by lia. lia.
    + apply bytes_ok_app. split; [assumption|]. now apply bytes_ok_slice.
    + unfold tc_data at 1. cbn [tc_buf tc_head tc_tail]. rewrite HD'. assumption.
  - unfold tc_data at 1. cbn [tc_buf tc_head tc_tail]. apply HD'.
Qed.
Lemma store_ok s chunk : tinv s -> bytes_ok chunk -> zlen chunk <= room max s -> waiting s ->
  exists s', store_chunk s chunk = Some s' /\ tinv s' /\ tc_data s' = tc_data s ++ chunk /\ tc_skip s' = tc_skip s.
Proof.
  intros I Hc Hr HW. pose proof (tinv_data s I) as [HDl HDb]. pose proof I as []. unfold room in Hr. unfold store_chunk. pose proof (zlen_nonneg chunk).
  rewrite (proj2 (Z.leb_le 0 (tc_tail s))), (proj2 (Z.leb_le (tc_tail s + zlen chunk) (zlen (tc_buf s)))) by lia. cbn [andb].
  eexists. split; [reflexivity|].
  match goal with |- tinv ?x /\ _ => set (s' := x) end.
  assert (HD : tc_data s' = tc_data s ++ chunk).
  { unfold tc_data, s'. cbn [tc_buf tc_head tc_tail]. set (rest := slice (tc_buf s) (tc_tail s + zlen chunk) _).
    assert (HL : zlen (slice (tc_buf s) 0 (tc_tail s)) = tc_tail s) by (apply zlen_slice; lia).
    replace (tc_tail s + zlen chunk - tc_head s) with ((tc_tail s - tc_head s) + zlen chunk) by lia.
    rewrite slice_split by lia. replace (tc_head s + (tc_tail s - tc_head s)) with (tc_tail s) by lia. f_equal.
    - rewrite slice_app_l by lia. rewrite slice_slice by lia. f_equal. 
    - rewrite slice_app_r by lia. rewrite HL, Z.sub_diag. rewrite slice_app_l by lia. apply slice_full. }
  split; [|split; [exact HD|reflexivity]].
  constructor; unfold s'; cbn [tc_buf tc_head tc_tail tc_pkt tc_skip]; try assumption; try lia.
  - rewrite !zlen_app, !zlen_slice by lia. lia.
  - rewrite !bytes_ok_app. split; [now apply bytes_ok_slice|]. split; [assumption|now apply bytes_ok_slice].
  - intros Hp Hs. destruct (ti_pkt0 Hp Hs) as [A B]. split; [|exact B]. fold s'. rewrite HD. apply get_packet_size_app; [assumption|lia|exact A].
Qed.

(** The state between receives. *)
Record rinv (bytes : list Z) (t : treader) : Prop := {
  ri_bytes : bytes_ok bytes;
  ri_tcp : tinv (tr_tcp t);
  ri_active : tr_active t = true -> waiting (tr_tcp t) /\ tc_head (tr_tcp t) <= win / 2;
  ri_future : forall more, bytes_ok more -> until_stop stop [] (ref (bytes ++ more)) = until_stop stop (tr_hist t) (ref (pend (tr_tcp t) more));
  ri_fits : tr_active t = true -> forall more, bytes_ok more -> headers_fit max win (bytes ++ more) -> headers_fit max win (pend (tr_tcp t) more);
  ri_stop : tr_active t = false -> stop (tr_hist t) = true
}.
Lemma start_ok fill : zlen fill = win -> bytes_ok fill -> exists t, reader_start max fill = Some t /\ rinv [] t.
Proof.
  intros Hl Hb. pose proof win_eq as Hw. assert (I : tinv (tcp_new max fill)) by (constructor; cbn; try assumption; try lia).
  destruct (enqueue_ok _ I) as (s' & E & I' & D & P & S & H). unfold reader_start. rewrite E. eexists. split; [reflexivity|].
  assert (D0 : tc_data s' = []). { rewrite D. unfold tc_data, tcp_new. cbn [tc_buf tc_head tc_tail]. apply slice_zero. }
  assert (HP : forall e, pend s' e = e). { intro e. unfold pend, zskip. rewrite S, D0. reflexivity. }
  constructor; cbn [tr_tcp tr_hist tr_active].
  - constructor.
  - exact I'.
  - intros _. split; [left; exact D0|exact H].
  - intros e _. rewrite HP. reflexivity.
  - intros _ e _ Hx. now rewrite HP.
  - discriminate.
Qed.
Lemma receive_ok bytes t chunk : rinv bytes t -> may_receive max t chunk ->
  exists t', receive max stop t chunk = Some t' /\ rinv (bytes ++ chunk) t'.
Proof.
  intros [] (Ha & Hb & Hr & _). destruct (ri_active0 Ha) as [HW Hh]. destruct (store_ok _ chunk ri_tcp0 Hb Hr HW) as (s & E & I & D & S).
  assert (HP : forall e, pend s e = pend (tr_tcp t) (chunk ++ e)) by (intro e; unfold pend; rewrite D, S, <- app_assoc; reflexivity).
  unfold receive. rewrite E. destruct (stop (tr_hist t)) eqn:Es.
  - eexists. split; [reflexivity|]. constructor; cbn [tr_tcp tr_hist tr_active]; auto; try discriminate.
    + now apply bytes_ok_app.
    + intros e He. rewrite <- app_assoc. rewrite ri_future0 by now apply bytes_ok_app. now rewrite !until_stop_stopped.
  - destruct (process_ok (Datatypes.S (Z.to_nat (tc_tail s - tc_head s))) s (tr_hist t) I Es ltac:(lia)) as (s1 & hist & more & A & B & C & F & G & K).
    unfold process_buffer. rewrite A. destruct more.
    + destruct (enqueue_ok _ B) as (s2 & E2 & I2 & D2 & P2 & S2 & H2). rewrite E2. eexists. split; [reflexivity|].
      assert (HP2 : forall e, pend s2 e = pend s1 e) by (intro e; unfold pend; now rewrite D2, S2).
      destruct (G eq_refl) as [G1 G2].
      constructor; cbn [tr_tcp tr_hist tr_active]; auto; try discriminate.
      * now apply bytes_ok_app.
      * intros _. split; [|exact H2]. unfold waiting in *. now rewrite D2, S2, P2.
      * intros e He. rewrite <- app_assoc, HP2. rewrite ri_future0 by now apply bytes_ok_app. rewrite <- HP. now apply C.
      * intros _ e He Hx. rewrite HP2. apply F; [exact He| |reflexivity]. rewrite HP. apply ri_fits0; [exact Ha|now apply bytes_ok_app|]. now rewrite app_assoc.
    + eexists. split; [reflexivity|]. constructor; cbn [tr_tcp tr_hist tr_active]; auto; try discriminate.
      * now apply bytes_ok_app.
      * intros e He. rewrite <- app_assoc. rewrite ri_future0 by now apply bytes_ok_app. rewrite <- HP. now apply C.
Qed.
Lemma reach_ok fill bytes t : zlen fill = win -> bytes_ok fill -> tcp_reach max fill stop bytes t -> rinv bytes t.
Proof.
  intros Hl Hb H. induction H as [t HS|bytes t chunk t' _ IH HM HR].
  - destruct (start_ok fill Hl Hb) as (t0 & E & I). congruence.
  - destruct (receive_ok bytes t chunk IH HM) as (t0 & E & I). congruence.
Qed.
(** A waiting reader has delivered everything that is complete. *)
Lemma waiting_done s : tinv s -> waiting s -> ref (pend s []) = [].
Proof.
  intros I HW. pose proof (tinv_data s I) as [HDl HDb]. pose proof win_eq as Hw. unfold pend. rewrite app_nil_r. destruct HW as [HW|[(HS & HP & HL)|(HS & HP & HG & HL)]].
  - rewrite HW. unfold zskip. rewrite skipn_nil. apply (stream_packets_nil max win Hmax Hw).
  - unfold zskip. rewrite HS. change (skipn (Z.to_nat 0) (tc_data s)) with (tc_data s). destruct I. destruct (ti_pkt0 HP HS) as [A B].
    rewrite (stream_packets_step max win Hmax Hw). rewrite <- (app_nil_r (tc_data s)). rewrite (ref_step_app max win _ [] (tc_pkt s)) by (assumption || lia).
    rewrite app_nil_r. destruct (Z.ltb_spec (tc_pkt s) 0); [lia|]. destruct (Z.ltb_spec max (tc_pkt s)); [lia|]. destruct (Z.ltb_spec (zlen (tc_data s)) (tc_pkt s)); [reflexivity|lia].
  - unfold zskip. rewrite HS. change (skipn (Z.to_nat 0) (tc_data s)) with (tc_data s). rewrite (stream_packets_step max win Hmax Hw). unfold ref_step.
    rewrite slice_0_all by lia. rewrite HG. cbn [Z.eqb]. destruct (Z.leb_spec win (zlen (tc_data s))); [lia|reflexivity].
Qed.
Lemma waiting_room t bytes : rinv bytes t -> tr_active t = true -> headers_fit max win bytes -> 0 < room max (tr_tcp t).
Proof.
  intros [] Ha HF. destruct (ri_active0 Ha) as [HW Hh]. pose proof ri_tcp0 as []. pose proof (tinv_data _ ri_tcp0) as [HDl HDb]. pose proof win_eq as Hw.
  specialize (ri_fits0 Ha []). rewrite app_nil_r in ri_fits0. specialize (ri_fits0 ltac:(constructor) HF).
  unfold room. destruct (Z.ltb_spec 0 (win - tc_tail (tr_tcp t))) as [|X]; [assumption|exfalso].
  pose proof (Z.div_mod win 2 ltac:(lia)) as HM. pose proof (Z.mod_pos_bound win 2 ltac:(lia)).
  destruct HW as [HW|[(HS & HP & HL)|(HS & HP & HG & HL)]].
  - rewrite HW, zlen_nil in HDl. lia.
  - destruct (ti_pkt0 HP HS) as [A B]. lia.
  - unfold pend, zskip in ri_fits0. rewrite HS, app_nil_r in ri_fits0. change (skipn (Z.to_nat 0) (tc_data (tr_tcp t))) with (tc_data (tr_tcp t)) in ri_fits0.
    apply (headers_fit_step max win Hmax Hw) in ri_fits0 as [Q _]. apply (get_packet_size_zero_iff _ HDb) in HG as [HG|(hab & n & HA & HG)]; [lia|]. specialize (Q _ _ HA). lia.
Qed.
End Reader.
