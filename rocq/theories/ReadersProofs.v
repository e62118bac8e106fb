(** Proofs about the readers of whole packets: each handler is one batch. *)
From Coq Require Import ZArith List Bool Arith Lia.
From Verif Require InprocProofs.
From Verif Require Import Base CodecModel PacketSpec RecvPacketModel RecvPacketProofs RecvPacketProps LiveHeapModel LiveHeapSpec LiveHeapProofs LiveHeapProps StreamModel StreamSpec StreamProofs StreamInvProofs StreamRunProofs StreamProps RawModel RawSpec RawProps GsoModel GsoSpec GsoProps E2EProofs ReadersModel ReadersSpec.
Import ListNotations.
Open Scope Z_scope.

(** ** Adding packets as batch_packets does *)
Definition feed (sc : sconfig) (x : work) (ps : list rpkt) : option work :=
  match batch_packets sc (k_s x) (k_b x) ps with
  | None => None
  | Some (s, b, rs) => Some {| k_s := s; k_b := b; k_rs := k_rs x ++ rs |}
  end.
Lemma feed_nil sc x : feed sc x [] = Some x.
Proof. unfold feed. cbn [batch_packets]. rewrite app_nil_r. now destruct x. Qed.
Lemma feed_stopped sc x ps : is_stopped x = true -> feed sc x ps = Some x.
Proof. intro H. destruct ps as [|p ps]; [apply feed_nil|]. unfold feed. cbn [batch_packets]. unfold is_stopped in H. rewrite H, app_nil_r. now destruct x. Qed.
Lemma feed_cons sc x p ps : is_stopped x = false -> feed sc x (p :: ps) = match add sc x p with None => None | Some x' => feed sc x' ps end.
Proof.
  intro H. unfold feed, add. rewrite H. cbn [batch_packets]. unfold is_stopped in H. rewrite H. destruct (stream_add_packet sc (k_s x) (k_b x) p) as [[[s b] r]|]; [|reflexivity]. cbn [k_s k_b k_rs].
  destruct (batch_packets sc s b ps) as [[[s2 b2] rs]|]; [|reflexivity]. now rewrite <- app_assoc.
Qed.
Lemma feed_app sc : forall ps qs x, feed sc x (ps ++ qs) = match feed sc x ps with None => None | Some x' => feed sc x' qs end.
Proof.
  induction ps as [|p ps IH]; intros qs x; [now rewrite feed_nil|]. cbn [app]. destruct (is_stopped x) eqn:E.
  - now rewrite !feed_stopped by assumption.
  - rewrite !feed_cons by assumption. destruct (add sc x p); [apply IH|reflexivity].
Qed.
Definition with_flag (o : option work) : option (work * bool) := option_map (fun x => (x, is_stopped x)) o.

Lemma process_feed sc x d max : bytes_ok d -> is_stopped x = false -> process_one_packet sc x d max = with_flag (feed sc x (whole max d)).
Proof.
  intros B N. unfold process_one_packet, whole. rewrite (andb_comm (zlen d <=? max)). destruct (_ && _); [|rewrite feed_nil; cbn [with_flag option_map]; now rewrite N].
  pose proof (proj1 (C02_no_out_of_bounds_read d B)) as NO. destruct (decode_packet d) as [| |h z]; [congruence| |]; [rewrite feed_nil; cbn [with_flag option_map]; now rewrite N|].
  destruct (z =? zlen d); [|rewrite feed_nil; cbn [with_flag option_map]; now rewrite N]. rewrite feed_cons by assumption. destruct (add sc x _) as [x'|]; [|reflexivity]. now rewrite feed_nil.
Qed.
Lemma whole_decoded max d : bytes_ok d -> Forall decoded (whole max d).
Proof. intro B. unfold whole. destruct (_ && _); [|constructor]. destruct (decode_packet d) as [| |h z] eqn:E; try constructor. destruct (z =? zlen d); constructor; [exists d, h, z; auto|constructor]. Qed.
Lemma bytes_ok_concat ds : Forall bytes_ok ds -> bytes_ok (concat ds).
Proof. induction 1; [constructor|]. cbn [concat]. now apply bytes_ok_app. Qed.

(** ** The handlers *)
Lemma batch_not_stopped sc s rs0 ps s1 b1 rs : reachable sc s rs0 -> Forall decoded ps -> st_stopped s = false -> batch_packets sc s (batch_new s) ps = Some (s1, b1, rs) -> st_stopped s1 = false.
Proof.
  intros R D N B. assert (M : mid_batch sc s1 b1) by (exists s, rs0, ps, rs; auto). destruct (mid_sim _ _ _ M) as (_ & a & n & S & Ha). pose proof (rf_stopped _ _ _ (proj1 S)) as H1. congruence.
Qed.
(** A handler that adds the packets [ps] and then, if [eof], stops the stream *)
Definition finish (eof : bool) (x : work) : work := if eof then set_stop x else x.
Lemma end_batch sc s rs0 ps eof : reachable sc s rs0 -> Forall decoded ps -> st_stopped s = false ->
  match feed sc {| k_s := s; k_b := batch_new s; k_rs := [] |} ps with
  | None => None
  | Some x => match batch_end sc (k_s (finish eof x)) (k_b (finish eof x)) with None => None | Some s' => Some (s', k_rs (finish eof x), negb (is_stopped (finish eof x))) end
  end = match do_batch sc s ps eof with None => None | Some (s', rs) => Some (s', rs, negb (st_stopped s')) end.
Proof.
  intros R D N. unfold do_batch. rewrite N. unfold feed. cbn [k_s k_b k_rs app]. destruct (batch_packets sc s (batch_new s) ps) as [[[s1 b1] rs]|] eqn:B; [|reflexivity].
  pose proof (batch_not_stopped _ _ _ _ _ _ _ R D N B) as N1.
  set (b2 := {| ba_packets := ba_packets b1; ba_complete := ba_complete b1; ba_evicted := ba_evicted b1; ba_single := ba_single b1; ba_dist := ba_dist b1; ba_stopped := ba_stopped b1 || eof |}).
  assert (E : finish eof {| k_s := s1; k_b := b1; k_rs := rs |} = {| k_s := s1; k_b := b2; k_rs := rs |}).
  { unfold b2. destruct eof; cbn [finish]; [unfold set_stop; cbn [k_s k_b k_rs]; now rewrite orb_true_r|]. rewrite orb_false_r. now destruct b1. }
  rewrite E. cbn [k_s k_b k_rs is_stopped]. unfold is_stopped. cbn [k_b]. clearbody b2. clear E. unfold batch_end. destruct (ba_stopped b2) eqn:S.
  - unfold stop_received. destruct (flush_unlocked sc (set_stopped s1 true)) as [s2|] eqn:F; [|reflexivity]. apply InprocProofs.flush_keeps in F. cbn [set_stopped st_stopped] in F. destruct (_ && _); cbn [set_stats st_stopped]; now rewrite F.
  - rewrite andb_false_r. cbn [set_stats st_stopped]. now rewrite N1.
Qed.
Definition handled (r : option (stream * list bool)) : option (stream * list bool * bool) := match r with None => None | Some (s', rs) => Some (s', rs, negb (st_stopped s')) end.
Lemma bound_feed sc s rs0 f ps eof : reachable sc s rs0 -> Forall decoded ps -> (forall x, is_stopped x = false -> f x = option_map (finish eof) (feed sc x ps)) ->
  bound_handler sc s f = handled (do_batch sc s ps eof).
Proof.
  intros R D H. unfold bound_handler, handled. destruct (st_stopped s) eqn:N; [unfold do_batch; rewrite N, N; reflexivity|]. rewrite H by exact N. rewrite <- (end_batch sc s rs0 ps eof R D N).
  destruct (feed _ _ _); reflexivity.
Qed.

(** *** UDP *)
Section Udp.
Context (sc : sconfig) (gro : bool) (max : Z).
Lemma seg_feed seg m : bytes_ok m -> 0 < seg -> forall fuel offset x, 0 <= offset -> zlen m - offset <= Z.of_nat fuel ->
  seg_loop sc max fuel seg offset m x (is_stopped x) = with_flag (feed sc x (flat_map (whole max) (gro_pieces fuel seg offset m))).
Proof.
  intros B G. induction fuel as [|f IH]; intros offset x O F.
  - cbn [seg_loop gro_pieces flat_map]. destruct (Z.ltb_spec offset (zlen m)); [lia|]. cbn [andb]. now rewrite feed_nil.
  - cbn [seg_loop gro_pieces]. destruct (Z.ltb_spec offset (zlen m)); cbn [andb flat_map]; [|now rewrite feed_nil]. destruct (is_stopped x) eqn:N; cbn [negb].
    + rewrite feed_stopped by exact N. cbn [with_flag option_map]. now rewrite N.
    + rewrite process_feed by (trivial; now apply bytes_ok_slice). rewrite feed_app. destruct (feed sc x (whole max _)) as [x'|]; [|reflexivity]. cbn [with_flag option_map]. apply IH; lia.
Qed.
Lemma gro_fuel seg m : 0 < seg -> forall f1 f2 offset, zlen m - offset <= Z.of_nat f1 -> zlen m - offset <= Z.of_nat f2 -> gro_pieces f1 seg offset m = gro_pieces f2 seg offset m.
Proof.
  intro G. induction f1 as [|f1 IH]; intros [|f2] o H1 H2; cbn [gro_pieces]; auto; destruct (Z.ltb_spec o (zlen m)); try reflexivity; try lia. f_equal. apply IH; lia.
Qed.
Lemma carries_feed m ds x : carries gro max m ds -> Forall bytes_ok ds -> is_stopped x = false ->
  (let seg := if gro then match m_seg m with Some g => g | None => -1 end else -1 in
   if 0 <? seg then seg_loop sc max (S (length (m_data m))) seg 0 (m_data m) x false else process_one_packet sc x (m_data m) max) = with_flag (feed sc x (flat_map (whole max) ds)).
Proof.
  intros C B N. destruct C as [d E|d E|seg ds E G C]; rewrite E; cbn [m_seg m_data].
  - inversion B as [|? ? Bd _]; subst. change (0 <? -1) with false. cbn [flat_map]. rewrite app_nil_r, process_feed by (trivial; now apply bytes_ok_slice). destruct (Z.le_gt_cases (zlen d) max) as [L|L].
    + rewrite Z.min_l by lia. now rewrite slice_full.
    + rewrite Z.min_r by lia. do 2 f_equal. unfold whole. destruct (Z.leb_spec (zlen d) max); [lia|]. rewrite andb_false_r. destruct (Z.lt_ge_cases max (-1)).
      * replace (slice d 0 (max + 1)) with (@nil Z); [reflexivity|]. unfold slice. now rewrite Z2Nat.inj_neg || (replace (Z.to_nat (max + 1)) with 0%nat by lia).
      * rewrite zlen_slice by (pose proof (zlen_nonneg d); lia). destruct (Z.leb_spec (max + 1) max); [lia|]. now rewrite andb_false_r.
  - inversion B as [|? ? Bd _]; subst. change (0 <? -1) with false. cbn [flat_map]. now rewrite app_nil_r, process_feed.
  - destruct (Z.ltb_spec 0 seg); [|lia]. rewrite <- N at 1. rewrite seg_feed; [|now apply bytes_ok_concat|exact G|lia|unfold zlen; lia]. do 4 f_equal.
    rewrite (gro_fuel seg (concat ds) G _ (length (concat ds))) by (unfold zlen; lia). pose proof (C54_gro seg ds G C) as X. unfold gro_split in X. destruct (Z.ltb_spec 0 seg); [exact X|lia].
Qed.
Lemma msgs_feed : forall ms dss x, Forall2 (carries gro max) ms dss -> Forall (Forall bytes_ok) dss -> msg_loop sc gro max ms x (is_stopped x) = with_flag (feed sc x (flat_map (whole max) (concat dss))).
Proof.
  induction ms as [|m ms IH]; intros dss x C B; inversion C as [|? ds ? dss' C1 C2]; subst; cbn [msg_loop concat flat_map]; [now rewrite feed_nil|]. inversion B as [|? ? B1 B2]; subst.
  destruct (is_stopped x) eqn:N; [rewrite feed_stopped by exact N; cbn [with_flag option_map]; now rewrite N|]. rewrite flat_map_app, feed_app. cbv zeta. pose proof (carries_feed m ds x C1 B1 N) as CF. cbv zeta in CF. rewrite CF. destruct (feed sc x _) as [x'|]; [|reflexivity]. cbn [with_flag option_map]. now apply IH.
Qed.
Lemma wholes_decoded dss : Forall (Forall bytes_ok) dss -> Forall decoded (flat_map (whole max) (concat dss)).
Proof.
  intro B. apply Forall_forall. intros p Hp. apply in_flat_map in Hp as (d & Hd & Hp). apply in_concat in Hd as (ds & Hds & Hd). rewrite Forall_forall in B. specialize (B ds Hds). rewrite Forall_forall in B. pose proof (whole_decoded max d (B d Hd)) as W. rewrite Forall_forall in W. auto.
Qed.
Lemma recv_batch s rs0 ms dss : reachable sc s rs0 -> Forall2 (carries gro max) ms dss -> Forall (Forall bytes_ok) dss ->
  udp_handler sc gro max (Some ms) s = handled (do_batch sc s (flat_map (whole max) (concat dss)) false).
Proof.
  intros R C B. unfold udp_handler. apply (bound_feed _ _ rs0); [exact R|now apply wholes_decoded|]. intros x N. pose proof (msgs_feed ms dss x C B) as M. rewrite N in M. rewrite M. destruct (feed sc x _); reflexivity.
Qed.
Lemma fail_batch s rs0 : reachable sc s rs0 -> udp_handler sc gro max None s = handled (do_batch sc s [] false).
Proof. intro R. unfold udp_handler. apply (bound_feed _ _ rs0); [exact R|constructor|]. intros x N. now rewrite feed_nil. Qed.
End Udp.

(** *** Capture files *)
Section Pcap.
Context (sc : sconfig) (k : link).
Lemma zlen_slice_le (l : list Z) a n : 0 <= a -> 0 <= n -> a + n <= zlen l -> zlen (slice l a n) = n.
Proof. intros. apply zlen_slice; lia. Qed.
Lemma frame_feed x bytes len ds : bytes_ok bytes -> 0 <= len -> entry_datagrams k (Frame bytes len) ds -> is_stopped x = false ->
  pcap_frame sc k x bytes len = feed sc x (flat_map any_size ds) /\ Forall bytes_ok ds.
Proof.
  intros B L E N. unfold pcap_frame. pose proof (bytes_ok_slice bytes 0 len B) as BF. destruct (Z.ltb_spec (zlen bytes) len) as [S|S].
  { destruct E as [(d & (H & _) & _)|(_ & ->)]; [lia|]. cbn [flat_map]. rewrite feed_nil. auto. }
  destruct (C39_parse k (slice bytes 0 len) BF) as (NF & P). destruct (udp_from k (slice bytes 0 len)) as [|e|[off n]] eqn:U; [congruence| |].
  - destruct E as [(d & (_ & off & n & H & _) & _)|(_ & ->)]; [apply P in H; discriminate|]. cbn [flat_map]. rewrite feed_nil. auto.
  - cbn [pb_off pb_len]. pose proof (C39_inside k _ _ BF U) as (I1 & I2 & I3). cbn [pb_off pb_len] in *. assert (UF : udp_frame k (slice bytes 0 len) off n) by now apply P.
    assert (ED : ds = [slice (slice bytes 0 len) off n]).
    { destruct E as [(d & (_ & off' & n' & H & ->) & ->)|(H & _)]; [|exfalso; apply (H (slice (slice bytes 0 len) off n)); split; [exact S|]; eauto]. apply P in H. injection H as <- <-. reflexivity. }
    subst ds. assert (BD : bytes_ok (slice (slice bytes 0 len) off n)) by now apply bytes_ok_slice. split; [|auto]. rewrite process_feed by assumption. cbn [flat_map]. rewrite app_nil_r. unfold any_size. rewrite zlen_slice by lia. destruct (feed _ _ _); reflexivity.
Qed.
Lemma entries_bytes file dss : Forall entry_ok file -> Forall2 (entry_datagrams k) file dss -> Forall (Forall bytes_ok) dss.
Proof.
  intros OK E. induction E as [|e ds file dss E1 E2 IH]; [constructor|]. inversion OK as [|? ? O1 O2]; subst. constructor; [|auto]. destruct e as [bytes len|]; [|destruct E1 as [(d & [] & _)|(_ & ->)]; constructor].
  destruct O1 as (P & Q). destruct E1 as [(d & (_ & off & n & _ & ->) & ->)|(_ & ->)]; constructor; auto. now apply bytes_ok_slice, bytes_ok_slice.
Qed.
Lemma finish_stopped e x : is_stopped x = true -> finish e x = x.
Proof. intro H. destruct e; [|reflexivity]. destruct x as [s [] rs]. unfold is_stopped in H. cbn in *. unfold finish, set_stop. cbn. now subst. Qed.
Lemma stopped_loop pass file x : is_stopped x = true -> pcap_loop sc k pass file x = Some (x, file).
Proof. intro H. destruct pass; cbn [pcap_loop]; [reflexivity|]. now rewrite H. Qed.
(** One call takes the first entries of the file, or all of them and stops. *)
Lemma loop_feed : forall pass file dss x, Forall entry_ok file -> Forall2 (entry_datagrams k) file dss ->
  exists file' : list entry, pcap_loop sc k pass file x = option_map (fun x' => (finish (length file <? pass)%nat x', file')) (feed sc x (flat_map any_size (concat (firstn pass dss)))) /\
                (forall x', feed sc x (flat_map any_size (concat (firstn pass dss))) = Some x' -> is_stopped x' = false -> file' = skipn pass file).
Proof.
  induction pass as [|pass IH]; intros file dss x OK E.
  { cbn [firstn concat flat_map skipn pcap_loop]. rewrite feed_nil. exists file. split; [reflexivity|auto]. }
  destruct (is_stopped x) eqn:N.
  { rewrite stopped_loop, feed_stopped by exact N. exists file. cbn [option_map]. rewrite finish_stopped by exact N. split; [reflexivity|]. intros x' H. injection H as <-. congruence. }
  cbn [pcap_loop]. rewrite N. destruct E as [|e ds file dss E1 E2].
  - cbn [firstn concat flat_map length skipn]. rewrite feed_nil. exists []. split; [|auto]. rewrite stopped_loop by reflexivity. reflexivity.
  - inversion OK as [|? ? O1 O2]; subst. cbn [firstn concat skipn length]. rewrite flat_map_app, feed_app. change (S (length file) <? S pass)%nat with (length file <? pass)%nat. destruct e as [bytes len|].
    + destruct O1 as (O1 & O3). destruct (frame_feed x bytes len ds O1 O3 E1 N) as (F & BD). rewrite F. destruct (feed sc x (flat_map any_size ds)) as [x1|] eqn:F1; [|exists []; split; [reflexivity|discriminate]]. apply IH; auto.
    + destruct E1 as [(d & [] & _)|(_ & ->)]. cbn [flat_map]. rewrite feed_nil. apply IH; auto.
Qed.
Lemma wholes_any dss : Forall (Forall bytes_ok) dss -> Forall decoded (flat_map any_size (concat dss)).
Proof.
  intro B. apply Forall_forall. intros p Hp. apply in_flat_map in Hp as (d & Hd & Hp). apply in_concat in Hd as (ds & Hds & Hd). rewrite Forall_forall in B. specialize (B ds Hds). rewrite Forall_forall in B. pose proof (whole_decoded (zlen d) d (B d Hd)) as W. rewrite Forall_forall in W. auto.
Qed.
Lemma Forall_take {A} (P : A -> Prop) n l : Forall P l -> Forall P (firstn n l).
Proof. intro H. rewrite <- (firstn_skipn n l) in H. apply Forall_app in H. tauto. Qed.
Lemma run_batch s rs0 file dss : reachable sc s rs0 -> st_stopped s = false -> Forall entry_ok file -> Forall2 (entry_datagrams k) file dss ->
  exists file', pcap_run sc k s file = match do_batch sc s (flat_map any_size (concat (firstn pcap_batch dss))) (length file <? pcap_batch)%nat with None => None | Some (s', rs) => Some (s', rs, negb (st_stopped s'), file') end /\
    (forall s' rs, do_batch sc s (flat_map any_size (concat (firstn pcap_batch dss))) (length file <? pcap_batch)%nat = Some (s', rs) -> st_stopped s' = false -> file' = skipn pcap_batch file).
Proof.
  intros R N OK E. unfold pcap_run. rewrite N. set (x := {| k_s := s; k_b := batch_new s; k_rs := [] |}). destruct (loop_feed pcap_batch file dss x OK E) as (file' & L & T). exists file'. rewrite L.
  assert (D : Forall decoded (flat_map any_size (concat (firstn pcap_batch dss)))) by (apply wholes_any, Forall_take, (entries_bytes _ _ OK E)).
  pose proof (end_batch sc s rs0 _ (length file <? pcap_batch)%nat R D N) as EB. fold x in EB. destruct (feed sc x _) as [x'|]; cbn [option_map].
  - split.
    + destruct (batch_end _ _ _); destruct (do_batch _ _ _ _) as [[? ?]|]; try discriminate; auto. now injection EB as -> -> ->.
    + intros s' rs D' N'. rewrite D', N' in EB. apply (T x' eq_refl). destruct (batch_end _ _ _); [|discriminate]. injection EB as _ _ EB. destruct (is_stopped x') eqn:X; [|reflexivity]. rewrite finish_stopped in EB by exact X. rewrite X in EB. discriminate.
  - split; [destruct (do_batch _ _ _ _) as [[? ?]|]; [discriminate|reflexivity]|]. intros s' rs D'. rewrite D' in EB. discriminate.
Qed.
End Pcap.

(** *** Memory *)
Lemma slice_app_tail (a b : list Z) : slice (a ++ b) (zlen a) (zlen (a ++ b) - zlen a) = b.
Proof.
  unfold slice, zlen. rewrite app_length, !Nat2Z.id. replace (Z.to_nat _) with (length b) by lia. rewrite skipn_app, skipn_all, Nat.sub_diag. cbn [app skipn]. apply firstn_all.
Qed.
Lemma decode_prefix d h size : bytes_ok d -> decode_packet d = Accept h size ->
  exists p r, d = p ++ r /\ zlen p = size /\ 0 < size /\ full p /\ any_size p = [rpkt_of d h].
Proof.
  intros B E. destruct (decode_packet_sound d h size B E) as (hab & ptrs & pay & cnt & hlen & off & PA & Eh & Es). pose proof (C02_wellformed_accepted _ _ _ _ _ _ _ PA) as (h1 & E1 & _ & _ & _ & _ & _ & P1 & Q1). rewrite E in E1. injection E1 as <- _.
  destruct (pa_bytes _ _ _ _ _ _ _ PA) as (rsv & r & Hr & D). set (p := wire_packet hab rsv ptrs pay) in *.
  assert (PB : packet_at p hab ptrs pay cnt hlen off). { destruct PA. constructor; auto. exists rsv, []. split; [exact Hr|]. now rewrite app_nil_r. }
  pose proof (C02_wellformed_accepted _ _ _ _ _ _ _ PB) as (h2 & E2 & _ & _ & _ & _ & _ & P2 & Q2). pose proof (decode_packet_complete _ _ _ _ _ _ _ PB) as E3. rewrite E2 in E3. injection E3 as E3. rewrite <- Eh in E3. subst h2. rewrite <- Es in E2.
  assert (L : zlen p = size) by (unfold p; rewrite zlen_wire; lia). assert (BP : bytes_ok p) by (rewrite D in B; apply bytes_ok_app in B; tauto). assert (0 < size) by (pose proof (zlen_nonneg ptrs); pose proof (zlen_nonneg pay); lia).
  exists p, r. split; [exact D|]. split; [exact L|]. split; [assumption|]. split; [split; [exact BP|exists h; now rewrite L]|].
  unfold any_size, whole. rewrite L, E2, Z.eqb_refl. destruct (Z.ltb_spec 0 size); [|lia]. destruct (Z.leb_spec size size); [|lia]. cbn [andb]. unfold rpkt_of. now rewrite P1, P2, Q1, Q2.
Qed.
Lemma full_size p : full p -> 0 < zlen p.
Proof. intros (B & h & E). destruct (decode_prefix p h _ B E) as (_ & _ & _ & _ & H & _). exact H. Qed.
Lemma full_prefix p r : full p -> bytes_ok r -> exists h, decode_packet (p ++ r) = Accept h (zlen p).
Proof.
  intros (B & h & E) Br. destruct (decode_packet_sound p h _ B E) as (hab & ptrs & pay & cnt & hlen & off & PA & Eh & Es). exists h. rewrite Eh, Es. apply decode_packet_complete.
  destruct PA. constructor; auto. destruct pa_bytes as (rsv & r' & Hr & D). exists rsv, (r' ++ r). split; [exact Hr|]. now rewrite D, app_assoc.
Qed.
Lemma reject_no_packet d : bytes_ok d -> (decode_packet d = Reject <-> no_packet_first d).
Proof.
  intro B. split.
  - intros E p r -> F. apply bytes_ok_app in B as (_ & Br). destruct (full_prefix p r F Br) as (h & E'). congruence.
  - intro N. destruct (decode_packet d) as [| |h size] eqn:E; [now apply C02_no_out_of_bounds_read in E|reflexivity|]. destruct (decode_prefix d h size B E) as (p & r & D & _ & _ & F & _). exfalso. exact (N p r D F).
Qed.
Lemma packets_in_exists : forall n d, (length d <= n)%nat -> bytes_ok d -> exists ds rest, packets_in d ds rest.
Proof.
  induction n as [|n IH]; intros d L B; (destruct (decode_packet d) as [| |h size] eqn:E; [now apply C02_no_out_of_bounds_read in E|exists [], d; split; [reflexivity|]; split; [constructor|]; now apply reject_no_packet|]); destruct (decode_prefix d h size B E) as (p & r & D & Lp & P & F & _);
    assert (length d = length p + length r)%nat by (rewrite D; apply app_length); unfold zlen in Lp; [lia|]. destruct (IH r) as (ds & rest & I1 & I2 & I3); [lia|rewrite D in B; apply bytes_ok_app in B; tauto|]. exists (p :: ds), rest. split; [cbn [concat]; now rewrite <- app_assoc, <- I1|]. split; [now constructor|exact I3].
Qed.
Lemma mem_feed sc : forall fuel pre ds rest x, (length (concat ds ++ rest) < fuel)%nat -> bytes_ok (concat ds ++ rest) -> Forall full ds -> no_packet_first rest ->
  exists pos, mem_loop sc fuel (pre ++ concat ds ++ rest) (zlen pre) x = option_map (fun x' => (x', pos)) (feed sc x (flat_map any_size ds)) /\
    (forall x', feed sc x (flat_map any_size ds) = Some x' -> is_stopped x' = false -> pos = zlen (pre ++ concat ds)).
Proof.
  induction fuel as [|fuel IH]; intros pre ds rest x Lt B F N; [lia|]. cbn [mem_loop]. destruct (is_stopped x) eqn:St.
  { rewrite andb_false_r. rewrite feed_stopped by exact St. exists (zlen pre). split; [reflexivity|]. intros x' E. injection E as <-. congruence. }
  cbn [negb]. rewrite andb_true_r. destruct ds as [|p ds].
  - cbn [concat app flat_map] in *. rewrite feed_nil, app_nil_r. exists (zlen pre). split; [|auto]. destruct (zlen pre <? zlen (pre ++ rest)); [|reflexivity]. rewrite slice_app_tail. apply reject_no_packet in N; [|exact B]. now rewrite N.
  - inversion F as [|? ? F1 F2]; subst. cbn [concat flat_map] in *. rewrite <- app_assoc in *. pose proof (full_size p F1) as P. rewrite zlen_app. destruct (Z.ltb_spec (zlen pre) (zlen pre + zlen (p ++ concat ds ++ rest))) as [_|X]; [|rewrite zlen_app in X; pose proof (zlen_nonneg (concat ds ++ rest)); lia].
    rewrite <- (zlen_app pre), slice_app_tail. destruct (full_prefix p (concat ds ++ rest) F1) as (h & E); [apply bytes_ok_app in B; tauto|]. rewrite E. destruct (Z.ltb_spec 0 (zlen p)); [|lia].
    assert (A : any_size p = [rpkt_of (p ++ concat ds ++ rest) h]).
    { destruct (decode_prefix _ _ _ B E) as (p' & r' & D & L & _ & _ & A). assert (p' = p); [|congruence]. apply (f_equal (firstn (length p))) in D. unfold zlen in L. rewrite !firstn_app in D. replace (length p' - length p)%nat with 0%nat in D by lia. replace (length p - length p)%nat with 0%nat in D by lia. replace (length p - length p')%nat with 0%nat in D by lia.
      cbn [firstn] in D. rewrite !app_nil_r, firstn_all in D. rewrite D. replace (length p) with (length p') by lia. now rewrite firstn_all. }
    rewrite feed_app, A, feed_cons by exact St. destruct (add sc x _) as [x1|]; [|exists 0; split; [reflexivity|discriminate]]. rewrite feed_nil. rewrite <- zlen_app. rewrite !(app_assoc pre p). apply IH; auto.
    + rewrite app_length in Lt. unfold zlen in P. lia.
    + apply bytes_ok_app in B. tauto.
Qed.
Lemma fulls_decoded ds : Forall full ds -> Forall decoded (flat_map any_size ds).
Proof.
  intro F. apply Forall_forall. intros q Hq. apply in_flat_map in Hq as (p & Hp & Hq). rewrite Forall_forall in F. pose proof (whole_decoded (zlen p) p (proj1 (F p Hp))) as W. rewrite Forall_forall in W. auto.
Qed.
Lemma mem_batch sc s rs0 d ds rest : reachable sc s rs0 -> bytes_ok d -> packets_in d ds rest -> mem_handler sc s d = handled (do_batch sc s (flat_map any_size ds) true).
Proof.
  intros R B (D & F & N). unfold mem_handler. apply (bound_feed _ _ rs0); [exact R|now apply fulls_decoded|]. intros x _. rewrite D in B |- *. destruct (mem_feed sc (S (length (concat ds ++ rest))) [] ds rest x ltac:(lia) B F N) as (pos & E & _). cbn [app] in E. change (zlen (@nil Z)) with 0 in E. rewrite E. destruct (feed sc x _); reflexivity.
Qed.
