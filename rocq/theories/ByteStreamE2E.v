(** C66, continued: from the queue of a sender through a byte stream to a TCP
    reader, and what happens after a write that failed. *)
From Coq Require Import ZArith List Bool Lia Arith Permutation.
From Verif Require Import Base ConcBase PacketSpec RecvPacketModel RecvPacketProps SendPacketModel SendSpec SendPacketProofs SendProps LiveHeapModel E2EProofs E2EProps StreamE2EProofs
  TcpModel TcpSpec TcpProofs TcpProps
  SendStreamModel SendStreamSpec SendStreamProps SendStreamProofs4 SendStreamFaults ByteStreamModel ByteStreamSpec ByteStreamProofs ByteStreamProps.
Import ListNotations.
Open Scope Z_scope.

(** A prefix of a concatenation of packets. *)
Lemma prefix_of_packets max : forall ds d0 k, Forall (tcp_packet max) ds -> tcp_packet max d0 ->
  exists j d' k', firstn k (concat ds) = concat (firstn j ds) ++ firstn k' d' /\ tcp_packet max d' /\ (k' < length d')%nat /\ ((length (concat ds) <= k)%nat -> firstn j ds = ds).
Proof.
  assert (L0 : forall d, tcp_packet max d -> (0 < length d)%nat) by (intros d H; destruct (tcp_packet_facts max d H) as (_ & _ & L & _); unfold zlen in L; lia).
  induction ds as [|d ds IH]; intros d0 k F H0; cbn [concat].
  - exists O, d0, O. rewrite firstn_nil. repeat split; auto.
  - inversion F as [|? ? F1 F2]; subst. destruct (le_lt_dec (length d) k) as [L|L].
    + destruct (IH d0 (k - length d)%nat F2 H0) as (j & d' & k' & E & H1 & H2 & H3). exists (S j), d', k'. rewrite firstn_app, (firstn_all2 d) by lia. cbn [firstn concat]. rewrite E, <- app_assoc.
      repeat split; auto. rewrite app_length. intro G. f_equal. apply H3. lia.
    + exists O, d, k. rewrite firstn_app. replace (k - length d)%nat with O by lia. cbn [firstn concat app]. rewrite app_nil_r. repeat split; auto. rewrite app_length. lia.
Qed.
Lemma no_bytes max fill stop t : 0 < max -> zlen fill = 64 * max -> bytes_ok fill -> (forall h, stop h = false) -> tcp_reach max fill stop [] t -> tr_hist t = [].
Proof.
  intros Hm Hl Hb Hs H. rewrite (C28_segmentation _ _ _ _ _ Hm Hl Hb H). assert (E : stream_packets max (64 * max) [] = []).
  { unfold stream_packets. cbn [length packets_in]. unfold slice. rewrite skipn_nil, firstn_nil. change (get_packet_size []) with (Some 0). cbn [Z.eqb]. destruct (64 * max <=? zlen (@nil Z)); reflexivity. }
  rewrite E. cbn [until_stop]. now rewrite Hs.
Qed.

Section Delivery.
Variables (kind : bkind) (wire : pkt -> list Z * list (list Z)) (connecting : bool) (size nsub : Z) (n : nat).
Hypothesis Hsize : 1 <= size <= 2 ^ 63.

(** If no write fails, a TCP reader that receives what is on the wire, cut up in
    any way and as far as it has come, delivers exactly the packets of the
    accepted requests in order, up to some point; when the sender is idle and
    everything has arrived, all of them. *)
Theorem C66_delivered_partial b log : b_reach kind wire connecting size nsub n b log -> clean (sevs log) -> Forall (fun w => snd w = 0) (writes (sevs log)) ->
  forall max fill stop k t, let ds := map (wbytes wire) (map fst (to_send (sevs log))) in
  Forall (tcp_packet max) ds -> 0 < max -> zlen fill = 64 * max -> bytes_ok fill -> (forall h, stop h = false) ->
  tcp_reach max fill stop (firstn k (on_wire log)) t ->
  exists j, map Some (tr_hist t) = map decode_rpkt (firstn j ds) /\
    (b_pc b = BIdle -> s_need (b_s b) = true -> (length (on_wire log) <= k)%nat -> firstn j ds = ds).
Proof.
  intros R C F max fill stop k t ds HD Hm Hl Hb Hs HT. destruct (C66_stream_partial kind wire connecting size nsub n Hsize b log R C F) as (more & E & EQ). fold ds in E.
  destruct ds as [|d0 ds'] eqn:Eds.
  - exists O. cbn [firstn map]. split; [|auto]. cbn [concat] in E. symmetry in E. apply app_eq_nil in E as [E _]. rewrite E, firstn_nil in HT. now rewrite (no_bytes _ _ _ _ Hm Hl Hb Hs HT).
  - rewrite <- Eds in *. assert (H0 : tcp_packet max d0) by (rewrite Eds in HD; now inversion HD).
    assert (K : firstn k (on_wire log) = firstn (Nat.min k (length (on_wire log))) (concat ds)).
    { rewrite E, firstn_app. replace (Nat.min k (length (on_wire log)) - length (on_wire log))%nat with O by lia. cbn [firstn]. rewrite app_nil_r. destruct (le_lt_dec k (length (on_wire log))).
      - now rewrite Nat.min_l by lia.
      - rewrite Nat.min_r by lia. now rewrite firstn_all2, firstn_all by lia. }
    destruct (prefix_of_packets max ds d0 (Nat.min k (length (on_wire log))) HD H0) as (j & d' & k' & E1 & H1 & H2 & H3). exists j. rewrite K, E1 in HT.
    split; [|intros I N L; apply H3; rewrite E, (EQ I N), app_nil_r; lia].
    eapply (C28_packets max fill stop (firstn j ds) d' k' t); eauto. apply Forall_forall. intros x Hx. rewrite Forall_forall in HD. apply HD. rewrite <- (firstn_skipn j ds). apply in_or_app. auto.
Qed.

(** The packets of every heap are those that the packet generator makes of a heap
    with the cnt given to it (C04 - C06). *)
Definition made_by_generator (max : Z) (tr : list sev) : Prop :=
  forall id mode hs h cnt, In (EAccept id mode hs) tr -> In (h, cnt) hs ->
  exists hab items rep mps c pks, accepted hab items rep cnt mps c /\ packets_of c pks /\ count_fits c /\ no_interleave c /\
    0 <= cnt < 2 ^ hab /\ g_psize c < 2 ^ hab /\ Forall (fun it => 4 < item_id it) items /\ mps <= max /\
    map (wbytes wire) (h_pkts h) = map packet_bytes pks.
Lemma in_to_send : forall tr p sub, In (p, sub) (to_send tr) -> exists id mode hs h cnt, In (EAccept id mode hs) tr /\ In (h, cnt) hs /\ In p (h_pkts h).
Proof.
  induction tr as [|e tr IH]; intros p sub H; [destruct H|]. assert (K : In (p, sub) (to_send tr) -> exists id mode hs h cnt, In (EAccept id mode hs) (e :: tr) /\ In (h, cnt) hs /\ In p (h_pkts h)).
  { intro G. destruct (IH p sub G) as (id & mode & hs & h & cnt & A & B & D). exists id, mode, hs, h, cnt. split; [right; exact A|auto]. }
  destruct e; cbn [to_send] in H; try (now apply K). apply in_app_or in H as [H|H]; [|now apply K]. exists id, mode, hs.
  apply (Permutation_in _ (group_order_perm mode _)) in H. apply in_concat in H as (l & H1 & H2). apply in_map_iff in H1 as ([h cnt] & <- & H1). cbn [fst] in H2. unfold heap_packets in H2.
  apply in_map_iff in H2 as (q & E & H2). injection E as -> _. exists h, cnt. split; [left; reflexivity|auto].
Qed.
Theorem C66_heaps_delivered_partial b log : b_reach kind wire connecting size nsub n b log -> clean (sevs log) -> Forall (fun w => snd w = 0) (writes (sevs log)) ->
  forall max fill stop k t, made_by_generator max (sevs log) -> 0 < max -> zlen fill = 64 * max -> bytes_ok fill -> (forall h, stop h = false) ->
  tcp_reach max fill stop (firstn k (on_wire log)) t ->
  exists j, map Some (tr_hist t) = map decode_rpkt (firstn j (map (wbytes wire) (map fst (to_send (sevs log))))) /\
    (b_pc b = BIdle -> s_need (b_s b) = true -> (length (on_wire log) <= k)%nat -> length (tr_hist t) = length (to_send (sevs log))).
Proof.
  intros R C F max fill stop k t G Hm Hl Hb Hs HT. assert (HD : Forall (tcp_packet max) (map (wbytes wire) (map fst (to_send (sevs log))))).
  { apply Forall_forall. intros x Hx. apply in_map_iff in Hx as (p & <- & Hx). apply in_map_iff in Hx as ([p' sub] & E & Hx). cbn [fst] in E. subst p'.
    destruct (in_to_send _ _ _ Hx) as (id & mode & hs & h & cnt & A & B & D). destruct (G _ _ _ _ _ A B) as (hab & items & rep & mps & c & pks & G1 & G2 & G3 & G4 & G5 & G6 & G7 & G8 & G9).
    pose proof (C28_sender hab items rep cnt mps c pks max G1 G2 G3 G4 G5 G6 G7 G8) as FT. apply (in_map (wbytes wire)) in D. rewrite G9 in D. apply in_map_iff in D as (pk & <- & D).
    rewrite Forall_forall in FT. auto. }
  destruct (C66_delivered_partial b log R C F max fill stop k t HD Hm Hl Hb Hs HT) as (j & E & K). exists j. split; [exact E|]. intros I N L.
  rewrite (K I N L) in E. apply (f_equal (@length _)) in E. now rewrite !map_length in E.
Qed.
End Delivery.
Print Assumptions C66_delivered_partial.
Print Assumptions C66_heaps_delivered_partial.

(** *** Examples *)
(** The two packets of the heap [ex_items] of SendProps; each is a header and one
    piece of payload. *)
Definition exb (i : nat) : list Z := nth i (map packet_bytes (run_pkts 48 ex_items 72)) [].
Definition ex_wire (p : pkt) : list Z * list (list Z) :=
  if p_id p =? 1 then (firstn 40 (exb 0), [skipn 40 (exb 0)]) else (firstn 24 (exb 1), [skipn 24 (exb 1)]).
Definition ex_heap : heap_ref := {| h_pkts := [pk 1; pk 2]; h_hab := 48; h_cnt := 9; h_sub := 0 |}.
Definition ex_rq (id : Z) : request := {| rq_id := id; rq_mode := Serial; rq_single := true; rq_heaps := [ex_heap] |}.
(** A stream that is still connecting is given two heaps; then the connection
    comes up and everything is sent. *)
Definition ex_blabels : list blabel :=
  [BUser (LSend 0 (ex_rq 20)); BUser (LUser 0); BUser (LUser 0); BWake; BGet false; BUser (LSend 0 (ex_rq 21)); BPut 72 0; BUser (LUser 0); BGroups; BDone;
   BGet false; BPut 65 0; BGroups; BNext; BNext; BUser (LUser 0); BDone;
   BGet false; BPut 72 0; BGroups; BDone; BGet false; BPut 65 0; BGroups; BNext; BNext; BDone; BGet false; BGroups; BDone].
Definition ex_brun : bst * list bev := match b_run Tcp ex_wire (b_new true 4 1 1) ex_blabels with Some r => r | None => (b_new true 4 1 1, []) end.
Definition ex_blog : list bev := snd ex_brun.
Definition ex_fill : list Z := repeat 0 4608.
Lemma ex_fill_ok : zlen ex_fill = 64 * 72 /\ bytes_ok ex_fill.
Proof. split; [vm_compute; reflexivity|]. apply Forall_forall. intros x Hx. apply repeat_spec in Hx. subst x. unfold byte_ok. lia. Qed.
Definition accepts (tr : list sev) : list (list (heap_ref * Z)) := flat_map (fun e => match e with EAccept _ _ hs => [hs] | _ => [] end) tr.
Lemma in_accepts tr id mode hs : In (EAccept id mode hs) tr -> In hs (accepts tr).
Proof. intro H. apply in_flat_map. exists (EAccept id mode hs). split; [exact H|now left]. Qed.
Lemma ex_reach : b_reach Tcp ex_wire true 4 1 1 (fst ex_brun) ex_blog.
Proof. exists ex_blabels. vm_compute. reflexivity. Qed.
Lemma ex_generator : made_by_generator ex_wire 72 (sevs ex_blog).
Proof.
  assert (E : forall id mode hs, In (EAccept id mode hs) (sevs ex_blog) -> hs = [(ex_heap, 9)]).
  { intros id mode hs H. apply in_accepts in H. assert (A : accepts (sevs ex_blog) = [[(ex_heap, 9)]; [(ex_heap, 9)]]) by (vm_compute; reflexivity). rewrite A in H. destruct H as [<-|[<-|[]]]; reflexivity. }
  intros id mode hs h cnt H1 H2. rewrite (E _ _ _ H1) in H2. destruct H2 as [H2|[]]. injection H2 as <- <-. destruct C07_ex as (c & A & B & Cf & D & G & F & _).
  exists 48, ex_items, false, 72, c, (run_pkts 48 ex_items 72). split; [exact A|]. split; [exact B|]. split; [exact Cf|]. split; [exact D|]. split; [lia|]. split; [exact G|].
  split; [eapply Forall_impl; [|exact F]; intros x [Hx _]; exact Hx|]. split; [lia|]. vm_compute. reflexivity.
Qed.
(** All hypotheses of the theorems above are met: both heaps are reported with
    their 137 bytes, the writer is idle, and a reader that gets the bytes in two
    portions delivers four packets. *)
Example C66_example : exists t,
  b_reach Tcp ex_wire true 4 1 1 (fst ex_brun) ex_blog /\ clean (sevs ex_blog) /\ Forall (fun w => snd w = 0) (writes (sevs ex_blog)) /\
  dones (sevs ex_blog) = [(20, 0, 137); (21, 0, 137)] /\ b_pc (fst ex_brun) = BIdle /\ s_need (b_s (fst ex_brun)) = true /\
  on_wire ex_blog = exb 0 ++ exb 1 ++ exb 0 ++ exb 1 /\ made_by_generator ex_wire 72 (sevs ex_blog) /\
  tcp_reach 72 ex_fill (fun _ => false) (firstn 300 (on_wire ex_blog)) t /\ length (tr_hist t) = 4%nat.
Proof.
  destruct ex_fill_ok as [Fl Fb]. set (t0 := match reader_start 72 ex_fill with Some t => t | None => {| tr_tcp := tcp_new 72 []; tr_hist := []; tr_active := false |} end).
  set (c1 := firstn 100 (on_wire ex_blog)). set (c2 := skipn 100 (on_wire ex_blog)).
  set (t1 := match receive 72 (fun _ => false) t0 c1 with Some t => t | None => t0 end). set (t2 := match receive 72 (fun _ => false) t1 c2 with Some t => t | None => t0 end).
  assert (B : bytes_ok (on_wire ex_blog)) by (apply Forall_forall; intros x Hx; assert (G : forallb (fun x => (0 <=? x) && (x <? 256)) (on_wire ex_blog) = true) by (vm_compute; reflexivity); rewrite forallb_forall in G; specialize (G x Hx); unfold byte_ok; lia).
  assert (B12 : bytes_ok c1 /\ bytes_ok c2) by (rewrite <- (firstn_skipn 100 (on_wire ex_blog)) in B; apply Forall_app in B; exact B). destruct B12 as [B1 B2].
  assert (R0 : tcp_reach 72 ex_fill (fun _ => false) [] t0) by (constructor; vm_compute; reflexivity).
  assert (R1 : tcp_reach 72 ex_fill (fun _ => false) ([] ++ c1) t1).
  { econstructor; [exact R0| |vm_compute; reflexivity]. split; [vm_compute; reflexivity|]. split; [exact B1|]. split; [vm_compute; discriminate|]. intro E. vm_compute in E. discriminate E. }
  assert (R2 : tcp_reach 72 ex_fill (fun _ => false) (([] ++ c1) ++ c2) t2).
  { econstructor; [exact R1| |vm_compute; reflexivity]. split; [vm_compute; reflexivity|]. split; [exact B2|]. split; [vm_compute; discriminate|]. intro E. vm_compute in E. discriminate E. }
  exists t2. split; [apply ex_reach|]. split; [apply cleanb_ok; vm_compute; reflexivity|]. split; [vm_compute; repeat constructor|]. split; [vm_compute; reflexivity|]. split; [vm_compute; reflexivity|].
  split; [vm_compute; reflexivity|]. split; [vm_compute; reflexivity|]. split; [apply ex_generator|]. split; [|vm_compute; reflexivity].
  replace (firstn 300 (on_wire ex_blog)) with (([] ++ c1) ++ c2); [exact R2|]. vm_compute. reflexivity.
Qed.

(** The code goes on with the next packet after a write that failed, and nothing
    marks the point in the stream.  Here a streambuf takes only 66 of the 72
    bytes of the first packet of request 20, and everything afterwards.  Request
    20 is reported with an error; request 21 is reported as sent, whole.  Every
    TCP reader that gets these bytes delivers one packet only, which was never
    sent: it has the header of the first packet and a payload that ends with the
    start of the header of the second. *)
Definition ex_short_labels : list blabel :=
  [BUser (LSend 0 (ex_rq 20)); BUser (LUser 0); BUser (LUser 0); BUser (LUser 0); BUser (LSend 0 (ex_rq 21)); BUser (LUser 0); BUser (LUser 0);
   BWake; BGet false; BPut 40 0; BPut 26 0; BGet false; BPut 24 0; BPut 41 0; BGet false; BPut 40 0; BPut 32 0; BGet false; BPut 24 0; BPut 41 0; BGet false; BGroups; BNext; BNext; BNext; BDone].
Definition ex_short : bst * list bev := match b_run Streambuf ex_wire (b_new false 4 1 1) ex_short_labels with Some r => r | None => (b_new false 4 1 1, []) end.
Theorem C66_misframed_refuted : exists wire b log,
  b_reach Streambuf wire false 4 1 1 b log /\ clean (sevs log) /\ b_pc b = BIdle /\ s_need (b_s b) = true /\
  made_by_generator wire 72 (sevs log) /\ dones (sevs log) = [(20, err_eof, 131); (21, 0, 137)] /\
  forall fill t, zlen fill = 64 * 72 -> bytes_ok fill -> tcp_reach 72 fill (fun _ => false) (on_wire log) t ->
    length (tr_hist t) = 1%nat /\ forall p r, In p (map fst (to_send (sevs log))) -> decode_rpkt (wbytes wire p) = Some r -> ~ In r (tr_hist t).
Proof.
  exists ex_wire, (fst ex_short), (snd ex_short). split; [exists ex_short_labels; vm_compute; reflexivity|]. split; [apply cleanb_ok; vm_compute; reflexivity|]. split; [vm_compute; reflexivity|]. split; [vm_compute; reflexivity|].
  split; [|split; [vm_compute; reflexivity|]].
  - assert (E : forall id mode hs, In (EAccept id mode hs) (sevs (snd ex_short)) -> hs = [(ex_heap, 9)]).
    { intros id mode hs H. apply in_accepts in H. assert (A : accepts (sevs (snd ex_short)) = [[(ex_heap, 9)]; [(ex_heap, 9)]]) by (vm_compute; reflexivity). rewrite A in H. destruct H as [<-|[<-|[]]]; reflexivity. }
    intros id mode hs h cnt H1 H2. rewrite (E _ _ _ H1) in H2. destruct H2 as [H2|[]]. injection H2 as <- <-. destruct C07_ex as (c & A & B & Cf & D & G & F & _).
    exists 48, ex_items, false, 72, c, (run_pkts 48 ex_items 72). split; [exact A|]. split; [exact B|]. split; [exact Cf|]. split; [exact D|]. split; [lia|]. split; [exact G|].
    split; [eapply Forall_impl; [|exact F]; intros x [Hx _]; exact Hx|]. split; [lia|]. vm_compute. reflexivity.
  - intros fill t Fl Fb H. rewrite (C28_segmentation 72 fill (fun _ => false) _ t ltac:(lia) Fl Fb H). clear H.
    assert (E : until_stop (fun _ => false) [] (stream_packets 72 (64 * 72) (on_wire (snd ex_short))) =
      [{| rp_hab := 48; rp_cnt := 9; rp_hlen := 25; rp_off := 0; rp_plen := 8; rp_ptrs := match stream_packets 72 (64 * 72) (on_wire (snd ex_short)) with r :: _ => rp_ptrs r | [] => [] end; rp_payload := [10; 11; 83; 4; 2; 6; 0; 0] |}]) by (vm_compute; reflexivity).
    rewrite E. split; [reflexivity|]. intros p r Hp Hd [<-|[]]. apply (f_equal (option_map rp_payload)) in Hd. cbn [option_map rp_payload] in Hd.
    assert (G : forallb (fun p => match option_map rp_payload (decode_rpkt (wbytes ex_wire p)) with Some l => negb (nth 2 l 0 =? 83) | None => true end) (map fst (to_send (sevs (snd ex_short)))) = true) by (vm_compute; reflexivity).
    rewrite forallb_forall in G. specialize (G p Hp). rewrite Hd in G. discriminate G.
Qed.
Print Assumptions C66_misframed_refuted.
