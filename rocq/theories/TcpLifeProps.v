(** C76: a TCP stream from the connection to its end. *)
From Coq Require Import ZArith List Bool Arith Lia.
From Verif Require InprocProofs.
From Verif Require Import Base CodecModel PacketSpec RecvPacketModel RecvPacketProofs RecvPacketProps SendPacketModel SendSpec SendPacketProofs SendGenProofs SendProps
  LiveHeapModel LiveHeapSpec LiveHeapProofs LiveHeapProps RecvHeapModel RecvHeapProofs RecvHeapProps ReassembleProofs E2EProofs E2EProps
  StreamModel StreamSpec StreamProofs StreamInvProofs StreamRunProofs StreamProps StreamE2EProofs StreamE2EProps
  TcpModel TcpSpec TcpProofs TcpProps ReadersModel ReadersSpec ReadersProofs ReadersProps TcpLifeModel TcpLifeSpec TcpLifeProofs.
Import ListNotations.
Open Scope Z_scope.

Section Life.
Context (sc : sconfig) (max : Z) (fill : list Z).
Context (Cf : config_ok sc) (Hmax : 0 < max) (Hlen : zlen fill = 64 * max) (Hfill : bytes_ok fill).

(** Whatever arrives, in portions of any size, with errors, and with a user who stops or
    flushes the stream at any time: nothing is undefined; the stream gets, with each
    portion, the packets that this portion completes, once and in order; in all exactly
    the packets of the byte stream. *)
Theorem C76_tcp : forall ls, Forall (fun l => bytes_ok (chunk_of l)) ls ->
  life_run sc max ls (life_new sc max fill) <> LFault /\
  forall t, life_run sc max ls (life_new sc max fill) = LOk t ->
    run sc (stream_new sc) (tcp_ops max [] ls) = Some (l_stream t, l_rs t) /\ flat_map op_pkts (tcp_ops max [] ls) = stream_packets max (64 * max) (bytes_of ls).
Proof.
  intros ls H. destruct (life_ok sc max Cf Hmax fill Hlen Hfill ls H) as [A B]. split; [exact A|]. intros t E. destruct (B t E) as [[I1 _ _ _ _] S]. auto.
Qed.

(** The end of the connection ends the stream. *)
Theorem C76_eof : forall ls t, Forall (fun l => bytes_ok (chunk_of l)) ls ->
  life_run sc max (ls ++ [LAnswer AEof]) (life_new sc max fill) = LOk t -> st_stopped (l_stream t) = true.
Proof.
  intros ls t H E. rewrite life_run_snoc in E. destruct (life_run sc max ls _) as [| |t0] eqn:E0; try discriminate.
  destruct (life_ok sc max Cf Hmax fill Hlen Hfill ls H) as [_ B]. destruct (B _ E0) as [I _].
  destruct (life_step_ok sc max Cf Hmax fill Hlen Hfill _ _ _ (LAnswer AEof) I ltac:(constructor)) as [X|(t' & S & _ & X & _)]; [congruence|]. rewrite E in S. injection S as <-. auto.
Qed.

(** As long as the stream runs and there was no error, the reader waits for what it
    should wait for. *)
Theorem C76_waits : forall ls t, Forall (fun l => bytes_ok (chunk_of l)) ls -> Forall (fun l => is_error l = false) ls ->
  life_run sc max ls (life_new sc max fill) = LOk t -> st_stopped (l_stream t) = false ->
  l_phase t = if existsb (fun l => match l with LAccept _ => true | _ => false end) ls then PRecv else PAccept.
Proof.
  induction ls as [|l ls IH] using rev_ind; intros t H Er E N; [injection E as <-; reflexivity|].
  apply Forall_app in H as [H1 H2]. apply Forall_app in Er as [Er1 Er2]. inversion H2; inversion Er2; subst. rewrite life_run_snoc in E. destruct (life_run sc max ls _) as [| |t0] eqn:E0; try discriminate.
  destruct (life_ok sc max Cf Hmax fill Hlen Hfill ls H1) as [_ B]. destruct (B _ E0) as [I _].
  destruct (life_step_ok sc max Cf Hmax fill Hlen Hfill _ _ _ l I H3) as [X|(t' & S & _ & _ & _ & X)]; [congruence|]. rewrite E in S. injection S as <-. destruct (X N) as [N0 P].
  specialize (IH t0 H1 Er1 eq_refl N0). rewrite (P H7), existsb_app. cbn [existsb]. rewrite orb_false_r. destruct l as [ok|a|st].
  - now rewrite orb_true_r.
  - rewrite orb_false_r. cbn [life_step] in E. destruct (existsb _ ls); [reflexivity|]. rewrite IH in E. discriminate.
  - rewrite orb_false_r. exact IH.
Qed.

(** F9: an error other than the end of the connection (a connection that is reset, an
    error of accept) leaves the stream running without a reader: it never ends, unless
    the user stops it. *)
Theorem C76_error_refuted : forall ls l t ls2 t2,
  life_run sc max (ls ++ [l]) (life_new sc max fill) = LOk t -> is_error l = true -> st_stopped (l_stream t) = false ->
  Forall (fun l => l <> LUser true) ls2 -> life_run sc max ls2 t = LOk t2 ->
  st_stopped (l_stream t2) = false /\ l_phase t2 = PIdle /\ Forall (fun l => l = LUser false) ls2.
Proof.
  intros ls l t ls2 t2 E Er N Hu E2.
  assert (P : l_phase t = PIdle).
  { rewrite life_run_snoc in E. destruct (life_run sc max ls _) as [| |t0]; try discriminate.
    assert (G : forall f, (forall x, exists c, f x = Some (c, x, false)) -> life_handle sc max t0 f = LOk t -> l_phase t = PIdle).
    { intros f Hf X. unfold life_handle in X. destruct (st_stopped (l_stream t0)); [now injection X as <-|]. destruct (Hf {| k_s := l_stream t0; k_b := batch_new (l_stream t0); k_rs := [] |}) as (c & Hc).
      rewrite Hc in X. destruct (batch_end _ _ _); [|discriminate]. now injection X as <-. }
    destruct l as [[|]|[ | |]|st]; try discriminate Er; cbn [life_step] in E; destruct (l_phase t0); try discriminate.
    - eapply G; [|exact E]. intro x; eexists; reflexivity.
    - destruct (os_gives _ _ _); [|discriminate]. eapply G; [|exact E]. intro x; eexists; reflexivity. }
  clear E Er. revert t N P E2. induction Hu as [|u ls2 Hx Hu IH]; intros t N P E2; cbn [life_run] in E2; [injection E2 as <-; auto|].
  destruct (life_step sc max t u) as [| |t1] eqn:S; try discriminate. destruct u as [ok|a|[|]]; cbn [life_step] in S; rewrite ?P in S; try discriminate S; [congruence|].
  destruct (step sc (l_stream t) Flush) as [[s r]|] eqn:F; [|discriminate]. injection S as <-. cbn [step] in F. destruct (flush_unlocked sc (l_stream t)) as [s1|] eqn:F1; [|discriminate]. injection F as <- _.
  apply InprocProofs.flush_keeps in F1. match type of E2 with life_run _ _ _ ?x = _ => assert (N1 : st_stopped (l_stream x) = false) by (cbn [l_stream]; congruence); destruct (IH x N1 eq_refl E2) as (A & B & C) end. auto.
Qed.
End Life.
Print Assumptions C76_tcp.
Print Assumptions C76_eof.
Print Assumptions C76_waits.
Print Assumptions C76_error_refuted.

(** From the sender's heap to the receiver's: if the packets of the heap are on the wire,
    among others, whole and one after the other (C66), then the heap is received complete,
    whatever the portions in which the bytes arrive; a packet cut off by the end of the
    connection does not matter. *)
Lemma any_tcp max d r : tcp_packet max d -> decode_rpkt d = Some r -> any_size d = [r].
Proof.
  intros H E. destruct (tcp_packet_facts max d H) as (_ & _ & L & (r' & R1 & R2) & _). rewrite E in R1. injection R1 as <-. unfold any_size, whole. rewrite Z.leb_refl.
  destruct (Z.ltb_spec 0 (zlen d)); [|lia]. exact R2.
Qed.
Lemma any_packets max ds : forall l, Forall (tcp_packet max) ds -> map Some l = map decode_rpkt ds -> l = flat_map any_size ds.
Proof.
  induction ds as [|d ds IH]; intros l H E; destruct l as [|p l]; try discriminate; [reflexivity|]. inversion H; subst. cbn [map] in E. injection E as E1 E2. cbn [flat_map].
  rewrite (any_tcp max d p) by auto. cbn [app]. f_equal. auto.
Qed.
Definition session (chunks : list (list Z)) : list llabel := LAccept true :: map (fun c => LAnswer (AData c)) chunks ++ [LAnswer AEof].
Lemma session_bytes chunks : bytes_of (session chunks) = concat chunks.
Proof. unfold session, bytes_of. cbn [flat_map chunk_of app]. rewrite flat_map_app. cbn [flat_map chunk_of]. rewrite !app_nil_r, flat_map_concat_map, map_map. cbn [chunk_of]. now rewrite map_id. Qed.
Lemma session_ops max chunks : exists pss, tcp_ops max [] (session chunks) = until_eof pss [].
Proof.
  assert (G : forall got, exists pss, tcp_ops max got (map (fun c => LAnswer (AData c)) chunks ++ [LAnswer AEof]) = until_eof pss []).
  { induction chunks as [|c chunks IH]; intro got; cbn [map app tcp_ops]; [exists []; reflexivity|]. destruct (IH (got ++ chunk_of (LAnswer (AData c)))) as (pss & ->). eexists (_ :: pss). reflexivity. }
  destruct (G []) as (pss & E). exists ([] :: pss). unfold session. cbn [tcp_ops chunk_of app tcp_op]. rewrite E. reflexivity.
Qed.

Theorem C76_end_to_end : forall sc hab items rep cnt mps c pks max fill chunks ds d' k t,
  config_ok sc -> sc_allow_ooo sc = true -> sc_stop_item sc = false ->
  accepted hab items rep cnt mps c -> packets_of c pks -> count_fits c -> no_interleave c -> 0 <= cnt < 2 ^ hab -> g_psize c < 2 ^ hab ->
  Forall (fun it => 4 < item_id it /\ (addressed hab it = true -> item_data it <> [])) items ->
  0 < max -> zlen fill = 64 * max -> bytes_ok fill ->
  Forall (tcp_packet max) ds -> tcp_packet max d' -> (k < length d')%nat -> concat chunks = concat ds ++ firstn k d' ->
  all_there cnt pks ds -> life_run sc max (session chunks) (life_new sc max fill) = LOk t -> ReadersProps.room sc cnt (l_stream t) ->
  received hab items cnt (l_stream t) /\ st_stopped (l_stream t) = true.
Proof.
  intros sc hab items rep cnt mps c pks max fill chunks ds d' k t Cf Hooo Hstop HA HPk Hcf Hni Hcnt HL Hit Hmax Hlen Hfill Hds Hd' Hk EB HT E HR.
  assert (Bd : bytes_ok (concat chunks)).
  { rewrite EB. apply bytes_ok_app. split.
    - apply bytes_ok_concat. eapply Forall_impl; [|exact Hds]. intros d Hd. exact (proj1 (tcp_packet_facts max d Hd)).
    - pose proof (proj1 (tcp_packet_facts max d' Hd')) as B. unfold bytes_ok in *. rewrite <- (firstn_skipn k d') in B. apply Forall_app in B. tauto. }
  assert (Bc : Forall (fun l => bytes_ok (chunk_of l)) (session chunks)).
  { unfold session. constructor; [constructor|]. apply Forall_app. split; [|repeat constructor]. apply Forall_forall. intros l Hl. apply in_map_iff in Hl as (x & <- & Hx). cbn [chunk_of].
    unfold bytes_ok in *. rewrite Forall_forall in *. intros b Hb. apply Bd. apply in_concat. eauto. }
  destruct (C76_tcp sc max fill Cf Hmax Hlen Hfill (session chunks) Bc) as [_ G]. destruct (G t E) as [R S]. destruct (session_ops max chunks) as (pss & Eo). rewrite Eo in R, S.
  rewrite session_bytes, EB in S. rewrite (any_packets max ds _ Hds (proj1 (stream_of_packets max ds d' k Hmax Hds Hd' Hk))) in S.
  assert (Dec : Forall (Forall decoded) pss).
  { destruct (life_ok sc max Cf Hmax fill Hlen Hfill (session chunks) Bc) as [_ B]. destruct (B t E) as [[_ D _ _ _] _]. rewrite Eo in D. unfold until_eof in D. apply Forall_app in D as [D _].
    apply Forall_forall. intros l Hl. rewrite Forall_forall in D. exact (D (Batch l false) (in_map (fun l => Batch l false) _ _ Hl)). }
  split.
  - eapply (eof_receive sc hab items rep cnt mps c pks Cf Hooo Hstop HA HPk Hcf Hni Hcnt HL Hit ds pss [] _ _ Dec); [constructor|exact R| |exact HT|exact HR].
    rewrite <- S. unfold until_eof. rewrite flat_map_app. cbn [flat_map op_pkts]. rewrite !app_nil_r. clear. induction pss as [|l pss IH]; [reflexivity|]. cbn [map flat_map op_pkts concat]. now rewrite IH.
  - eapply (C76_eof sc max fill Cf Hmax Hlen Hfill (LAccept true :: map (fun c => LAnswer (AData c)) chunks)); [|exact E].
    unfold session in Bc. rewrite app_comm_cons in Bc. apply Forall_app in Bc. tauto.
Qed.
Print Assumptions C76_end_to_end.

(** The packets of the example heap in portions of all sizes: a piece, the rest of one
    packet with a part of the next, and the start of a third that never ends. *)
Lemma ex_sc3_ok : config_ok ex_sc3.
Proof. unfold config_ok. cbn. lia. Qed.
Definition ex_fill : list Z := repeat 0 (Z.to_nat (64 * 72)).
Definition ex_wire : list Z := Eval vm_compute in ex_p1 ++ ex_p0 ++ firstn 30 ex_p1.
Definition ex_chunks : list (list Z) := Eval vm_compute in [firstn 5 ex_wire; firstn 100 (skipn 5 ex_wire); skipn 105 ex_wire].
Definition ex_show (r : lres) : option (list (reason * Z) * bool * phase * list bool) :=
  match r with LOk t => Some (map (fun o => (oh_why o, lh_cnt (oh_heap o))) (st_out (l_stream t)), st_stopped (l_stream t), l_phase t, l_rs t) | _ => None end.
Example C76_ex :
  Forall (fun l => bytes_ok (chunk_of l)) (session ex_chunks) /\ bytes_ok ex_fill /\ zlen ex_fill = 64 * 72 /\
  ex_show (life_run ex_sc3 72 (session ex_chunks) (life_new ex_sc3 72 ex_fill)) = Some ([(Complete, 9)], true, PIdle, [true; true]) /\
  map (fun o => length (op_pkts o)) (tcp_ops 72 [] (session ex_chunks)) = [0; 0; 1; 1; 0]%nat /\
  (* the user flushes in between, then stops: data that comes later is not read *)
  ex_show (life_run ex_sc3 72 [LAccept true; LAnswer (AData (nth 0 ex_chunks [])); LAnswer (AData (nth 1 ex_chunks [])); LUser false; LUser true; LAnswer (AData (nth 2 ex_chunks []))] (life_new ex_sc3 72 ex_fill))
    = Some ([(Flushed, 9)], true, PIdle, [true]).
Proof.
  split; [|split; [apply bytes_by; vm_compute; reflexivity|split; [reflexivity|split; [vm_compute; reflexivity|split; vm_compute; reflexivity]]]].
  unfold session, ex_chunks. cbn [map app]. repeat (constructor; [apply bytes_by; vm_compute; reflexivity|]). constructor.
Qed.
Example C76_there_ex : exists c d' k t,
  accepted 48 ex_items false 9 72 c /\ packets_of c (run_pkts 48 ex_items 72) /\ Forall (tcp_packet 72) [ex_p1; ex_p0] /\ tcp_packet 72 d' /\ (k < length d')%nat /\ concat ex_chunks = concat [ex_p1; ex_p0] ++ firstn k d' /\
  all_there 9 (run_pkts 48 ex_items 72) [ex_p1; ex_p0] /\ life_run ex_sc3 72 (session ex_chunks) (life_new ex_sc3 72 ex_fill) = LOk t /\ ReadersProps.room ex_sc3 9 (l_stream t).
Proof.
  destruct C07_ex as (c & A & P & C1 & C2 & C3 & C4 & _). destruct C58_there_ex as (_ & _ & _ & _ & _ & T & _). exists c, ex_p1, 30%nat.
  assert (W : Forall (fun pk => tcp_packet 72 (packet_bytes pk)) (run_pkts 48 ex_items 72)).
  { eapply (C28_sender 48 ex_items false 9 72 c); auto; [lia| |lia]. eapply Forall_impl; [|exact C4]. intros it [H _]. exact H. }
  assert (E : exists a b, run_pkts 48 ex_items 72 = [a; b] /\ packet_bytes a = ex_p0 /\ packet_bytes b = ex_p1) by (do 2 eexists; split; [vm_compute; reflexivity|split; vm_compute; reflexivity]). destruct E as (a & b & E & Ea & Eb).
  rewrite E in W. inversion W as [|? ? W0 W']; inversion W' as [|? ? W1 _]; subst. rewrite Ea in W0. rewrite Eb in W1.
  eexists. split; [exact A|]. split; [exact P|]. split; [auto|]. split; [exact W1|]. split; [cbn; lia|]. split; [vm_compute; reflexivity|]. split; [exact T|]. split; [vm_compute; reflexivity|].
  unfold ReadersProps.room. repeat split; vm_compute; auto.
Qed.
(** F9: the connection is reset after the first packet; the user flushes; the stream
    runs for ever without a reader.  Only [stop] ends it. *)
Example C76_error_ex : exists t t2,
  life_run ex_sc3 72 ([LAccept true; LAnswer (AData (nth 0 ex_chunks [])); LAnswer (AData (nth 1 ex_chunks []))] ++ [LAnswer AErr]) (life_new ex_sc3 72 ex_fill) = LOk t /\ st_stopped (l_stream t) = false /\
  life_run ex_sc3 72 [LUser false; LUser false] t = LOk t2 /\ st_stopped (l_stream t2) = false /\ l_phase t2 = PIdle /\ life_run ex_sc3 72 [LAnswer (AData (nth 2 ex_chunks []))] t = LBlocked.
Proof. do 2 eexists. split; [vm_compute; reflexivity|]. split; [reflexivity|]. split; [vm_compute; reflexivity|]. split; [reflexivity|]. split; reflexivity. Qed.
Example C76_waits_ex : exists t,
  let ls := [LUser false; LAccept true; LAnswer (AData (nth 0 ex_chunks []))] in
  Forall (fun l => is_error l = false) ls /\ life_run ex_sc3 72 ls (life_new ex_sc3 72 ex_fill) = LOk t /\ st_stopped (l_stream t) = false /\ l_phase t = PRecv.
Proof. eexists. cbv zeta. split; [repeat constructor|]. split; [vm_compute; reflexivity|]. split; reflexivity. Qed.
