(** Proofs about the life of a TCP reader. *)
From Coq Require Import ZArith List Bool Arith Lia.
From Verif Require InprocProofs.
From Verif Require Import Base CodecModel PacketSpec RecvPacketModel RecvPacketProofs RecvPacketProps LiveHeapModel LiveHeapSpec LiveHeapProofs LiveHeapProps
  StreamModel StreamSpec StreamProofs StreamInvProofs StreamRunProofs StreamProps StreamE2EProofs TcpModel TcpSpec TcpProofs TcpProps ReadersModel ReadersSpec ReadersProofs ReadersProps
  TcpLifeModel TcpLifeSpec.
Import ListNotations.
Open Scope Z_scope.

(** ** The packets of a byte stream *)
Lemma whole_packet_decoded d : bytes_ok d -> Forall decoded (whole_packet d).
Proof.
  intro B. unfold whole_packet. destruct (decode_packet d) as [| |h z] eqn:E; try constructor. destruct (z =? zlen d); constructor; [|constructor].
  exists d, h, z. auto.
Qed.
Lemma bytes_ok_zskip n d : bytes_ok d -> bytes_ok (zskip n d).
Proof. intro B. unfold zskip. unfold bytes_ok in *. rewrite <- (firstn_skipn (Z.to_nat n) d) in B. apply Forall_app in B. tauto. Qed.
Lemma packets_decoded fuel max win : forall d, bytes_ok d -> Forall decoded (TcpSpec.packets_in fuel max win d).
Proof.
  induction fuel as [|fuel IH]; intros d B; cbn [TcpSpec.packets_in]; [constructor|]. destruct (get_packet_size _) as [r|]; [|constructor].
  destruct (r =? 0); [destruct (win <=? zlen d); [apply IH; now apply bytes_ok_zskip|constructor]|]. destruct (r <? 0); [apply IH; now apply bytes_ok_zskip|].
  destruct (max <? r); [apply IH; now apply bytes_ok_zskip|]. destruct (zlen d <? r); [constructor|]. apply Forall_app. split; [apply whole_packet_decoded; now apply bytes_ok_slice|apply IH; now apply bytes_ok_zskip].
Qed.

(** ** The parser *)
Definition nostop (h : list rpkt) : bool := false.
Lemma until_nostop l : forall acc, until_stop nostop acc l = acc ++ l.
Proof. induction l as [|p l IH]; intro acc; cbn [until_stop nostop]; [now rewrite app_nil_r|]. rewrite IH, <- app_assoc. reflexivity. Qed.

Section Life.
Context (sc : sconfig) (max : Z) (Cf : config_ok sc) (Hmax : 0 < max).

(** The loop gives the stream the packets that the parser finds, until the stream stops. *)
Lemma life_sim : forall fuel c x hist c' hist' m, process_loop fuel max nostop c hist = Some (c', hist', m) -> is_stopped x = false ->
  m = true /\ exists new, hist' = hist ++ new /\
    (forall x', feed sc x new = Some x' -> exists c2, life_loop sc max fuel c x = Some (c2, x', negb (is_stopped x')) /\ (is_stopped x' = false -> c2 = c')).
Proof.
  assert (Done : forall (c c' : tcp) x (hist hist' : list rpkt) m, Some (c, hist, true) = Some (c', hist', m) -> is_stopped x = false ->
    m = true /\ exists new, hist' = hist ++ new /\
      (forall x', feed sc x new = Some x' -> exists c2, Some (c, x, true) = Some (c2, x', negb (is_stopped x')) /\ (is_stopped x' = false -> c2 = c'))).
  { intros c c' x hist hist' m E N. injection E as <- <- <-. split; [reflexivity|]. exists []. rewrite app_nil_r. split; [reflexivity|]. intros x' F. rewrite feed_nil in F. injection F as <-.
    exists c. rewrite N. auto. }
  induction fuel as [|fuel IH]; intros c x hist c' hist' m E N; cbn [process_loop] in E; [discriminate|]. cbn [life_loop].
  destruct (negb _); [now apply Done|]. destruct (parse_packet_size max c) as [[c1 [|]]|]; [now apply Done| |discriminate].
  destruct (skip_bytes c1) as [c2 [|]]; [now apply Done|]. destruct (tc_pkt c2 =? 0); [now apply IH|]. destruct (_ <? tc_pkt c2); [now apply Done|].
  destruct (parse_packet c2) as [[c3 ps]|] eqn:P; [|discriminate]. destruct ps as [|p ps]; [now apply IH|].
  assert (ps = []).
  { unfold parse_packet in P. destruct (negb _); [discriminate|]. destruct (decode_packet _) as [| |h z]; try discriminate. destruct (z =? _); [|discriminate]. now injection P. }
  subst ps. cbn [nostop] in E.
  assert (Em : exists new, hist' = (hist ++ [p]) ++ new /\ m = true).
  { clear - E IH Done. specialize (IH c3). revert IH. intros _. revert c3 E. generalize (hist ++ [p]) as h. clear - Done. induction fuel as [|fuel IH]; intros h c E; cbn [process_loop] in E; [discriminate|].
    assert (D : forall a, Some (a, h, true) = Some (c', hist', m) -> exists new, hist' = h ++ new /\ m = true) by (intros a X; injection X as _ <- <-; exists []; now rewrite app_nil_r).
    destruct (negb _); [eapply D; exact E|]. destruct (parse_packet_size max c) as [[c1 [|]]|]; [eapply D; exact E| |discriminate].
    destruct (skip_bytes c1) as [c2 [|]]; [eapply D; exact E|]. destruct (tc_pkt c2 =? 0); [eapply IH; exact E|]. destruct (_ <? tc_pkt c2); [eapply D; exact E|].
    destruct (parse_packet c2) as [[c3 [|q qs]]|]; [eapply IH; exact E| |discriminate]. cbn [nostop] in E. destruct (IH _ _ E) as (n & -> & ->). exists ((q :: qs) ++ n). now rewrite app_assoc. }
  destruct Em as (new & -> & ->). split; [reflexivity|]. exists (p :: new). split; [now rewrite <- app_assoc|]. intros x' F. rewrite feed_cons in F by exact N.
  destruct (add sc x p) as [x1|]; [|discriminate]. destruct (is_stopped x1) eqn:N1.
  - rewrite feed_stopped in F by exact N1. injection F as <-. exists c3. rewrite N1. split; [reflexivity|discriminate].
  - destruct (IH _ x1 _ _ _ _ E N1) as (_ & new' & En & G). apply app_inv_head in En. subst new'. exact (G x' F).
Qed.

(** ** Handlers *)
Lemma batch_step s rs0 ps eof x : reachable sc s rs0 -> Forall decoded ps -> st_stopped s = false -> feed sc {| k_s := s; k_b := batch_new s; k_rs := [] |} ps = Some x ->
  exists s', batch_end sc (k_s (finish eof x)) (k_b (finish eof x)) = Some s' /\ do_batch sc s ps eof = Some (s', k_rs (finish eof x)) /\ st_stopped s' = is_stopped (finish eof x).
Proof.
  intros R D N F. pose proof (end_batch sc s rs0 ps eof R D N) as E. rewrite F in E.
  assert (Q : exists s3 r3, do_batch sc s ps eof = Some (s3, r3)). { destruct R as (_ & ops & Do & Ro). destruct (step_some sc ops s _ (Batch ps eof) Cf Do D Ro) as (a & b & Q). eauto. }
  destruct Q as (s3 & r3 & Q). rewrite Q in E. destruct (batch_end _ _ _) as [s'|] eqn:B; [|discriminate]. injection E as -> -> E. exists s3. split; [reflexivity|]. split; [exact Q|].
  destruct (is_stopped _), (st_stopped s3); auto; discriminate.
Qed.
Lemma feed_some s rs0 ps : reachable sc s rs0 -> Forall decoded ps -> st_stopped s = false -> exists x, feed sc {| k_s := s; k_b := batch_new s; k_rs := [] |} ps = Some x.
Proof.
  intros R D N. pose proof (end_batch sc s rs0 ps false R D N) as E. destruct (feed _ _ _) as [x|]; [eauto|]. exfalso. pose proof R as (_ & ops & Do & Ro).
  destruct (step_some sc ops s _ (Batch ps false) Cf Do D Ro) as (a & b & Q). cbn [step] in Q. rewrite Q in E. discriminate.
Qed.

(** ** The invariant *)
Context (fill : list Z) (Hlen : zlen fill = 64 * max) (Hfill : bytes_ok fill).
Notation SP := (stream_packets max (64 * max)).

Record linv (got : list Z) (ops : list op) (t : life) : Prop := {
  li_run : run sc (stream_new sc) ops = Some (l_stream t, l_rs t);
  li_dec : Forall op_decoded ops;
  li_bytes : bytes_ok got;
  li_accept : l_phase t = PAccept -> got = [] /\ l_tcp t = tcp_new max fill;
  li_recv : l_phase t = PRecv -> exists T, tcp_reach max fill nostop got T /\ tr_active T = true /\ tr_tcp T = l_tcp t }.

Lemma hist_sp got T : tcp_reach max fill nostop got T -> tr_hist T = SP got.
Proof. intro H. rewrite (C28_segmentation max fill nostop got T Hmax Hlen Hfill H), until_nostop. reflexivity. Qed.
Lemma sp_decoded d : bytes_ok d -> Forall decoded (SP d).
Proof. intro B. apply packets_decoded, B. Qed.

(** A handler that adds the packets of [o] *)
Lemma handle_stopped t f : st_stopped (l_stream t) = true -> life_handle sc max t f = LOk {| l_stream := l_stream t; l_tcp := l_tcp t; l_phase := PIdle; l_rs := l_rs t |}.
Proof. intro N. unfold life_handle. now rewrite N. Qed.

Definition next_ok (got : list Z) (ops : list op) (o : op) (t : life) (f : work -> option (tcp * work * bool)) (res : lres) : Prop :=
  exists t', res = LOk t' /\ linv got (ops ++ [o]) t'.

Lemma stopped_next got got' ops t f ps eof : linv got ops t -> bytes_ok got' -> Forall decoded ps -> st_stopped (l_stream t) = true ->
  exists t', life_handle sc max t f = LOk t' /\ linv got' (ops ++ [Batch ps eof]) t' /\ l_phase t' = PIdle /\ st_stopped (l_stream t') = true.
Proof.
  intros [I1 I2 I3 I4 I5] B D N. rewrite handle_stopped by exact N. eexists. split; [reflexivity|]. split; [|split; [reflexivity|exact N]]. constructor; cbn [l_stream l_tcp l_phase l_rs]; try discriminate; auto.
  - rewrite InprocProofs.run_snoc, I1. cbn [step]. unfold do_batch. rewrite N. now rewrite app_nil_r.
  - apply Forall_app. split; [exact I2|]. repeat constructor. exact D.
Qed.

Lemma live_next got got' ops t ps eof x c c' (more : bool) f : linv got ops t -> bytes_ok got' -> Forall decoded ps -> st_stopped (l_stream t) = false ->
  feed sc {| k_s := l_stream t; k_b := batch_new (l_stream t); k_rs := [] |} ps = Some x -> f {| k_s := l_stream t; k_b := batch_new (l_stream t); k_rs := [] |} = Some (c, finish eof x, more) ->
  (if more then enqueue_receive max c else Some c) = Some c' ->
  (more = true -> exists T, tcp_reach max fill nostop got' T /\ tr_active T = true /\ tr_tcp T = c') ->
  exists t', life_handle sc max t f = LOk t' /\ linv got' (ops ++ [Batch ps eof]) t' /\ l_phase t' = (if more then PRecv else PIdle) /\ st_stopped (l_stream t') = is_stopped (finish eof x).
Proof.
  intros [I1 I2 I3 I4 I5] B D N F Hf Hc HT. pose proof (reachable_run sc ops _ _ Cf I2 I1) as Re. destruct (batch_step _ _ ps eof x Re D N F) as (s' & E1 & E2 & E3).
  unfold life_handle. rewrite N, Hf, Hc, E1. eexists. split; [reflexivity|]. cbn [l_stream l_phase]. split; [|auto]. constructor; cbn [l_stream l_tcp l_phase l_rs]; auto.
  - rewrite InprocProofs.run_snoc, I1. cbn [step]. now rewrite E2.
  - apply Forall_app. split; [exact I2|]. repeat constructor. exact D.
  - destruct more; discriminate.
  - destruct more; [auto|discriminate].
Qed.

Lemma start_enqueue : exists T, reader_start max fill = Some T /\ enqueue_receive max (tcp_new max fill) = Some (tr_tcp T) /\ tr_active T = true.
Proof.
  destruct (start_ok max nostop Hmax fill ltac:(rewrite win_eq; exact Hlen) Hfill) as (T & E & _). exists T. split; [exact E|]. unfold reader_start in E. destruct (enqueue_receive _ _); [|discriminate]. injection E as <-. auto.
Qed.

Lemma life_step_ok got ops t l : linv got ops t -> bytes_ok (chunk_of l) ->
  life_step sc max t l = LBlocked \/
  exists t', life_step sc max t l = LOk t' /\ linv (got ++ chunk_of l) (ops ++ [tcp_op max got l]) t' /\
    (l = LAnswer AEof -> st_stopped (l_stream t') = true) /\
    SP (got ++ chunk_of l) = SP got ++ op_pkts (tcp_op max got l) /\
    (st_stopped (l_stream t') = false -> st_stopped (l_stream t) = false /\ (is_error l = false -> l_phase t' = match l with LUser _ => l_phase t | _ => PRecv end)).
Proof.
  intros I B. pose proof I as [I1 I2 I3 I4 I5]. pose proof (reachable_run sc ops _ _ Cf I2 I1) as Re.
  destruct l as [ok|a|st]; cbn [life_step].
  - destruct (l_phase t) eqn:P; [right|now left|now left]. destruct (I4 eq_refl) as [Eg Ec]. cbn [chunk_of tcp_op]. rewrite app_nil_r. destruct (st_stopped (l_stream t)) eqn:N.
    + destruct (stopped_next got got ops t (accept_handler (l_tcp t) ok) [] false I I3 ltac:(constructor) N) as (t' & E1 & E2 & E3 & E4). exists t'. rewrite E4. split; [exact E1|]. split; [exact E2|]. split; [reflexivity|]. split; [first [exact Hsp|cbn [op_pkts]; rewrite ?app_nil_r; reflexivity]|discriminate].
    + destruct start_enqueue as (T & T1 & T2 & T3).
      destruct (live_next got got ops t [] false _ (l_tcp t) (if ok then tr_tcp T else l_tcp t) ok (accept_handler (l_tcp t) ok) I I3 ltac:(constructor) N (feed_nil _ _) eq_refl) as (t' & E1 & E2 & E3 & E4).
      * rewrite Ec. destruct ok; [exact T2|reflexivity].
      * intros ->. exists T. rewrite Eg. split; [now constructor|auto].
      * exists t'. split; [exact E1|]. split; [exact E2|]. split; [discriminate|]. split; [cbn [op_pkts]; rewrite ?app_nil_r; reflexivity|]. intros _. split; [reflexivity|]. destruct ok; [auto|discriminate].
  - destruct (l_phase t) eqn:P; [now left| |now left]. destruct (os_gives max (l_tcp t) a) eqn:O; [right|now left]. destruct (I5 eq_refl) as (T & T1 & T2 & T3).
    assert (Bg : bytes_ok (got ++ chunk_of (LAnswer a))) by (apply bytes_ok_app; auto).
    destruct a as [chunk| |]; cbn [chunk_of tcp_op] in *; rewrite ?app_nil_r in *.
    + assert (M : may_receive max T chunk).
      { cbn [os_gives] in O. apply andb_true_iff in O as [O1 O2]. unfold may_receive. rewrite T3. split; [exact T2|]. split; [exact B|]. split; [lia|]. intros ->. unfold zlen in O2. cbn [length] in O2. cbn in O2. lia. }
      destruct (C28_safe max fill nostop got T chunk Hmax Hlen Hfill T1 M) as (T' & RT).
      pose proof (tcp_reach_recv max fill nostop got T chunk T' T1 M RT) as HR.
      unfold receive in RT. rewrite T3 in RT. destruct (store_chunk (l_tcp t) chunk) as [c1|] eqn:St; [|discriminate]. cbn [nostop] in RT.
      destruct (process_buffer max nostop c1 (tr_hist T)) as [[[c2 hist] more]|] eqn:PB; [|discriminate].
      assert (Nx : forall w, is_stopped w = false -> more = true /\ exists new, hist = tr_hist T ++ new /\ (forall x', feed sc w new = Some x' -> exists c3, life_loop sc max (S (Z.to_nat (tc_tail c1 - tc_head c1))) c1 w = Some (c3, x', negb (is_stopped x')) /\ (is_stopped x' = false -> c3 = c2))).
      { intros w Hw. unfold process_buffer in PB. eapply life_sim; eassumption. }
      assert (Mt : more = true) by (apply (Nx {| k_s := stream_new sc; k_b := batch_new (stream_new sc); k_rs := [] |}); reflexivity). subst more.
      destruct (enqueue_receive max c2) as [c4|] eqn:En; [|discriminate]. injection RT as <-.
      pose proof (hist_sp _ _ HR) as H2. cbn [tr_hist] in H2. pose proof (hist_sp _ _ T1) as H1.
      set (ps := skipn (length (SP got)) (SP (got ++ chunk))).
      assert (Hps : forall new, hist = tr_hist T ++ new -> new = ps). { intros new En'. unfold ps. rewrite <- H2, <- H1, En'. rewrite skipn_app, skipn_all, Nat.sub_diag. reflexivity. }
      assert (Hsp : SP (got ++ chunk) = SP got ++ op_pkts (Batch ps false)).
      { cbn [op_pkts]. destruct (Nx {| k_s := stream_new sc; k_b := batch_new (stream_new sc); k_rs := [] |} eq_refl) as (_ & new & En' & _). rewrite <- H2, En', H1. f_equal. now apply Hps. }
      assert (Dps : Forall decoded ps). { unfold ps. pose proof (sp_decoded _ Bg) as X. rewrite <- (firstn_skipn (length (SP got)) (SP (got ++ chunk))) in X. apply Forall_app in X. tauto. }
      destruct (st_stopped (l_stream t)) eqn:N.
      * destruct (stopped_next got (got ++ chunk) ops t (packet_handler sc max (l_tcp t) (AData chunk)) ps false I Bg Dps N) as (t' & E1 & E2 & E3 & E4). exists t'. rewrite E4. split; [exact E1|]. split; [exact E2|]. split; [reflexivity|]. split; [first [exact Hsp|cbn [op_pkts]; rewrite ?app_nil_r; reflexivity]|discriminate].
      * destruct (feed_some _ _ ps Re Dps N) as (x & F).
        destruct (Nx {| k_s := l_stream t; k_b := batch_new (l_stream t); k_rs := [] |}) as (_ & new & En' & G); [exact N|]. pose proof (Hps _ En') as ->. destruct (G x F) as (c3 & L & Lc).
        destruct (live_next got (got ++ chunk) ops t ps false x c3 (if is_stopped x then c3 else c4) (negb (is_stopped x)) (packet_handler sc max (l_tcp t) (AData chunk)) I Bg Dps N F) as (t' & E1 & E2 & E3 & E4).
        -- cbn [packet_handler finish]. rewrite St. exact L.
        -- destruct (is_stopped x); cbn [negb]; [reflexivity|]. now rewrite (Lc eq_refl).
        -- intro X. exists {| tr_tcp := c4; tr_hist := hist; tr_active := true |}. split; [exact HR|]. split; [reflexivity|]. destruct (is_stopped x); [discriminate X|reflexivity].
        -- exists t'. split; [exact E1|]. split; [exact E2|]. split; [discriminate|]. split; [exact Hsp|]. cbn [finish] in E4. rewrite E4. intro X. rewrite X in E3. auto.
    + destruct (st_stopped (l_stream t)) eqn:N.
      * destruct (stopped_next got got ops t (packet_handler sc max (l_tcp t) AEof) [] true I I3 ltac:(constructor) N) as (t' & E1 & E2 & E3 & E4). exists t'. rewrite E4. split; [exact E1|]. split; [exact E2|]. split; [reflexivity|]. split; [first [exact Hsp|cbn [op_pkts]; rewrite ?app_nil_r; reflexivity]|discriminate].
      * destruct (live_next got got ops t [] true _ (l_tcp t) (l_tcp t) false (packet_handler sc max (l_tcp t) AEof) I I3 ltac:(constructor) N (feed_nil _ _) eq_refl eq_refl) as (t' & E1 & E2 & E3 & E4); [discriminate|].
        exists t'. split; [exact E1|]. split; [exact E2|]. cbn [finish] in E4. rewrite E4. split; [reflexivity|]. split; [cbn [op_pkts]; rewrite ?app_nil_r; reflexivity|discriminate].
    + destruct (st_stopped (l_stream t)) eqn:N.
      * destruct (stopped_next got got ops t (packet_handler sc max (l_tcp t) AErr) [] false I I3 ltac:(constructor) N) as (t' & E1 & E2 & E3 & E4). exists t'. rewrite E4. split; [exact E1|]. split; [exact E2|]. split; [reflexivity|]. split; [first [exact Hsp|cbn [op_pkts]; rewrite ?app_nil_r; reflexivity]|discriminate].
      * destruct (live_next got got ops t [] false _ (l_tcp t) (l_tcp t) false (packet_handler sc max (l_tcp t) AErr) I I3 ltac:(constructor) N (feed_nil _ _) eq_refl eq_refl) as (t' & E1 & E2 & E3 & E4); [discriminate|].
        exists t'. split; [exact E1|]. split; [exact E2|]. split; [discriminate|]. split; [cbn [op_pkts]; rewrite ?app_nil_r; reflexivity|]. intros _. split; [reflexivity|discriminate].
  - right. assert (Do : op_decoded (if st then Stop else Flush)) by (destruct st; exact Logic.I). destruct (step_some sc ops _ _ _ Cf I2 Do I1) as (s' & rs' & S). rewrite S. eexists. split; [reflexivity|]. cbn [l_stream l_phase chunk_of tcp_op]. rewrite app_nil_r.
    assert (rs' = []). { destruct st; cbn [step] in S; [destruct (stop sc (l_stream t))|destruct (flush_unlocked sc (l_stream t))]; try discriminate; now injection S as _ <-. } subst rs'.
    split; [|split; [discriminate|split; [destruct st; cbn [op_pkts]; rewrite ?app_nil_r; reflexivity|]]].
    + constructor; cbn [l_stream l_tcp l_phase l_rs]; auto. rewrite InprocProofs.run_snoc, I1, S, app_nil_r. reflexivity. apply Forall_app; auto.
    + intro N. split; [|reflexivity]. destruct (st_stopped (l_stream t)) eqn:X; [|reflexivity]. exfalso. pose proof (C20_after_stop sc _ _ [if st then Stop else Flush] Re X) as (s2 & R2 & N2 & _); [constructor; [exact Do|constructor]|]. cbn [run] in R2. rewrite S in R2. injection R2 as ->. congruence.
Qed.

Lemma linv_new : linv [] [] (life_new sc max fill).
Proof. constructor; cbn [life_new l_stream l_tcp l_phase l_rs]; auto; try discriminate. constructor. Qed.
Lemma life_run_snoc ls l : forall t, life_run sc max (ls ++ [l]) t = match life_run sc max ls t with LOk t' => life_step sc max t' l | r => r end.
Proof.
  induction ls as [|x ls IH]; intro t; cbn [app life_run]; [destruct (life_step sc max t l); reflexivity|]. destruct (life_step sc max t x); auto.
Qed.
Lemma tcp_ops_snoc ls l : forall got, tcp_ops max got (ls ++ [l]) = tcp_ops max got ls ++ [tcp_op max (got ++ bytes_of ls) l].
Proof.
  induction ls as [|x ls IH]; intro got; cbn [app tcp_ops bytes_of flat_map]; [now rewrite app_nil_r|]. rewrite IH. unfold bytes_of. now rewrite app_assoc.
Qed.
Lemma bytes_of_snoc ls l : bytes_of (ls ++ [l]) = bytes_of ls ++ chunk_of l.
Proof. unfold bytes_of. rewrite flat_map_app. cbn [flat_map]. now rewrite app_nil_r. Qed.
Lemma life_ok ls : Forall (fun l => bytes_ok (chunk_of l)) ls ->
  life_run sc max ls (life_new sc max fill) <> LFault /\ forall t, life_run sc max ls (life_new sc max fill) = LOk t -> linv (bytes_of ls) (tcp_ops max [] ls) t /\ flat_map op_pkts (tcp_ops max [] ls) = SP (bytes_of ls).
Proof.
  induction ls as [|l ls IH] using rev_ind; intro H.
  - split; [discriminate|]. intros t E. injection E as <-. split; [exact linv_new|]. cbn. symmetry. apply (stream_packets_nil max (64 * max) Hmax eq_refl).
  - apply Forall_app in H as [H1 H2]. inversion H2; subst. destruct (IH H1) as [IH1 IH2]. rewrite life_run_snoc, tcp_ops_snoc, bytes_of_snoc. cbn [app].
    destruct (life_run sc max ls (life_new sc max fill)) as [| |t0] eqn:E; [congruence|split; discriminate|].
    destruct (IH2 _ eq_refl) as [J1 J2]. destruct (life_step_ok _ _ _ l J1 H3) as [B|(t' & S & I' & _ & Sp & _)]; [rewrite B; split; discriminate|]. rewrite S. split; [discriminate|]. intros t X. injection X as <-.
    split; [exact I'|]. rewrite flat_map_app, J2. cbn [flat_map]. now rewrite app_nil_r.
Qed.
End Life.
