(** C17-C21: the receive stream's collection of live heaps. *)
From Coq Require Import ZArith List Lia Bool Permutation Sorted.
From Coq Require Import ZifyBool ZifyNat.
From Verif Require Import Base CodecModel PacketSpec RecvPacketModel LiveHeapModel LiveHeapSpec LiveHeapProofs LiveHeapProps ReassembleProofs
  StreamModel StreamSpec StreamProofs StreamInvProofs StreamRunProofs.
Import ListNotations.
Open Scope Z_scope.

(** Operations on a stream whose packets come from the packet decoder. *)
Definition op_decoded (o : op) : Prop := match o with Batch ps _ => Forall decoded ps | _ => True end.

(** States between operations, with the results of all add_packet calls. *)
Definition reachable (c : sconfig) (s : stream) (rs : list bool) : Prop :=
  config_ok c /\ exists ops, Forall op_decoded ops /\ run c (stream_new c) ops = Some (s, rs).
(** States within a batch. *)
Definition mid_batch (c : sconfig) (s : stream) (b : batch) : Prop :=
  exists s0 rs0 ps rs, reachable c s0 rs0 /\ st_stopped s0 = false /\ Forall decoded ps /\
    batch_packets c s0 (batch_new s0) ps = Some (s, b, rs).

Lemma op_decoded_ok o : op_decoded o -> op_ok o.
Proof. destruct o as [ps eof| |]; cbn; try trivial. intro H. eapply Forall_impl; [|exact H]. apply decoded_ok. Qed.
Lemma ops_decoded_ok ops : Forall op_decoded ops -> Forall op_ok ops.
Proof. intro H. eapply Forall_impl; [|exact H]. apply op_decoded_ok. Qed.

Lemma reachable_sim c s rs : reachable c s rs -> exists a st, sim c (zlen rs) (batch_zero st) s a.
Proof.
  intros (Hc & ops & HD & HR).
  destruct (run_sim c Hc ops 0 false _ _ (sim_new c false Hc) (ops_decoded_ok _ HD)) as (s' & a' & rs' & st' & E & HS & _).
  rewrite HR in E. injection E as <- <-. exists a', st'. exact HS.
Qed.

Lemma mid_sim c s b : mid_batch c s b -> config_ok c /\ exists a n, sim c n b s a /\ as_stopped a = false.
Proof.
  intros (s0 & rs0 & ps & rs & HR & Hst & HD & HB). split; [apply HR|].
  pose proof (proj1 HR) as Hc.
  destruct (reachable_sim _ _ _ HR) as (a & st & [R [G1 G2 G3 G4 G5]]).
  assert (HS0 : sim c (zlen rs0) (batch_new s0) s0 a).
  { split; [exact R|]. constructor; try assumption. destruct G3; constructor; assumption. }
  assert (HF : Forall rpkt_ok ps) by (eapply Forall_impl; [|exact HD]; apply decoded_ok).
  assert (Hsta : as_stopped a = false) by (rewrite <- (rf_stopped _ _ _ R); exact Hst).
  destruct (batch_packets_sim c Hc ps _ _ _ _ HS0 HF Hsta) as (s' & a' & b' & rs' & E & HS & Hst' & _).
  rewrite HB in E. injection E as <- <- <-. exists a'. eexists. split; [exact HS|exact Hst'].
Qed.

(** * The storage and the abstract list *)
Lemma In_nth_iff {A} (l : list A) x : In x l <-> exists i, nth_error l i = Some x.
Proof. split; [apply In_nth_error|]. intros (i & H). eapply nth_error_In. exact H. Qed.

Lemma live_heaps_iff c s a u h : refines c s a ->
  (In (u, h) (live_heaps s) <-> exists x, In x (as_live a) /\ ah_uid x = u /\ ah_heap x = h).
Proof.
  intro R. pose proof (rf_rep _ _ _ R) as RP. unfold live_heaps. rewrite in_flat_map. split.
  - intros (e & He & Hin). apply In_nth_error in He as (i & He). pose proof (rep_slot _ _ _ _ _ _ RP He) as HS.
    destruct (slot_heap i (as_live a)) as [x|].
    + destruct HS as (_ & E1 & E2 & Hx & _). rewrite E1 in Hin. destruct Hin as [E|[]]. injection E as <- <-. exists x. auto.
    + destruct HS as [_ E]. rewrite E in Hin. destruct Hin.
  - intros (x & Hx & <- & <-). destruct (rep_in _ _ _ _ RP x Hx) as (e & He & E1 & E2 & _).
    exists e. split; [eapply nth_error_In; exact He|]. rewrite E1, E2. now left.
Qed.

Definition slot_list (L : list aheap) (i : nat) : list (nat * live_heap) :=
  match slot_heap i L with None => [] | Some x => [(ah_uid x, ah_heap x)] end.
Lemma live_heaps_slots c s a : refines c s a -> live_heaps s = flat_map (slot_list (as_live a)) (seq 0 (length (st_entries s))).
Proof.
  intro R. pose proof (rf_rep _ _ _ R) as RP. unfold live_heaps.
  assert (G : forall l n, (forall i e, nth_error l i = Some e -> nth_error (st_entries s) (n + i) = Some e) ->
     flat_map (fun e => match en_heap e with None => [] | Some h => [(en_uid e, h)] end) l = flat_map (slot_list (as_live a)) (seq n (length l))).
  { induction l as [|e l IH]; intros n H; [reflexivity|]. cbn [flat_map length seq]. f_equal.
    - pose proof (rep_slot _ _ _ _ _ _ RP (eq_trans (f_equal _ (eq_sym (Nat.add_0_r n))) (H 0%nat e eq_refl))) as HS. unfold slot_list.
      destruct (slot_heap n (as_live a)) as [x|]; [destruct HS as (_ & -> & -> & _); reflexivity|destruct HS as [_ ->]; reflexivity].
    - apply IH. intros i e' Hi. specialize (H (S i) e' Hi). replace (S n + i)%nat with (n + S i)%nat by lia. exact H. }
  apply G. trivial.
Qed.

Lemma length_flat_one {A B} (f : A -> list B) (g : A -> bool) l :
  (forall x, (length (f x) <= if g x then 1 else 0)%nat) -> (length (flat_map f l) <= length (filter g l))%nat.
Proof.
  intro H. induction l as [|x l IH]; [reflexivity|]. cbn [flat_map filter]. rewrite app_length. specialize (H x). destruct (g x); cbn [length]; lia.
Qed.
Lemma filter_flat_map {A B} (f : A -> list B) p l : filter p (flat_map f l) = flat_map (fun x => filter p (f x)) l.
Proof. induction l as [|x l IH]; [reflexivity|]. cbn [flat_map]. now rewrite filter_app, IH. Qed.

Lemma range_count n lo m : (length (filter (fun i => Nat.leb lo i && Nat.ltb i (lo + m)) (seq 0 n)) <= m)%nat.
Proof.
  pose proof (seq_length m lo) as E. etransitivity; [|apply Nat.eq_le_incl; exact E]. apply NoDup_incl_length.
  - apply NoDup_filter, seq_NoDup.
  - intros i Hi. apply filter_In in Hi as [_ Hi]. apply in_seq. lia.
Qed.

(** C17 (a): at most max_heaps live heaps per substream. *)
Theorem C17_bounded : forall c s rs k, reachable c s rs ->
  (length (filter (fun uh => in_sub c k (lh_cnt (snd uh))) (live_heaps s)) <= sc_max_heaps c)%nat.
Proof.
  intros c s rs k HR. destruct (reachable_sim c s rs HR) as (a & st & R & G).
  rewrite (live_heaps_slots c s a R), filter_flat_map.
  etransitivity; [apply (length_flat_one _ (fun i => Nat.leb (k * sc_max_heaps c) i && Nat.ltb i (k * sc_max_heaps c + sc_max_heaps c)))|apply range_count].
  intro i. unfold slot_list. destruct (slot_heap i (as_live a)) as [x|] eqn:Ex; [|cbn; destruct (_ && _); lia].
  cbn [filter snd]. apply slot_heap_In in Ex as [Hx Hxi]. destruct (ai_ring _ _ (gd_inv _ _ _ _ G) x Hx) as (_ & R2 & _).
  unfold in_sub. destruct (Nat.eqb_spec (get_substream c (lh_cnt (ah_heap x))) k) as [E|E]; [|cbn; destruct (_ && _); lia].
  rewrite E, Hxi in R2. destruct (Nat.leb_spec (k * sc_max_heaps c) i); [|lia]. destruct (Nat.ltb_spec i (k * sc_max_heaps c + sc_max_heaps c)); [|lia]. cbn. lia.
Qed.
Print Assumptions C17_bounded.

(** C17 (b): an incomplete heap stays live exactly while fewer than max_heaps
    heaps of its substream have been started after it (unless flushed). *)
Theorem C17_window : forall c s rs, reachable c s rs ->
  (forall u h, In (u, h) (live_heaps s) ->
     nth_error (st_hist s) u = Some (lh_cnt h) /\ is_complete h = false /\
     (started_after c (lh_cnt h) u (st_hist s) < sc_max_heaps c)%nat) /\
  (forall o, In o (st_out s) ->
     nth_error (st_hist s) (oh_uid o) = Some (lh_cnt (oh_heap o)) /\
     match oh_why o with
     | Complete => is_complete (oh_heap o) = true
     | Evicted => is_complete (oh_heap o) = false /\
         (sc_max_heaps c <= started_after c (lh_cnt (oh_heap o)) (oh_uid o) (st_hist s))%nat
     | Flushed => is_complete (oh_heap o) = false
     end).
Proof.
  intros c s rs HR. destruct (reachable_sim c s rs HR) as (a & st & R & G). pose proof (gd_inv _ _ _ _ G) as HI. split.
  - intros u h Hin. apply (live_heaps_iff c s a u h R) in Hin as (x & Hx & <- & <-).
    destruct (ab_live _ _ (ai_base _ _ HI) x Hx) as (L1 & L2 & L3). destruct (ai_ring _ _ HI x Hx) as (R1 & _).
    rewrite (rf_hist _ _ _ R). auto.
  - rewrite (rf_out _ _ _ R), (rf_hist _ _ _ R). intros o Ho. destruct (ab_out _ _ (ai_base _ _ HI) o Ho) as (O1 & O2 & O3). auto.
Qed.
Print Assumptions C17_window.

(** C17 (c): where a packet goes.  It is either refused, or offered to the most
    recently started live heap with its count, or starts a heap. *)
Theorem C17_routing : forall c s b p, mid_batch c s b -> decoded p ->
  exists s' b' r, stream_add_packet c s b p = Some (s', b', r) /\ ba_packets b' = ba_packets b + 1 /\
  let none := forall u h, In (u, h) (live_heaps s) -> lh_cnt h <> rp_cnt p in
  (* no heap length, or a gap in in-order mode *)
  ((r = false /\ st_hist s' = st_hist s /\ st_log s' = st_log s /\ live_heaps s' = live_heaps s /\ st_out s' = st_out s /\
    ((rp_hlen p < 0 /\ sc_allow_unsized c = false) \/
     (sc_allow_ooo c = false /\ rp_off p <> 0 /\ (single_packet p = true \/ none)))) \/
   (single_packet p = false /\ st_hist s' = st_hist s /\
    exists u h, In (u, h) (live_heaps s) /\ lh_cnt h = rp_cnt p /\
      (forall v g, In (v, g) (live_heaps s) -> lh_cnt g = rp_cnt p -> (v <= u)%nat) /\
      st_log s' = st_log s ++ [(u, p, r)]) \/
   ((single_packet p = true \/ none) /\ (sc_allow_ooo c = true \/ rp_off p = 0) /\
    st_hist s' = st_hist s ++ [rp_cnt p] /\ st_log s' = st_log s ++ [(length (st_hist s), p, r)])).
Proof.
  intros c s b p HM Hp. destruct (mid_sim c s b HM) as (Hc & a & n & HS & Hst).
  destruct (packet_sim c n b s a p Hc HS (decoded_ok p Hp) Hst) as (s' & a' & b' & r & E & HS' & _ & Heff & HBP).
  exists s', b', r. split; [exact E|]. split; [exact HBP|]. destruct HS as [R G]. destruct HS' as [R' G'].
  assert (HN : (forall x, In x (as_live a) -> lh_cnt (ah_heap x) <> rp_cnt p) -> forall u h, In (u, h) (live_heaps s) -> lh_cnt h <> rp_cnt p).
  { intros HX u h Hin. apply (live_heaps_iff c s a u h R) in Hin as (x & Hx & _ & <-). now apply HX. }
  rewrite (rf_hist _ _ _ R'), (rf_log _ _ _ R'), (rf_out _ _ _ R'), (rf_hist _ _ _ R), (rf_log _ _ _ R), (rf_out _ _ _ R).
  destruct Heff as [Hr Ea HD|x h' H1 H2 H3 H4 H5 H6|a1 i m h' H1 H2 H3 H4 H5 H6 H7].
  - left. rewrite Ea. split; [exact Hr|]. split; [reflexivity|]. split; [reflexivity|]. split.
    + rewrite (live_heaps_slots c s' a' R'), (live_heaps_slots c s a R), Ea.
      now rewrite (rep_lenE _ _ _ _ (rf_rep _ _ _ R')), (rep_lenE _ _ _ _ (rf_rep _ _ _ R)).
    + split; [reflexivity|]. destruct HD as [HD|(D1 & D2 & [D3|D3])]; [now left|right; auto|right].
      split; [exact D1|]. split; [exact D2|]. right. now apply HN.
  - right. left. split; [exact H1|]. split; [exact H3|]. exists (ah_uid x), (ah_heap x).
    pose proof (find_some _ _ H2) as [Hx Hcx]. split; [apply (live_heaps_iff c s a _ _ R); eauto|]. split; [clear - Hcx; lia|].
    split; [|exact H4]. intros v g Hin Hg. apply (live_heaps_iff c s a v g R) in Hin as (y & Hy & <- & <-).
    pose proof (ab_sorted _ _ (ai_base _ _ (gd_inv _ _ _ _ G))) as HSo. clear - H2 Hy Hg HSo.
    induction HSo as [|z l HSo IH HF]; [destruct Hy|]. cbn [find] in H2. destruct (Z.eqb_spec (lh_cnt (ah_heap z)) (rp_cnt p)) as [Ez|Ez].
    + injection H2 as <-. destruct Hy as [->|Hy]; [lia|]. rewrite Forall_forall in HF. specialize (HF y Hy). lia.
    + destruct Hy as [->|Hy]; [contradiction|]. now apply IH.
  - right. right. split; [destruct H1 as [H1|H1]; [now left|right; now apply HN]|]. auto.
Qed.
Print Assumptions C17_routing.

Lemma NoDup_app_l {A} (l r : list A) : NoDup (l ++ r) -> NoDup l.
Proof.
  induction l as [|x l IH]; intro H; [constructor|]. cbn [app] in H. inversion H as [|? ? H1 H2]; subst.
  constructor; [|now apply IH]. intro Hx. apply H1. apply in_or_app. now left.
Qed.

(** C18: every heap that is started is handed over exactly once, dropped (a
    complete end-of-stream heap) or still live; after a stop none is live.
    Each heap handed over is what reassembly makes of the packets offered to
    it. *)
Theorem C18_handed_over_once : forall c s rs, reachable c s rs ->
  Permutation (map fst (live_heaps s) ++ map oh_uid (st_out s) ++ st_dropped s) (seq 0 (length (st_hist s))) /\
  (st_stopped s = true -> live_heaps s = []) /\
  (forall o, In o (st_out s) -> offered_pkts (oh_uid o) (st_log s) <> [] /\ built c (oh_uid o) (oh_heap o) (st_log s)) /\
  (forall u, In u (st_dropped s) -> sc_stop_item c = true /\
     exists h, built c u h (st_log s) /\ is_complete h = true /\ lh_eos h = true).
Proof.
  intros c s rs HR. destruct (reachable_sim c s rs HR) as (a & st & R & G). pose proof (gd_inv _ _ _ _ G) as HI.
  pose proof (ai_base _ _ HI) as HB.
  assert (HP : Permutation (map fst (live_heaps s)) (map ah_uid (as_live a))).
  { apply NoDup_Permutation.
    - rewrite (live_heaps_slots c s a R). rewrite flat_map_concat_map, concat_map, map_map, <- flat_map_concat_map.
      assert (HU : NoDup (map ah_uid (as_live a))).
      { pose proof (ab_NoDup _ _ HB) as HN. unfold uids in HN. now apply NoDup_app_l in HN. }
      assert (G1 : forall l, NoDup l -> NoDup (flat_map (fun i => map fst (slot_list (as_live a) i)) l)).
      { induction l as [|i l IH]; intro HN; [constructor|]. inversion HN as [|? ? N1 N2]; subst. cbn [flat_map].
        unfold slot_list at 1. destruct (slot_heap i (as_live a)) as [x|] eqn:Ex; cbn [map app fst]; [|now apply IH].
        constructor; [|now apply IH]. intro Hin. apply in_flat_map in Hin as (j & Hj & Hin). unfold slot_list in Hin.
        destruct (slot_heap j (as_live a)) as [y|] eqn:Ey; [|destruct Hin]. cbn in Hin. destruct Hin as [Euid|[]].
        apply slot_heap_In in Ex as [Hx Hxi], Ey as [Hy Hyj].
        assert (y = x) by (apply (uid_inj a); [apply (ab_NoDup _ _ HB)|assumption|assumption|exact Euid]). subst y. apply N1. congruence. }
      apply G1, seq_NoDup.
    - pose proof (ab_NoDup _ _ HB) as HN. unfold uids in HN. now apply NoDup_app_l in HN.
    - intro u. rewrite !in_map_iff. split.
      + intros ((u' & h) & <- & Hin). apply (live_heaps_iff c s a _ _ R) in Hin as (x & Hx & <- & _). exists x. auto.
      + intros (x & <- & Hx). exists (ah_uid x, ah_heap x). split; [reflexivity|]. apply (live_heaps_iff c s a _ _ R). eauto. }
  rewrite (rf_hist _ _ _ R), (rf_log _ _ _ R), (rf_out _ _ _ R), (rf_dropped _ _ _ R). split; [|split; [|split]].
  - rewrite HP. exact (ab_perm _ _ HB).
  - intro Hst. rewrite (rf_stopped _ _ _ R) in Hst. pose proof (gd_stopped _ _ _ _ G Hst) as HL.
    rewrite (live_heaps_slots c s a R), HL. clear. induction (seq 0 _) as [|i l IH]; [reflexivity|]. exact IH.
  - intros o Ho. split; [now apply (gd_fed _ _ _ _ G)|]. now destruct (ab_out _ _ HB o Ho) as (_ & O2 & _).
  - intros u Hu. destruct (ab_drop _ _ HB u Hu) as (D0 & h & _ & D). split; [exact D0|]. exists h. exact D.
Qed.
Print Assumptions C18_handed_over_once.

(** C19: the statistics agree with what happened. *)
Theorem C19_statistics : forall c s rs, reachable c s rs ->
  ss_heaps (st_stats s) = zlen (st_out s) /\
  ss_evicted (st_stats s) = count_why Evicted (st_out s) /\
  ss_flushed (st_stats s) = count_why Flushed (st_out s) /\
  ss_heaps (st_stats s) - ss_evicted (st_stats s) - ss_flushed (st_stats s) = count_why Complete (st_out s) /\
  ss_packets (st_stats s) = zlen rs.
Proof.
  intros c s rs HR. destruct (reachable_sim c s rs HR) as (a & st & R & G).
  destruct (gd_acct _ _ _ _ G) as [A1 A2 A3]. pose proof (gd_packets _ _ _ _ G) as A4.
  cbn [batch_zero ba_complete ba_evicted ba_packets] in *. rewrite (rf_stats _ _ _ R), (rf_out _ _ _ R).
  assert (HT : forall l, zlen l = count_why Complete l + count_why Evicted l + count_why Flushed l).
  { induction l as [|o l IH]; [reflexivity|]. rewrite zlen_cons, IH. unfold count_why. cbn [filter]. destruct (oh_why o); rewrite !zlen_cons; lia. }
  specialize (HT (as_out a)). lia.
Qed.
Print Assumptions C19_statistics.

(** C20: after a stop, no operation has any effect on what has been handed
    over, the statistics or the set of live heaps; packets are not looked at. *)
Theorem C20_after_stop : forall c s rs ops, reachable c s rs -> st_stopped s = true -> Forall op_decoded ops ->
  exists s', run c s ops = Some (s', []) /\ st_stopped s' = true /\ live_heaps s' = [] /\
    st_out s' = st_out s /\ st_dropped s' = st_dropped s /\ st_hist s' = st_hist s /\ st_log s' = st_log s /\
    ss_heaps (st_stats s') = ss_heaps (st_stats s) /\ ss_evicted (st_stats s') = ss_evicted (st_stats s) /\
    ss_flushed (st_stats s') = ss_flushed (st_stats s) /\ ss_packets (st_stats s') = ss_packets (st_stats s).
Proof.
  intros c s rs ops HR Hst HD. pose proof (proj1 HR) as Hc. destruct (reachable_sim c s rs HR) as (a & st & HS).
  assert (Hsta : as_stopped a = true) by (rewrite <- (rf_stopped _ _ _ (proj1 HS)); exact Hst).
  destruct (run_sim c Hc ops _ _ _ _ HS (ops_decoded_ok _ HD)) as (s' & a' & rs' & st' & E & HS' & HE).
  assert (HX : rs' = [] /\ as_stopped a' = true /\ as_live a' = [] /\ as_out a' = as_out a /\ as_dropped a' = as_dropped a /\
     as_hist a' = as_hist a /\ as_log a' = as_log a).
  { pose proof (gd_stopped _ _ _ _ (proj2 HS) Hsta) as HL. clear - HE Hsta HL.
    induction HE as [a|o rs1 ops rs2 a a1 a2 Ho HE IH]; [repeat split; assumption|].
    assert (H1 : rs1 = [] /\ as_stopped a1 = true /\ as_live a1 = [] /\ as_out a1 = as_out a /\ as_dropped a1 = as_dropped a /\
     as_hist a1 = as_hist a /\ as_log a1 = as_log a).
    { assert (HFl : flushed_from a a1 -> as_live a1 = [] /\ as_out a1 = as_out a /\ as_dropped a1 = as_dropped a /\ as_hist a1 = as_hist a /\ as_log a1 = as_log a).
      { intros (F1 & F2 & F3 & F4 & new & F5 & F6). rewrite F5. destruct new as [|q new]; [rewrite app_nil_r; auto|].
        inversion F6 as [|? ? (_ & x & Hx & _) _]; subst. rewrite HL in Hx. destruct Hx. }
      destruct o as [ps eof| |]; cbn [op_effect] in Ho; rewrite ?Hsta in Ho.
      - destruct Ho as [-> ->]. repeat split; assumption.
      - destruct Ho as (-> & F & S). destruct (HFl F) as (F1 & F2 & F3 & F4 & F5). repeat split; congruence.
      - destruct Ho as (-> & S & ->). repeat split; assumption. }
    destruct H1 as (-> & S1 & L1 & O1 & D1 & T1 & G1). destruct (IH S1 L1) as (-> & S2 & L2 & O2 & D2 & T2 & G2).
    repeat split; congruence. }
  destruct HX as (-> & S' & L' & O' & D' & T' & G').
  exists s'. split; [exact E|]. destruct HS as [R G]. destruct HS' as [R' Gd'].
  split; [rewrite (rf_stopped _ _ _ R'); exact S'|]. split.
  { rewrite (live_heaps_slots c s' a' R'), L'. clear. induction (seq 0 _) as [|i l IH]; [reflexivity|]. exact IH. }
  rewrite (rf_out _ _ _ R'), (rf_out _ _ _ R), (rf_dropped _ _ _ R'), (rf_dropped _ _ _ R), (rf_hist _ _ _ R'), (rf_hist _ _ _ R),
    (rf_log _ _ _ R'), (rf_log _ _ _ R), (rf_stats _ _ _ R'), (rf_stats _ _ _ R).
  destruct (gd_acct _ _ _ _ G) as [A1 A2 A3]. destruct (gd_acct _ _ _ _ Gd') as [B1 B2 B3].
  pose proof (gd_packets _ _ _ _ G) as A4. pose proof (gd_packets _ _ _ _ Gd') as B4.
  cbn [batch_zero ba_complete ba_evicted ba_packets] in *. rewrite O' in *. change (zlen (@nil bool)) with 0 in B4.
  split; [reflexivity|]. split; [exact D'|]. split; [exact T'|]. split; [exact G'|]. clear - A1 A2 A3 A4 B1 B2 B3 B4. lia.
Qed.
Print Assumptions C20_after_stop.

(** C21: a packet only affects heaps of its own substream. *)
Theorem C21_substreams_independent : forall c s b p s' b' r k, mid_batch c s b -> decoded p ->
  stream_add_packet c s b p = Some (s', b', r) -> get_substream c (rp_cnt p) <> k ->
  (forall u h, in_sub c k (lh_cnt h) = true -> (In (u, h) (live_heaps s') <-> In (u, h) (live_heaps s))) /\
  exists new, st_out s' = st_out s ++ new /\ Forall (fun o => in_sub c k (lh_cnt (oh_heap o)) = false) new.
Proof.
  intros c s b p s' b' r k HM Hp HA Hk. destruct (mid_sim c s b HM) as (Hc & a & n & HS & Hst).
  destruct (packet_sim c n b s a p Hc HS (decoded_ok p Hp) Hst) as (s1 & a' & b1 & r1 & E & HS' & _ & Heff & _).
  rewrite HA in E. injection E as <- <- <-. destruct HS as [R G]. destruct HS' as [R' G'].
  pose proof (gd_inv _ _ _ _ G) as HI.
  assert (HIn : forall cnt, in_sub c k cnt = true -> cnt <> rp_cnt p).
  { intros cnt H E1. unfold in_sub in H. apply Nat.eqb_eq in H. congruence. }
  assert (HNo : forall cnt, get_substream c cnt = get_substream c (rp_cnt p) -> in_sub c k cnt = false).
  { intros cnt H. unfold in_sub. apply Nat.eqb_neq. congruence. }
  assert (HG : (forall y, in_sub c k (lh_cnt (ah_heap y)) = true -> (In y (as_live a') <-> In y (as_live a))) /\
    exists new, as_out a' = as_out a ++ new /\ Forall (fun o => in_sub c k (lh_cnt (oh_heap o)) = false) new).
  { destruct Heff as [Hr Ea HD|x h' H1 H2 H3 H4 H5 H6|a1 i m h' H1 H2 H3 H4 H5 H6 H7].
    - rewrite Ea. split; [reflexivity|]. exists []. rewrite app_nil_r. auto.
    - pose proof (find_some _ _ H2) as [Hx Hcx]. apply Z.eqb_eq in Hcx.
      assert (Hc' : r = true -> lh_cnt h' = rp_cnt p).
      { intros ->. apply add_packet_cnt in H5. congruence. }
      assert (Hslot : forall y, In y (as_live a) -> ah_slot y = ah_slot x -> y = x).
      { intros y Hy Ey. apply (slot_unique (as_live a)); try assumption. exact (ab_nodup _ _ (ai_base _ _ HI)). }
      destruct (is_complete h') eqn:EC.
      + destruct H6 as (-> & EL & EO). split.
        * intros y Hy. rewrite EL, without_In. split; [tauto|]. intro Hin. split; [exact Hin|]. intro Ey. rewrite (Hslot y Hin Ey), Hcx in Hy. now apply HIn in Hy.
        * destruct (sc_stop_item c && lh_eos h'); destruct EO as [EO _]; rewrite EO; [exists []; rewrite app_nil_r; auto|].
          eexists. split; [reflexivity|]. constructor; [|constructor]. cbn [oh_heap]. apply HNo. now rewrite (Hc' eq_refl).
      + destruct H6 as (EL & EO & _). split; [|exists []; rewrite app_nil_r; auto].
        assert (Hch : lh_cnt h' = rp_cnt p \/ (r = false)) by (destruct r; [left; now apply Hc'|now right]).
        intros y Hy. rewrite EL, with_heap_In. split.
        * intros [(z & Hz & Ez & ->)|[Hin _]]; [|exact Hin]. exfalso.
          assert (z = x) by now apply Hslot. subst z. cbn [ah_heap] in Hy.
          (* the heap in the slot keeps its count *)
          pose proof (ab_live _ _ (ai_base _ _ (gd_inv _ _ _ _ G'))) as HL'.
          assert (Hin' : In {| ah_slot := ah_slot x; ah_uid := ah_uid x; ah_heap := h' |} (as_live a')).
          { rewrite EL. apply with_heap_In. left. exists x. auto. }
          destruct (HL' _ Hin') as (L1 & _). destruct (ab_live _ _ (ai_base _ _ HI) x Hx) as (L2 & _). cbn [ah_uid ah_heap] in L1.
          rewrite H3, L2 in L1. injection L1 as L1. apply (HIn _ Hy). congruence.
        * intro Hin. right. split; [exact Hin|]. intro Ey. rewrite (Hslot y Hin Ey), Hcx in Hy. now apply HIn in Hy.
    - destruct (new_entry_inv c a p a1 i m Hc HI H3) as (N1 & N2 & N3 & N4 & N5 & N6 & L0 & N7 & N8).
      pose proof (a_new_entry_slot _ _ _ _ _ _ H3) as Hslot. apply slot_heap_In in Hslot as [Hnew _].
      set (new := {| ah_slot := i; ah_uid := length (as_hist a); ah_heap := live_heap_new p |}) in *.
      assert (HA1 : (forall y, in_sub c k (lh_cnt (ah_heap y)) = true -> (In y (as_live a1) <-> In y (as_live a))) /\
         exists nw, as_out a1 = as_out a ++ nw /\ Forall (fun o => in_sub c k (lh_cnt (oh_heap o)) = false) nw).
      { rewrite N7. destruct N8 as [(_ & EL & EO)|(_ & x & Hx & Hxi & EL & Hsub & _ & EO)]; rewrite EL, EO.
        - split; [|exists []; rewrite app_nil_r; auto]. intros y Hy. cbn [In]. split; [|tauto]. intros [<-|Hin]; [|exact Hin].
          exfalso. now apply (HIn (rp_cnt p)).
        - split.
          + intros y Hy. cbn [In]. rewrite without_In. split; [intros [<-|[Hin _]]; [exfalso; now apply (HIn (rp_cnt p))|exact Hin]|].
            intro Hin. right. split; [exact Hin|]. intro Ey.
            assert (y = x) by (apply (slot_unique (as_live a)); [exact (ab_nodup _ _ (ai_base _ _ HI))|exact Hin|exact Hx|congruence]). subst y.
            rewrite (HNo _ Hsub) in Hy. discriminate.
          + eexists. split; [reflexivity|]. constructor; [|constructor]. cbn [oh_heap]. now apply HNo. }
      destruct HA1 as (HA1 & nw & HO1 & HO2).
      assert (Hslot : forall y, In y (as_live a1) -> ah_slot y = i -> y = new).
      { intros y Hy Ey. apply (slot_unique (as_live a1)); [exact (ab_nodup _ _ (ai_base _ _ N1))|exact Hy|exact Hnew|exact Ey]. }
      destruct (is_complete h') eqn:EC.
      + destruct H7 as (-> & EL & EO). split.
        * intros y Hy. rewrite <- (HA1 y Hy), EL, without_In. split; [tauto|]. intro Hin. split; [exact Hin|]. intro Ey.
          rewrite (Hslot y Hin Ey) in Hy. now apply HIn in Hy.
        * apply add_packet_cnt in H6. cbn [live_heap_new lh_cnt] in H6.
          destruct (sc_stop_item c && lh_eos h'); destruct EO as [EO _]; rewrite EO, HO1; [exists nw; auto|].
          rewrite <- app_assoc. eexists. split; [reflexivity|]. apply Forall_app. split; [exact HO2|]. constructor; [|constructor].
          cbn [oh_heap]. apply HNo. now rewrite H6.
      + destruct H7 as (EL & EO & _). split; [|exists nw; rewrite EO; auto].
        intros y Hy. rewrite <- (HA1 y Hy), EL, with_heap_In. split.
        * intros [(z & Hz & Ez & ->)|[Hin _]]; [|exact Hin]. exfalso.
          assert (z = new) by now apply Hslot. subst z. cbn [ah_heap] in Hy.
          pose proof (ab_live _ _ (ai_base _ _ (gd_inv _ _ _ _ G'))) as HL'.
          assert (Hin' : In {| ah_slot := i; ah_uid := ah_uid new; ah_heap := h' |} (as_live a')).
          { rewrite EL. apply with_heap_In. left. exists new. auto. }
          destruct (HL' _ Hin') as (L1 & _). cbn [ah_uid ah_heap new] in L1.
          rewrite H4, nth_error_app2, Nat.sub_diag in L1 by lia. injection L1 as L1. now apply (HIn _ Hy).
        * intro Hin. right. split; [exact Hin|]. intro Ey. rewrite (Hslot y Hin Ey) in Hy. now apply HIn in Hy. }
  destruct HG as [HG1 HG2]. split.
  - intros u h Hh. rewrite (live_heaps_iff c s' a' u h R'), (live_heaps_iff c s a u h R). split.
    + intros (x & Hx & E1 & E2). exists x. split; [apply HG1; [now rewrite E2|exact Hx]|auto].
    + intros (x & Hx & E1 & E2). exists x. split; [apply HG1; [now rewrite E2|exact Hx]|auto].
  - rewrite (rf_out _ _ _ R'), (rf_out _ _ _ R). exact HG2.
Qed.
Print Assumptions C21_substreams_independent.

(** * Non-vacuity: two substreams of two heaps each. *)
Definition ex_sc : sconfig :=
  {| sc_max_heaps := 2; sc_substreams := 2; sc_allow_unsized := true; sc_allow_ooo := true; sc_stop_item := true |}.
(** A packet of a 4-byte heap *)
Definition ex_sp (cnt off : Z) (payload : list Z) : rpkt :=
  ex_rp (wire_packet 40 0
    ([encode_immediate 40 HEAP_CNT_ID cnt; encode_immediate 40 HEAP_LENGTH_ID 4;
      encode_immediate 40 PAYLOAD_OFFSET_ID off; encode_immediate 40 PAYLOAD_LENGTH_ID (zlen payload)]) payload).
Definition ex_ops1 : list op :=
  [Batch [ex_sp 2 0 [1; 2]; ex_sp 3 2 [7; 8]; ex_sp 4 2 [3; 4]; ex_sp 2 0 [9; 9]; ex_sp 6 0 [5]; ex_sp 4 0 [1; 2]] false].
Definition ex_ops2 : list op :=
  [Batch [ex_sp 3 0 [5; 6]; ex_sp 8 0 [1; 2; 3; 4]; ex_sp 2 2 [1; 1]] false; Flush; Batch [ex_sp 5 0 [1]] true].
Definition ex_run (ops : list op) : stream * list bool :=
  match run ex_sc (stream_new ex_sc) ops with Some r => r | None => (stream_new ex_sc, []) end.
Definition ex_summary (s : stream) :=
  (map (fun uh => (fst uh, lh_cnt (snd uh))) (live_heaps s), map (fun o => (oh_uid o, oh_why o, lh_cnt (oh_heap o))) (st_out s), st_hist s, st_stopped s).

Lemma ex_sc_ok : config_ok ex_sc.
Proof. unfold config_ok, ex_sc; cbn. repeat split; lia. Qed.
Ltac ops_dec := repeat (apply Forall_cons; [first [exact I|cbn [op_decoded]; repeat (apply Forall_cons; [ex_dec|]); apply Forall_nil]|]); apply Forall_nil.

(** Heaps 2 and 4 are open when 6 arrives, so 2 is evicted; 4 completes; 3
    (the other substream) is not affected. *)
Example C17_ex : reachable ex_sc (fst (ex_run ex_ops1)) (snd (ex_run ex_ops1)) /\
  ex_summary (fst (ex_run ex_ops1)) =
    ([(3%nat, 6); (1%nat, 3)], [(0%nat, Evicted, 2); (2%nat, Complete, 4)], [2; 3; 4; 6], false) /\
  snd (ex_run ex_ops1) = [true; true; true; false; true; true].
Proof.
  split; [split; [exact ex_sc_ok|]; exists ex_ops1; split; [ops_dec|vm_compute; reflexivity]|]. split; vm_compute; reflexivity.
Qed.
(** Later: 3 and 8 complete, a late packet of 2 starts a new heap, which evicts
    6 and is flushed; a last heap is flushed when the stream ends. *)
Example C18_ex : reachable ex_sc (fst (ex_run (ex_ops1 ++ ex_ops2))) (snd (ex_run (ex_ops1 ++ ex_ops2))) /\
  ex_summary (fst (ex_run (ex_ops1 ++ ex_ops2))) =
    ([], [(0%nat, Evicted, 2); (2%nat, Complete, 4); (1%nat, Complete, 3); (4%nat, Complete, 8); (3%nat, Evicted, 6); (5%nat, Flushed, 2); (6%nat, Flushed, 5)],
     [2; 3; 4; 6; 8; 2; 5], true).
Proof.
  split; [split; [exact ex_sc_ok|]; exists (ex_ops1 ++ ex_ops2); split; [ops_dec|vm_compute; reflexivity]|]. vm_compute; reflexivity.
Qed.
(** C19 in that state: 7 heaps, 2 evicted, 2 flushed, 10 packets. *)
Example C19_ex : let x := st_stats (fst (ex_run (ex_ops1 ++ ex_ops2))) in
  (ss_heaps x, ss_evicted x, ss_flushed x, ss_packets x) = (7, 2, 2, 10) /\ length (snd (ex_run (ex_ops1 ++ ex_ops2))) = 10%nat.
Proof. split; vm_compute; reflexivity. Qed.
(** C20: the stream of C18_ex is stopped; more packets do nothing. *)
Example C20_ex : st_stopped (fst (ex_run (ex_ops1 ++ ex_ops2))) = true /\ Forall op_decoded ex_ops1 /\
  option_map (fun r => (ex_summary (fst r), snd r)) (run ex_sc (fst (ex_run (ex_ops1 ++ ex_ops2))) ex_ops1) =
    Some (ex_summary (fst (ex_run (ex_ops1 ++ ex_ops2))), []).
Proof. split; [vm_compute; reflexivity|]. split; [ops_dec|vm_compute; reflexivity]. Qed.

(** C17_routing and C21: in the middle of a batch, a packet of heap 8
    (substream 0) evicts 6 and leaves heap 3 (substream 1) alone. *)
Definition ex_mid : stream * batch :=
  match batch_packets ex_sc (fst (ex_run ex_ops1)) (batch_new (fst (ex_run ex_ops1))) [ex_sp 10 0 [1]] with
  | Some (s, b, _) => (s, b) | None => (stream_new ex_sc, batch_new (stream_new ex_sc)) end.
Example C21_ex : mid_batch ex_sc (fst ex_mid) (snd ex_mid) /\ decoded (ex_sp 8 0 [1; 2]) /\
  get_substream ex_sc (rp_cnt (ex_sp 8 0 [1; 2])) <> 1%nat /\
  option_map (fun r => (ex_summary (fst (fst r)), snd r)) (stream_add_packet ex_sc (fst ex_mid) (snd ex_mid) (ex_sp 8 0 [1; 2])) =
   Some (([(4%nat, 10); (5%nat, 8); (1%nat, 3)], [(0%nat, Evicted, 2); (2%nat, Complete, 4); (3%nat, Evicted, 6)], [2; 3; 4; 6; 10; 8], false), true).
Proof.
  split.
  - exists (fst (ex_run ex_ops1)), (snd (ex_run ex_ops1)), [ex_sp 10 0 [1]]. eexists. split; [exact (proj1 C17_ex)|].
    split; [vm_compute; reflexivity|]. split; [apply Forall_cons; [ex_dec|apply Forall_nil]|]. vm_compute. reflexivity.
  - split; [ex_dec|]. split; [vm_compute; discriminate|vm_compute; reflexivity].
Qed.
