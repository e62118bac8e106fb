(** Invariants of the abstract receive stream. *)
From Coq Require Import ZArith List Lia Bool Permutation Sorted.
From Coq Require Import ZifyBool ZifyNat.
From Verif Require Import Base CodecModel RecvPacketModel RecvPacketProofs LiveHeapModel LiveHeapSpec LiveHeapProofs LiveHeapProps
  StreamModel StreamSpec StreamProofs.
Import ListNotations.
Open Scope Z_scope.

Definition ready_ok (c : sconfig) (hist : list Z) (log : list logent) (o : outheap) : Prop :=
  nth_error hist (oh_uid o) = Some (lh_cnt (oh_heap o)) /\ built c (oh_uid o) (oh_heap o) log /\
  match oh_why o with
  | Complete => is_complete (oh_heap o) = true
  | Evicted => is_complete (oh_heap o) = false /\
      (sc_max_heaps c <= started_after c (lh_cnt (oh_heap o)) (oh_uid o) hist)%nat
  | Flushed => is_complete (oh_heap o) = false
  end.

Definition uids (a : astream) : list nat := map ah_uid (as_live a) ++ map oh_uid (as_out a) ++ as_dropped a.

(** The invariant without the ring structure. *)
Record abase (c : sconfig) (a : astream) : Prop := {
  ab_subs : subs_ok c (as_subs a);
  ab_nodup : NoDup (map ah_slot (as_live a));
  ab_sorted : StronglySorted (fun x y => (ah_uid y < ah_uid x)%nat) (as_live a);
  ab_live : forall x, In x (as_live a) ->
    nth_error (as_hist a) (ah_uid x) = Some (lh_cnt (ah_heap x)) /\ built c (ah_uid x) (ah_heap x) (as_log a) /\
    is_complete (ah_heap x) = false;
  ab_out : forall o, In o (as_out a) -> ready_ok c (as_hist a) (as_log a) o;
  ab_drop : forall u, In u (as_dropped a) -> sc_stop_item c = true /\
     exists h, nth_error (as_hist a) u = Some (lh_cnt h) /\ built c u h (as_log a) /\ is_complete h = true /\ lh_eos h = true;
  ab_perm : Permutation (uids a) (seq 0 (length (as_hist a)));
  ab_log : forall e, In e (as_log a) -> (fst (fst e) < length (as_hist a))%nat /\ rpkt_ok (snd (fst e))
}.

(** The position of a live heap in the ring of its substream. *)
Definition ring_ok (c : sconfig) (a : astream) (x : aheap) : Prop :=
  let k := get_substream c (lh_cnt (ah_heap x)) in
  let n := started_after c (lh_cnt (ah_heap x)) (ah_uid x) (as_hist a) in
  (n < sc_max_heaps c)%nat /\ (k * sc_max_heaps c <= ah_slot x < S k * sc_max_heaps c)%nat /\
  exists hd, nth_error (as_subs a) k = Some ((k * sc_max_heaps c)%nat, hd) /\
    (ah_slot x + n = hd \/ ah_slot x + n = hd + sc_max_heaps c)%nat.

Record ainv (c : sconfig) (a : astream) : Prop := {
  ai_base : abase c a;
  ai_ring : forall x, In x (as_live a) -> ring_ok c a x
}.

Lemma abase_new c : config_ok c -> abase c (astream_new c).
Proof.
  intro Hc. constructor; cbn; try (intros ? []); try constructor. 1-3: apply (subs_ok_new c Hc).
Qed.
Lemma ainv_new c : config_ok c -> ainv c (astream_new c).
Proof. intro Hc. constructor; [now apply abase_new|]. intros x []. Qed.

(** * Packets offered *)
Lemma offered_snoc u log v p r : offered u (log ++ [(v, p, r)]) = offered u log ++ (if Nat.eqb v u then [(v, p, r)] else []).
Proof. unfold offered. rewrite filter_app. cbn [filter fst]. reflexivity. Qed.

Lemma built_other c u h log v p r : built c u h log -> v <> u -> built c u h (log ++ [(v, p, r)]).
Proof.
  intros (p0 & H1 & H2 & H3 & H4) Hv. unfold built, offered_pkts, offered_res in *. rewrite offered_snoc.
  destruct (Nat.eqb_spec v u); [contradiction|]. rewrite app_nil_r. exists p0. auto.
Qed.

Lemma add_packets_snoc ooo ps : forall h h1 bs p, add_packets h ooo ps = Some (h1, bs) ->
  add_packets h ooo (ps ++ [p]) =
  match add_packet h1 p ooo with Fault => None | Rejected => Some (h1, bs ++ [false]) | Added h2 => Some (h2, bs ++ [true]) end.
Proof.
  induction ps as [|q ps IH]; intros h h1 bs p H; cbn [add_packets app] in *.
  - injection H as <- <-. destruct (add_packet h p ooo); reflexivity.
  - destruct (add_packet h q ooo) as [| |h2]; [discriminate| |].
    + destruct (add_packets h ooo ps) as [[h' bs']|] eqn:E; [|discriminate]. injection H as <- <-.
      rewrite (IH _ _ _ p E). destruct (add_packet h' p ooo); reflexivity.
    + destruct (add_packets h2 ooo ps) as [[h' bs']|] eqn:E; [|discriminate]. injection H as <- <-.
      rewrite (IH _ _ _ p E). destruct (add_packet h' p ooo); reflexivity.
Qed.

Lemma built_step c u h log p (r : bool) h' : built c u h log -> rp_cnt p = lh_cnt h ->
  offered_pkts u log <> [] \/ h = live_heap_new p ->
  add_packet h p (sc_allow_ooo c) = (if r then Added h' else Rejected) -> (r = false -> h' = h) ->
  built c u h' (log ++ [(u, p, r)]).
Proof.
  intros (p0 & H1 & H2 & H3 & H4) Hp Hne HA Hr.
  assert (Hc : lh_cnt h' = lh_cnt h) by (destruct r; [now apply add_packet_cnt in HA|now rewrite Hr]).
  unfold built. unfold offered_pkts, offered_res in *. rewrite offered_snoc, Nat.eqb_refl, !map_app. cbn [map fst snd].
  assert (HAP : forall q, add_packets (live_heap_new q) (sc_allow_ooo c) (map (fun e => snd (fst e)) (offered u log)) = Some (h, map snd (offered u log)) ->
     add_packets (live_heap_new q) (sc_allow_ooo c) (map (fun e => snd (fst e)) (offered u log) ++ [p]) = Some (h', map snd (offered u log) ++ [r])).
  { intros q Hq. rewrite (add_packets_snoc _ _ _ _ _ p Hq), HA. destruct r; [reflexivity|]. now rewrite Hr. }
  rewrite Hc.
  destruct (map (fun e => snd (fst e)) (offered u log)) as [|q ps] eqn:EO.
  - destruct Hne as [Hne| ->]; [contradiction|]. exists p. split; [exact Hp|]. split; [intros q0 E; cbn in E; congruence|].
    split; [constructor; [exact Hp|constructor]|]. apply HAP.
    destruct (offered u log); [reflexivity|discriminate].
  - exists p0. split; [exact H1|]. split; [exact H2|]. split; [apply Forall_app; split; [exact H3|constructor; [exact Hp|constructor]]|].
    now apply HAP.
Qed.

Lemma built_inv c u h log : (forall e, In e log -> rpkt_ok (snd (fst e))) -> built c u h log ->
  heap_inv (sc_allow_ooo c) h (added (offered_pkts u log) (offered_res u log)).
Proof.
  intros HL (p0 & _ & _ & _ & H4).
  destruct (add_packets_inv (sc_allow_ooo c) (offered_pkts u log) (live_heap_new p0) [] (heap_inv_new _ p0)) as (h' & bs' & HE & _ & HI & _).
  - unfold offered_pkts. apply Forall_forall. intros q Hq. apply in_map_iff in Hq as (e & <- & He).
    apply HL. now apply filter_In in He.
  - rewrite H4 in HE. injection HE as <- <-. exact HI.
Qed.

Lemma fresh_no_fault c p : rpkt_ok p -> exists h, add_packet (live_heap_new p) p (sc_allow_ooo c) = Added h \/ add_packet (live_heap_new p) p (sc_allow_ooo c) = Rejected.
Proof.
  intro Hp. destruct (add_packet_step (sc_allow_ooo c) _ [] p (heap_inv_new _ p) Hp) as [H|(h & H & _)]; [exists (live_heap_new p); now right|exists h; now left].
Qed.

Lemma abase_safe c a p : abase c a -> rpkt_ok p -> safe_heaps c a p.
Proof.
  intros HB Hp. split.
  - intros x Hx. destruct (ab_live _ _ HB x Hx) as (_ & H2 & _).
    assert (HI : heap_inv (sc_allow_ooo c) (ah_heap x) (added (offered_pkts (ah_uid x) (as_log a)) (offered_res (ah_uid x) (as_log a)))).
    { apply built_inv; [|exact H2]. intros e He. now apply (ab_log _ _ HB). }
    destruct (add_packet_step _ _ _ p HI Hp) as [E|(h' & E & _)]; rewrite E; discriminate.
  - destruct (fresh_no_fault c p Hp) as (h & [E|E]); rewrite E; discriminate.
Qed.

(** * Starting a heap *)
Lemma without_In i L x : In x (without_slot i L) <-> In x L /\ ah_slot x <> i.
Proof.
  unfold without_slot. rewrite filter_In. unfold in_slot. split.
  - intros [H1 H2]. split; [exact H1|]. intro E. rewrite E, Nat.eqb_refl in H2. discriminate.
  - intros [H1 H2]. split; [exact H1|]. apply Nat.eqb_neq in H2. now rewrite H2.
Qed.
Lemma sorted_filter {A} (R : A -> A -> Prop) f l : StronglySorted R l -> StronglySorted R (filter f l).
Proof.
  induction 1 as [|x l H IH HF]; cbn [filter]; [constructor|]. destruct (f x); [|exact IH].
  constructor; [exact IH|]. rewrite Forall_forall in *. intros y Hy. apply filter_In in Hy as [Hy _]. now apply HF.
Qed.

Lemma started_after_snoc c cnt u hist k : (u < length hist)%nat ->
  started_after c cnt u (hist ++ [k]) = (started_after c cnt u hist + (if in_sub c (get_substream c cnt) k then 1 else 0))%nat.
Proof.
  intro H. unfold started_after. rewrite skipn_app. replace (S u - length hist)%nat with 0%nat by lia. cbn [skipn].
  rewrite filter_app, app_length. cbn [filter]. destruct (in_sub _ _ k); reflexivity.
Qed.

Lemma ready_ok_hist c hist log o k : ready_ok c hist log o -> ready_ok c (hist ++ [k]) log o.
Proof.
  intros (H1 & H2 & H3). assert (HL : (oh_uid o < length hist)%nat) by (apply nth_error_Some; congruence).
  split; [now rewrite nth_error_app1|]. split; [exact H2|]. destruct (oh_why o); try exact H3.
  destruct H3 as [H3 H4]. split; [exact H3|]. rewrite started_after_snoc by exact HL. lia.
Qed.
Lemma nth_hist_lt {A} (l : list A) i x : nth_error l i = Some x -> (i < length l)%nat.
Proof. intro H. apply nth_error_Some. congruence. Qed.

Lemma perm_without i L x : NoDup (map ah_slot L) -> In x L -> ah_slot x = i ->
  Permutation (map ah_uid L) (ah_uid x :: map ah_uid (without_slot i L)).
Proof.
  intros HN Hx Hi. apply in_split in Hx as (l1 & l2 & ->). unfold without_slot.
  rewrite map_app in HN. cbn [map] in HN. apply NoDup_remove in HN as [_ HN].
  assert (G : forall l, (forall y, In y l -> In y (l1 ++ l2)) -> filter (fun a => negb (in_slot i a)) l = l).
  { induction l as [|y l IH]; intro Hl; [reflexivity|]. cbn [filter]. unfold in_slot at 1.
    destruct (Nat.eqb_spec (ah_slot y) i) as [E|E].
    - exfalso. apply HN. rewrite Hi, <- E, <- map_app. apply in_map, Hl. now left.
    - cbn [negb]. now rewrite IH by (intros; apply Hl; now right). }
  rewrite filter_app. cbn [filter]. unfold in_slot at 2. rewrite Hi, Nat.eqb_refl. cbn [negb].
  rewrite !G by (intros; apply in_or_app; auto). rewrite !map_app. cbn [map]. symmetry. apply Permutation_middle.
Qed.

Lemma map_without_incl i L : forall y, In y (map ah_slot (without_slot i L)) -> In y (map ah_slot L).
Proof. intros y Hy. apply in_map_iff in Hy as (x & <- & Hx). apply without_In in Hx as [Hx _]. now apply in_map. Qed.
Lemma NoDup_without i L : NoDup (map ah_slot L) -> NoDup (map ah_slot (without_slot i L)).
Proof. intro H. now apply NoDup_map_filter. Qed.

Definition log_below (a : astream) : Prop := forall e, In e (as_log a) -> (fst (fst e) < length (as_hist a))%nat.
Lemma offered_fresh u log : (forall e, In e log -> (fst (fst e) < u)%nat) -> offered u log = [].
Proof.
  induction log as [|e log IH]; intro H; [reflexivity|]. unfold offered in *. cbn [filter].
  pose proof (H e (or_introl eq_refl)). destruct (Nat.eqb_spec (fst (fst e)) u); [lia|]. apply IH. intros; apply H; now right.
Qed.

Lemma new_entry_inv c a p a' i n :
  config_ok c -> ainv c a -> a_new_entry c a p = Some (a', i, n) ->
  ainv c a' /\ as_hist a' = as_hist a ++ [rp_cnt p] /\ as_log a' = as_log a /\ as_dropped a' = as_dropped a /\
  as_stopped a' = as_stopped a /\ as_stats a' = as_stats a /\
  exists L0, as_live a' = {| ah_slot := i; ah_uid := length (as_hist a); ah_heap := live_heap_new p |} :: L0 /\
    ((n = 0 /\ L0 = as_live a /\ as_out a' = as_out a) \/
     (n = 1 /\ exists x, In x (as_live a) /\ ah_slot x = i /\ L0 = without_slot i (as_live a) /\
        get_substream c (lh_cnt (ah_heap x)) = get_substream c (rp_cnt p) /\
        started_after c (lh_cnt (ah_heap x)) (ah_uid x) (as_hist a') = sc_max_heaps c /\
        as_out a' = as_out a ++ [{| oh_uid := ah_uid x; oh_why := Evicted; oh_heap := ah_heap x |}])).
Proof.
  intros Hc HI HA. pose proof (ai_base _ _ HI) as HB. unfold a_new_entry in HA.
  set (k := get_substream c (rp_cnt p)) in *.
  pose proof (get_substream_lt c (rp_cnt p) Hc) as Hk. fold k in Hk.
  destruct (next_head_ok c (as_subs a) k (ab_subs _ _ HB) Hk (proj1 Hc)) as (j & HN & Hj & Hjt & HS' & Hnth & (h0 & Hh0 & Hj2)).
  rewrite HN in HA. set (subs' := set_nth (as_subs a) k ((k * sc_max_heaps c)%nat, j)) in *.
  pose proof (so_head _ _ (ab_subs _ _ HB) k _ Hk Hh0) as Hh0r. cbn [snd] in Hh0r.
  assert (Hm : (0 < sc_max_heaps c)%nat) by apply Hc.
  (* ring positions advance *)
  assert (HR : forall x, In x (as_live a) ->
     let cnt := lh_cnt (ah_heap x) in
     let m := started_after c cnt (ah_uid x) (as_hist a ++ [rp_cnt p]) in
     (ah_slot x = j -> get_substream c cnt = k /\ m = sc_max_heaps c) /\
     (ah_slot x <> j -> (m < sc_max_heaps c)%nat /\ (get_substream c cnt * sc_max_heaps c <= ah_slot x < S (get_substream c cnt) * sc_max_heaps c)%nat /\
        exists hd, nth_error subs' (get_substream c cnt) = Some ((get_substream c cnt * sc_max_heaps c)%nat, hd) /\
          (ah_slot x + m = hd \/ ah_slot x + m = hd + sc_max_heaps c)%nat)).
  { intros x Hx cnt m. destruct (ab_live _ _ HB x Hx) as (L1 & _). destruct (ai_ring _ _ HI x Hx) as (R1 & R2 & hd & R3 & R4).
    fold cnt in R1, R2, R3, R4, L1.
    set (kx := get_substream c cnt) in *. set (m0 := started_after c cnt (ah_uid x) (as_hist a)) in *.
    assert (Em : m = (m0 + (if Nat.eqb k kx then 1 else 0))%nat).
    { unfold m. rewrite started_after_snoc by (exact (nth_hist_lt _ _ _ L1)). unfold in_sub. fold kx. fold k. reflexivity. }
    clearbody m m0.
    destruct (Nat.eq_dec kx k) as [Ek|Ek].
    - rewrite Ek in *. rewrite Nat.eqb_refl in Em. rewrite Hh0 in R3. injection R3 as <-.
      destruct (Nat.eqb_spec (S h0) (S k * sc_max_heaps c)) as [EE|EE].
      + split.
        * intro Es. split; [reflexivity|]. lia.
        * intro Es. split; [lia|]. split; [lia|]. exists j. split; [exact Hnth|]. lia.
      + split.
        * intro Es. split; [reflexivity|]. lia.
        * intro Es. split; [lia|]. split; [lia|]. exists j. split; [exact Hnth|]. lia.
    - destruct (Nat.eqb_spec k kx) as [Ek'|_]; [congruence|]. split.
      + intro Es. exfalso. rewrite Es in R2. assert (kx < k \/ k < kx)%nat as [HH|HH] by lia.
        * assert (S kx * sc_max_heaps c <= k * sc_max_heaps c)%nat by (apply Nat.mul_le_mono_r; lia). lia.
        * assert (S k * sc_max_heaps c <= kx * sc_max_heaps c)%nat by (apply Nat.mul_le_mono_r; lia). lia.
      + intros _. split; [lia|]. split; [exact R2|]. exists hd. split; [unfold subs'; rewrite nth_set_other by exact Ek; exact R3|]. lia. }
  unfold a_eject in HA. cbn [a_set_subs as_live] in HA.
  set (new := {| ah_slot := j; ah_uid := length (as_hist a); ah_heap := live_heap_new p |}).
  assert (HBN : built c (length (as_hist a)) (live_heap_new p) (as_log a)).
  { exists p. split; [reflexivity|]. unfold offered_pkts, offered_res. rewrite offered_fresh; [|intros e He; now apply (ab_log _ _ HB)].
    cbn. split; [discriminate|]. split; [constructor|]. reflexivity. }
  assert (HRN : forall b, as_hist b = as_hist a ++ [rp_cnt p] -> as_subs b = subs' -> ring_ok c b new).
  { intros b Eh Es. unfold ring_ok. cbn [new ah_heap ah_uid ah_slot live_heap_new lh_cnt]. fold k. rewrite Eh, Es.
    unfold started_after. rewrite skipn_all2 by (rewrite app_length; cbn [length]; lia). cbn [filter length].
    split; [exact Hm|]. split; [exact Hj|]. exists j. split; [exact Hnth|]. lia. }
  assert (Hlast : nth_error (as_hist a ++ [rp_cnt p]) (length (as_hist a)) = Some (rp_cnt p)).
  { rewrite nth_error_app2 by lia. now rewrite Nat.sub_diag. }
  assert (Hnc : is_complete (live_heap_new p) = false) by reflexivity.
  assert (Hold : forall x, In x (as_live a) -> (ah_uid x < length (as_hist a))%nat).
  { intros x Hx. destruct (ab_live _ _ HB x Hx) as (L1 & _). exact (nth_hist_lt _ _ _ L1). }
  assert (HLV : forall x, In x (as_live a) -> nth_error (as_hist a ++ [rp_cnt p]) (ah_uid x) = Some (lh_cnt (ah_heap x)) /\
      built c (ah_uid x) (ah_heap x) (as_log a) /\ is_complete (ah_heap x) = false).
  { intros x Hx. destruct (ab_live _ _ HB x Hx) as (L1 & L2). split; [|exact L2]. rewrite nth_error_app1; [exact L1|now apply Hold]. }
  assert (HOT : forall o, In o (as_out a) -> ready_ok c (as_hist a ++ [rp_cnt p]) (as_log a) o).
  { intros o Ho. apply ready_ok_hist. now apply (ab_out _ _ HB). }
  assert (HDR : forall u, In u (as_dropped a) -> sc_stop_item c = true /\
     exists h, nth_error (as_hist a ++ [rp_cnt p]) u = Some (lh_cnt h) /\ built c u h (as_log a) /\ is_complete h = true /\ lh_eos h = true).
  { intros u Hu. destruct (ab_drop _ _ HB u Hu) as (D0 & h & D1 & D2). split; [exact D0|]. exists h. split; [|exact D2].
    rewrite nth_error_app1; [exact D1|exact (nth_hist_lt _ _ _ D1)]. }
  assert (HLG : forall e, In e (as_log a) -> (fst (fst e) < length (as_hist a ++ [rp_cnt p]))%nat /\ rpkt_ok (snd (fst e))).
  { intros e He. destruct (ab_log _ _ HB e He) as [G1 G2]. split; [rewrite app_length; lia|exact G2]. }
  assert (HPM : forall l, Permutation l (seq 0 (length (as_hist a))) -> Permutation (length (as_hist a) :: l) (seq 0 (length (as_hist a ++ [rp_cnt p])))).
  { intros l Hl. rewrite app_length. cbn [length]. rewrite Nat.add_1_r, seq_S. cbn [Nat.add]. rewrite <- Permutation_cons_append. now apply perm_skip. }
  destruct (slot_heap j (as_live a)) as [x|] eqn:Ex.
  - pose proof (slot_heap_In _ _ _ Ex) as [Hx Hxj]. destruct (proj1 (HR x Hx) Hxj) as [Hxk Hxm].
    injection HA as <- <- <-. cbn [a_add_hist a_set_live a_ready a_set_subs as_live as_subs as_hist as_log as_dropped as_stopped as_stats as_out].
    split; [|split; [reflexivity|split; [reflexivity|split; [reflexivity|split; [reflexivity|split; [reflexivity|]]]]]].
    + constructor; [constructor|]; cbn [a_add_hist a_set_live a_ready a_set_subs as_live as_subs as_hist as_log as_dropped as_stopped as_stats as_out].
      * exact HS'.
      * cbn [map ah_slot]. constructor; [apply without_not_in|]. apply NoDup_without, (ab_nodup _ _ HB).
      * constructor; [apply sorted_filter, (ab_sorted _ _ HB)|]. apply Forall_forall. intros y Hy. cbn [ah_uid].
        apply without_In in Hy as [Hy _]. now apply Hold.
      * intros y [<-|Hy]; [cbn [ah_uid ah_heap live_heap_new lh_cnt]; split; [exact Hlast|split; [exact HBN|exact Hnc]]|].
        apply without_In in Hy as [Hy _]. now apply HLV.
      * intros o Ho. apply in_app_or in Ho as [Ho|[<-|[]]]; [now apply HOT|]. destruct (HLV x Hx) as (V1 & V2 & V3).
        split; [exact V1|]. split; [exact V2|]. cbn [oh_why oh_heap oh_uid]. split; [exact V3|]. rewrite Hxm. lia.
      * exact HDR.
      * unfold uids. cbn [as_live as_out as_dropped map ah_uid app a_add_hist a_set_live a_ready a_set_subs as_hist].
        apply HPM. rewrite <- (ab_perm _ _ HB). unfold uids. rewrite map_app. cbn [map oh_uid].
        rewrite (perm_without j (as_live a) x (ab_nodup _ _ HB) Hx Hxj). cbn [app].
        rewrite <- app_assoc. cbn [app]. rewrite !app_assoc. symmetry. apply (Permutation_middle (map ah_uid (without_slot j (as_live a)) ++ map oh_uid (as_out a)) (as_dropped a)).
      * exact HLG.
      * intros y [<-|Hy]; [now apply HRN|]. apply without_In in Hy as [Hy Hyj].
        destruct (proj2 (HR y Hy) Hyj) as (Y1 & Y2 & Y3). unfold ring_ok.
        cbn [a_add_hist a_set_live a_ready a_set_subs as_live as_subs as_hist]. auto.
    + eexists. split; [reflexivity|]. right. split; [reflexivity|]. exists x. repeat split; assumption.
  - injection HA as <- <- <-. cbn [a_add_hist a_set_live a_ready a_set_subs as_live as_subs as_hist as_log as_dropped as_stopped as_stats as_out].
    split; [|split; [reflexivity|split; [reflexivity|split; [reflexivity|split; [reflexivity|split; [reflexivity|]]]]]].
    + assert (Hnj : forall y, In y (as_live a) -> ah_slot y <> j).
      { intros y Hy E. apply slot_heap_None in Ex. apply Ex. rewrite <- E. now apply in_map. }
      constructor; [constructor|]; cbn [a_add_hist a_set_live a_ready a_set_subs as_live as_subs as_hist as_log as_dropped as_stopped as_stats as_out].
      * exact HS'.
      * cbn [map ah_slot]. constructor; [now apply slot_heap_None|]. apply (ab_nodup _ _ HB).
      * constructor; [apply (ab_sorted _ _ HB)|]. apply Forall_forall. intros y Hy. cbn [ah_uid]. now apply Hold.
      * intros y [<-|Hy]; [cbn [ah_uid ah_heap live_heap_new lh_cnt]; split; [exact Hlast|split; [exact HBN|exact Hnc]]|]. now apply HLV.
      * exact HOT.
      * exact HDR.
      * unfold uids. cbn [as_live as_out as_dropped map ah_uid app a_add_hist a_set_live a_ready a_set_subs as_hist].
        apply HPM. exact (ab_perm _ _ HB).
      * exact HLG.
      * intros y [<-|Hy]; [now apply HRN|].
        destruct (proj2 (HR y Hy) (Hnj y Hy)) as (Y1 & Y2 & Y3). unfold ring_ok.
        cbn [a_add_hist a_set_live a_ready a_set_subs as_live as_subs as_hist]. auto.
    + eexists. split; [reflexivity|]. left. split; [reflexivity|]. split; reflexivity.
Qed.

(** * Offering a packet to a heap *)
Lemma with_heap_In i h L y : In y (with_heap i h L) <->
  (exists x, In x L /\ ah_slot x = i /\ y = {| ah_slot := i; ah_uid := ah_uid x; ah_heap := h |}) \/ (In y L /\ ah_slot y <> i).
Proof.
  unfold with_heap. rewrite in_map_iff. unfold in_slot. split.
  - intros (x & <- & Hx). destruct (Nat.eqb_spec (ah_slot x) i) as [E|E]; [left; exists x; rewrite E; auto|right; auto].
  - intros [(x & Hx & E & ->)|[Hy E]].
    + exists x. rewrite E, Nat.eqb_refl. auto.
    + exists y. apply Nat.eqb_neq in E. rewrite E. auto.
Qed.
Lemma map_with_heap {B} (f : aheap -> B) i h L :
  (forall x, f {| ah_slot := ah_slot x; ah_uid := ah_uid x; ah_heap := h |} = f x) -> map f (with_heap i h L) = map f L.
Proof. intro H. unfold with_heap. rewrite map_map. apply map_ext. intro x. destruct (in_slot i x); [apply H|reflexivity]. Qed.

Lemma sorted_with_heap i h L : StronglySorted (fun x y => (ah_uid y < ah_uid x)%nat) L ->
  StronglySorted (fun x y => (ah_uid y < ah_uid x)%nat) (with_heap i h L).
Proof.
  induction 1 as [|x L H IH HF]; [constructor|]. cbn [with_heap map]. constructor; [exact IH|].
  rewrite Forall_forall in *. intros y Hy. apply in_map_iff in Hy as (z & <- & Hz). specialize (HF z Hz).
  destruct (in_slot i x), (in_slot i z); exact HF.
Qed.

Lemma uid_inj a x y : NoDup (uids a) -> In x (as_live a) -> In y (as_live a) -> ah_uid x = ah_uid y -> x = y.
Proof.
  intros HN Hx Hy E. unfold uids in HN.
  assert (HN' : NoDup (map ah_uid (as_live a))).
  { revert HN. generalize (map oh_uid (as_out a) ++ as_dropped a) as r. generalize (map ah_uid (as_live a)) as l.
    induction l as [|z l IH]; intros r H; [constructor|]. cbn [app] in H. inversion H as [|? ? H1 H2]; subst. constructor; [|now apply IH in H2].
    intro Hz. apply H1. apply in_or_app. now left. }
  clear HN. revert HN' Hx Hy. induction (as_live a) as [|z l IH]; intros HN Hx Hy; [destruct Hx|]. cbn [map] in HN. inversion HN as [|? ? H1 H2]; subst.
  destruct Hx as [->|Hx], Hy as [->|Hy]; [reflexivity| | |now apply IH].
  - exfalso. apply H1. rewrite E. now apply in_map.
  - exfalso. apply H1. rewrite <- E. now apply in_map.
Qed.

Lemma ab_NoDup c a : abase c a -> NoDup (uids a).
Proof. intro H. eapply Permutation_NoDup; [symmetry; exact (ab_perm _ _ H)|apply seq_NoDup]. Qed.

Lemma ready_ok_log c hist log o v p r : ready_ok c hist log o -> v <> oh_uid o -> ready_ok c hist (log ++ [(v, p, r)]) o.
Proof. intros (H1 & H2 & H3) Hv. split; [exact H1|]. split; [now apply built_other|exact H3]. Qed.

Definition count_one (w : reason) (o : outheap) : Z := count_why w [o].
Lemma count_why_app w l1 l2 : count_why w (l1 ++ l2) = count_why w l1 + count_why w l2.
Proof. unfold count_why. rewrite filter_app. apply zlen_app. Qed.

Lemma feed_inv c a b i p a' b' r x :
  ainv c a -> slot_heap i (as_live a) = Some x -> rp_cnt p = lh_cnt (ah_heap x) -> rpkt_ok p ->
  offered_pkts (ah_uid x) (as_log a) <> [] \/ ah_heap x = live_heap_new p ->
  a_feed c a b i p = Some (a', b', r) ->
  ainv c a' /\ as_hist a' = as_hist a /\ as_stopped a' = as_stopped a /\ as_stats a' = as_stats a /\ as_subs a' = as_subs a /\
  as_log a' = as_log a ++ [(ah_uid x, p, r)] /\
  ba_packets b' = ba_packets b /\ ba_evicted b' = ba_evicted b /\ ba_single b' = ba_single b /\
  exists h', add_packet (ah_heap x) p (sc_allow_ooo c) = (if r then Added h' else Rejected) /\
  ((* still live *)
   (is_complete h' = false /\ as_live a' = with_heap i h' (as_live a) /\
    as_out a' = as_out a /\ as_dropped a' = as_dropped a /\ ba_complete b' = ba_complete b /\
    (ba_stopped b' = ba_stopped b || (r && sc_stop_item c && lh_eos h'))) \/
   (r = true /\ is_complete h' = true /\ as_live a' = without_slot i (as_live a) /\
    ((sc_stop_item c && lh_eos h' = false /\ as_dropped a' = as_dropped a /\ ba_complete b' = ba_complete b + 1 /\ ba_stopped b' = ba_stopped b /\
      as_out a' = as_out a ++ [{| oh_uid := ah_uid x; oh_why := Complete; oh_heap := h' |}]) \/
     (sc_stop_item c && lh_eos h' = true /\ as_out a' = as_out a /\ ba_complete b' = ba_complete b /\ ba_stopped b' = true /\
      as_dropped a' = as_dropped a ++ [ah_uid x])))).
Proof.
  intros HI Hs Hcnt Hp Hne HA. pose proof (ai_base _ _ HI) as HB. pose proof (ab_NoDup _ _ HB) as HND.
  pose proof (slot_heap_In _ _ _ Hs) as [Hx Hxi]. destruct (ab_live _ _ HB x Hx) as (X1 & X2 & X3).
  unfold a_feed in HA. rewrite Hs in HA.
  assert (Hlen : (ah_uid x < length (as_hist a))%nat) by (exact (nth_hist_lt _ _ _ X1)).
  assert (HLG : forall r e, In e (as_log a ++ [(ah_uid x, p, r)]) -> (fst (fst e) < length (as_hist a))%nat /\ rpkt_ok (snd (fst e))).
  { intros r0 e He. apply in_app_or in He as [He|[<-|[]]]; [now apply (ab_log _ _ HB)|]. split; assumption. }
  assert (HOuid : forall o, In o (as_out a) -> ah_uid x <> oh_uid o).
  { intros o Ho E. unfold uids in HND. apply in_split in Hx as (l1 & l2 & El). rewrite El, map_app in HND. cbn [map] in HND.
    rewrite <- app_assoc in HND. apply NoDup_remove in HND as [_ HND]. apply HND. apply in_or_app. right. apply in_or_app. right.
    apply in_or_app. left. rewrite E. now apply in_map. }
  assert (HDuid : forall u, In u (as_dropped a) -> ah_uid x <> u).
  { intros u Hu E. unfold uids in HND. apply in_split in Hx as (l1 & l2 & El). rewrite El, map_app in HND. cbn [map] in HND.
    rewrite <- app_assoc in HND. apply NoDup_remove in HND as [_ HND]. apply HND. apply in_or_app. right. apply in_or_app. right.
    apply in_or_app. right. congruence. }
  assert (HOT : forall r o, In o (as_out a) -> ready_ok c (as_hist a) (as_log a ++ [(ah_uid x, p, r)]) o).
  { intros r0 o Ho. apply ready_ok_log; [now apply (ab_out _ _ HB)|now apply HOuid]. }
  assert (HDR : forall r u, In u (as_dropped a) -> sc_stop_item c = true /\
     exists h, nth_error (as_hist a) u = Some (lh_cnt h) /\ built c u h (as_log a ++ [(ah_uid x, p, r)]) /\ is_complete h = true /\ lh_eos h = true).
  { intros r0 u Hu. destruct (ab_drop _ _ HB u Hu) as (D0 & h & D1 & D2 & D3). split; [exact D0|]. exists h. split; [exact D1|].
    split; [|exact D3]. apply built_other; [exact D2|now apply HDuid]. }
  assert (HLV : forall r y, In y (as_live a) -> ah_slot y <> i -> nth_error (as_hist a) (ah_uid y) = Some (lh_cnt (ah_heap y)) /\
      built c (ah_uid y) (ah_heap y) (as_log a ++ [(ah_uid x, p, r)]) /\ is_complete (ah_heap y) = false).
  { intros r0 y Hy Hyi. destruct (ab_live _ _ HB y Hy) as (Y1 & Y2 & Y3). split; [exact Y1|]. split; [|exact Y3].
    apply built_other; [exact Y2|]. intro E. apply Hyi. rewrite <- Hxi. f_equal. symmetry. now apply (uid_inj a). }
  destruct (add_packet (ah_heap x) p (sc_allow_ooo c)) as [| |h'] eqn:EA; [discriminate| |].
  - injection HA as <- <- <-. cbn [a_add_log as_live as_subs as_hist as_log as_dropped as_stopped as_stats as_out].
    assert (HW : with_heap i (ah_heap x) (as_live a) = as_live a).
    { unfold with_heap. rewrite <- (map_id (as_live a)) at 2. apply map_ext_in. intros y Hy. unfold in_slot.
      destruct (Nat.eqb_spec (ah_slot y) i) as [E|E]; [|reflexivity].
      assert (y = x) by (apply (slot_unique (as_live a)); [exact (ab_nodup _ _ HB)|exact Hy|exact Hx|congruence]). subst y. destruct x; reflexivity. }
    split.
    { constructor; [constructor|]; cbn [a_add_log as_live as_subs as_hist as_log as_dropped as_stopped as_stats as_out].
      - exact (ab_subs _ _ HB).
      - exact (ab_nodup _ _ HB).
      - exact (ab_sorted _ _ HB).
      - intros y Hy. destruct (Nat.eq_dec (ah_slot y) i) as [E|E]; [|now apply HLV].
        assert (y = x) by (apply (slot_unique (as_live a)); [exact (ab_nodup _ _ HB)|exact Hy|exact Hx|congruence]). subst y.
        split; [exact X1|]. split; [|exact X3]. apply (built_step c _ _ _ p false (ah_heap x) X2 Hcnt Hne EA). reflexivity.
      - apply HOT.
      - apply HDR.
      - exact (ab_perm _ _ HB).
      - apply HLG.
      - intros y Hy. exact (ai_ring _ _ HI y Hy). }
    repeat (split; [reflexivity|]). exists (ah_heap x). split; [reflexivity|]. left. split; [exact X3|]. split; [now symmetry|].
    repeat (split; [reflexivity|]). cbn [andb]. now rewrite orb_false_r.
  - pose proof (add_packet_cnt _ _ _ _ EA) as Hc'.
    assert (HBS : built c (ah_uid x) h' (as_log a ++ [(ah_uid x, p, true)])).
    { apply (built_step c _ _ _ p true h' X2 Hcnt Hne EA). discriminate. }
    destruct (is_complete h') eqn:EC.
    + injection HA as <- <- <-.
      assert (HG : forall why, why = Complete -> Permutation (map ah_uid (without_slot i (as_live a)) ++ map oh_uid (as_out a ++ [{| oh_uid := ah_uid x; oh_why := why; oh_heap := h' |}]) ++ as_dropped a) (uids a)).
      { intros why _. unfold uids. rewrite (perm_without i _ x (ab_nodup _ _ HB) Hx Hxi). rewrite map_app. cbn [map oh_uid app].
        rewrite <- app_assoc. cbn [app]. rewrite !app_assoc. symmetry.
        apply (Permutation_middle (map ah_uid (without_slot i (as_live a)) ++ map oh_uid (as_out a)) (as_dropped a)). }
      destruct (sc_stop_item c && lh_eos h') eqn:EE; cbn [a_add_log a_set_live a_ready a_drop as_live as_subs as_hist as_log as_dropped as_stopped as_stats as_out].
      * apply andb_true_iff in EE as [EE1 EE2].
        split; [constructor; [constructor|]|]; cbn [a_add_log a_set_live a_ready a_drop as_live as_subs as_hist as_log as_dropped as_stopped as_stats as_out].
        -- exact (ab_subs _ _ HB).
        -- apply NoDup_without, (ab_nodup _ _ HB).
        -- apply sorted_filter, (ab_sorted _ _ HB).
        -- intros y Hy. apply without_In in Hy as [Hy Hyi]. now apply HLV.
        -- apply HOT.
        -- intros u Hu. apply in_app_or in Hu as [Hu|[<-|[]]]; [now apply HDR|]. split; [exact EE1|]. exists h'. rewrite Hc'. auto.
        -- unfold uids. cbn [a_add_log a_set_live a_ready a_drop as_live as_subs as_hist as_log as_dropped as_stopped as_stats as_out].
           rewrite <- (ab_perm _ _ HB). unfold uids. rewrite (perm_without i _ x (ab_nodup _ _ HB) Hx Hxi).
           cbn [app]. rewrite !app_assoc. symmetry.
           apply (Permutation_cons_append (A := nat) ((map ah_uid (without_slot i (as_live a)) ++ map oh_uid (as_out a)) ++ as_dropped a) (ah_uid x)).
        -- apply HLG.
        -- intros y Hy. apply without_In in Hy as [Hy Hyi]. exact (ai_ring _ _ HI y Hy).
        -- repeat (split; [reflexivity|]). exists h'. split; [reflexivity|]. right. split; [reflexivity|]. split; [exact EC|]. split; [reflexivity|].
           right. rewrite EE1, EE2. cbn [ba_complete ba_stopped andb negb]. split; [reflexivity|]. split; [reflexivity|]. split; [lia|]. split; [apply orb_true_r|reflexivity].
      * split; [constructor; [constructor|]|]; cbn [a_add_log a_set_live a_ready a_drop as_live as_subs as_hist as_log as_dropped as_stopped as_stats as_out].
        -- exact (ab_subs _ _ HB).
        -- apply NoDup_without, (ab_nodup _ _ HB).
        -- apply sorted_filter, (ab_sorted _ _ HB).
        -- intros y Hy. apply without_In in Hy as [Hy Hyi]. now apply HLV.
        -- intros o Ho. apply in_app_or in Ho as [Ho|[<-|[]]]; [now apply HOT|]. unfold ready_ok. cbn [oh_uid oh_heap oh_why]. rewrite Hc'. auto.
        -- apply HDR.
        -- unfold uids. cbn [a_add_log a_set_live a_ready a_drop as_live as_subs as_hist as_log as_dropped as_stopped as_stats as_out].
           rewrite HG by reflexivity. exact (ab_perm _ _ HB).
        -- apply HLG.
        -- intros y Hy. apply without_In in Hy as [Hy Hyi]. exact (ai_ring _ _ HI y Hy).
        -- repeat (split; [reflexivity|]). exists h'. split; [reflexivity|]. right. split; [reflexivity|]. split; [exact EC|]. split; [reflexivity|].
           left. cbn [ba_complete ba_stopped andb negb]. split; [exact EE|]. split; [reflexivity|]. split; [reflexivity|]. split; [apply orb_false_r|reflexivity].
    + injection HA as <- <- <-. cbn [a_add_log a_set_live as_live as_subs as_hist as_log as_dropped as_stopped as_stats as_out].
      split; [constructor; [constructor|]|]; cbn [a_add_log a_set_live as_live as_subs as_hist as_log as_dropped as_stopped as_stats as_out].
      * exact (ab_subs _ _ HB).
      * rewrite map_with_heap by reflexivity. exact (ab_nodup _ _ HB).
      * apply sorted_with_heap, (ab_sorted _ _ HB).
      * intros y Hy. apply with_heap_In in Hy as [(z & Hz & Ez & ->)|[Hy Hyi]]; [|now apply HLV].
        assert (z = x) by (apply (slot_unique (as_live a)); [exact (ab_nodup _ _ HB)|exact Hz|exact Hx|congruence]). subst z.
        cbn [ah_uid ah_heap]. rewrite Hc'. auto.
      * apply HOT.
      * apply HDR.
      * unfold uids. cbn [a_add_log a_set_live as_live as_subs as_hist as_log as_dropped as_stopped as_stats as_out].
        rewrite map_with_heap by reflexivity. exact (ab_perm _ _ HB).
      * apply HLG.
      * intros y Hy. apply with_heap_In in Hy as [(z & Hz & Ez & ->)|[Hy Hyi]]; [|exact (ai_ring _ _ HI y Hy)].
        assert (z = x) by (apply (slot_unique (as_live a)); [exact (ab_nodup _ _ HB)|exact Hz|exact Hx|congruence]). subst z.
        pose proof (ai_ring _ _ HI x Hx) as HRg. unfold ring_ok in *. cbn [ah_uid ah_heap ah_slot a_add_log a_set_live as_subs as_hist] in *. rewrite Hc'.
        rewrite <- Ez. exact HRg.
      * repeat (split; [reflexivity|]). exists h'. split; [reflexivity|]. left. split; [exact EC|]. split; [reflexivity|].
        split; [reflexivity|]. split; [reflexivity|]. cbn [ba_complete ba_stopped andb]. split; [lia|reflexivity].
Qed.

(** * Flushing *)
Lemma abase_subs c a subs : abase c a -> subs_ok c subs -> abase c (a_set_subs a subs).
Proof. intros [] HS. constructor; cbn; assumption. Qed.

Lemma eject_flush_base c a i x : abase c a -> slot_heap i (as_live a) = Some x -> 
  abase c (a_ready (a_set_live a (without_slot i (as_live a))) (ah_uid x) Flushed (ah_heap x)).
Proof.
  intros HB Hs. pose proof (slot_heap_In _ _ _ Hs) as [Hx Hxi]. destruct (ab_live _ _ HB x Hx) as (X1 & X2 & X3).
  constructor; cbn [a_set_live a_ready as_live as_subs as_hist as_log as_dropped as_stopped as_stats as_out].
  - exact (ab_subs _ _ HB).
  - apply NoDup_without, (ab_nodup _ _ HB).
  - apply sorted_filter, (ab_sorted _ _ HB).
  - intros y Hy. apply without_In in Hy as [Hy Hyi]. now apply (ab_live _ _ HB).
  - intros o Ho. apply in_app_or in Ho as [Ho|[<-|[]]]; [now apply (ab_out _ _ HB)|]. unfold ready_ok. cbn [oh_uid oh_heap oh_why]. auto.
  - exact (ab_drop _ _ HB).
  - unfold uids. cbn [a_set_live a_ready as_live as_subs as_hist as_log as_dropped as_stopped as_stats as_out].
    rewrite <- (ab_perm _ _ HB). unfold uids. rewrite (perm_without i _ x (ab_nodup _ _ HB) Hx Hxi). rewrite map_app. cbn [map oh_uid app].
    rewrite <- app_assoc. cbn [app]. rewrite !app_assoc. symmetry.
    apply (Permutation_middle (map ah_uid (without_slot i (as_live a)) ++ map oh_uid (as_out a)) (as_dropped a)).
  - exact (ab_log _ _ HB).
Qed.

Definition same_meta (a a' : astream) : Prop :=
  as_hist a' = as_hist a /\ as_log a' = as_log a /\ as_dropped a' = as_dropped a /\ as_stopped a' = as_stopped a /\ as_stats a' = as_stats a.
Definition flushed_of (a : astream) (o : outheap) : Prop :=
  oh_why o = Flushed /\ exists x, In x (as_live a) /\ ah_uid x = oh_uid o /\ ah_heap x = oh_heap o.

Lemma flush_steps_inv c k : config_ok c -> (k < sc_substreams c)%nat -> forall n a f a' f' o,
  abase c a -> nth_error (as_subs a) k = Some ((k * sc_max_heaps c)%nat, (k * sc_max_heaps c + o)%nat) -> (o < sc_max_heaps c)%nat ->
  a_flush_steps n k a f = Some (a', f') ->
  abase c a' /\ same_meta a a' /\
  (forall x, In x (as_live a') <-> In x (as_live a) /\
     forall j, (1 <= j <= n)%nat -> ah_slot x <> (k * sc_max_heaps c + (o + j) mod sc_max_heaps c)%nat) /\
  exists new, as_out a' = as_out a ++ new /\ Forall (flushed_of a) new /\ f' = f + zlen new.
Proof.
  intros Hc Hk. induction n as [|n IH]; intros a f a' f' o HB Hn Ho HF; cbn [a_flush_steps] in HF.
  - injection HF as <- <-. split; [exact HB|]. split; [repeat split|]. split.
    + intro x. split; [|tauto]. intro Hx. split; [exact Hx|]. intros j Hj. lia.
    + exists []. rewrite app_nil_r. split; [reflexivity|]. split; [constructor|]. change (zlen (@nil outheap)) with 0. lia.
  - destruct (next_head_ok c (as_subs a) k (ab_subs _ _ HB) Hk (proj1 Hc)) as (i & HN & Hi & _ & HS' & Hnth & (h0 & Hh0 & Hi2)).
    rewrite HN in HF. rewrite Hn in Hh0. injection Hh0 as <-.
    set (m := sc_max_heaps c) in *. set (o' := ((o + 1) mod m)%nat).
    assert (Hi' : i = (k * m + o')%nat).
    { unfold o'. rewrite Hi2. destruct (Nat.eqb_spec (S (k * m + o)) (S k * m)) as [E|E].
      - assert (o + 1 = m)%nat as -> by lia. rewrite Nat.mod_same by lia. lia.
      - rewrite Nat.mod_small by lia. lia. }
    assert (Ho' : (o' < m)%nat) by (unfold o'; apply Nat.mod_upper_bound; lia).
    clear Hi2.
    set (a1 := a_set_subs a (set_nth (as_subs a) k ((k * m)%nat, i))) in *.
    assert (HB1 : abase c a1) by (apply abase_subs; assumption).
    assert (HSL : forall (x : aheap) (P : nat -> Prop), ((forall j, (1 <= j <= S n)%nat -> P ((o + j) mod m)%nat) <->
                 (P o' /\ forall j, (1 <= j <= n)%nat -> P ((o' + j) mod m)%nat))).
    { intros _ P.
      assert (E : forall j, ((o' + j) mod m = (o + S j) mod m)%nat).
      { intro j. unfold o'. rewrite Nat.add_mod_idemp_l by lia. f_equal. lia. }
      split.
      - intro H. split; [apply (H 1%nat); lia|]. intros j Hj. rewrite E. apply H. lia.
      - intros [H1 H2] j Hj. destruct (Nat.eq_dec j 1) as [->|Hj1]; [exact H1|].
        replace j with (S (j - 1)) by lia. rewrite <- E. apply H2. lia. }
    unfold a_eject in HF. destruct (slot_heap i (as_live a1)) as [x|] eqn:Ex.
    + pose proof (slot_heap_In _ _ _ Ex) as [Hx Hxi].
      pose proof (eject_flush_base c a1 i x HB1 Ex) as HB2.
      assert (Hn' : forall q, as_subs q = as_subs a1 -> nth_error (as_subs q) k = Some ((k * m)%nat, (k * m + o')%nat)).
      { intros q ->. cbn. rewrite Hnth, Hi'. reflexivity. }
      destruct (IH _ _ _ _ o' HB2 (Hn' _ eq_refl) Ho' HF) as (J1 & J2 & J3 & new & J4 & J5 & J6).
      split; [exact J1|]. split; [exact J2|]. split.
      * intro y. rewrite J3. cbn [a_ready a_set_live as_live]. rewrite without_In. rewrite (HSL y (fun v => ah_slot y <> (k * m + v)%nat)). rewrite <- Hi'. cbn. tauto.
      * exists ({| oh_uid := ah_uid x; oh_why := Flushed; oh_heap := ah_heap x |} :: new). split; [rewrite J4; cbn; now rewrite <- app_assoc|]. split.
        -- constructor.
           ++ split; [reflexivity|]. exists x. auto.
           ++ eapply Forall_impl; [|exact J5]. intros q (Q1 & z & Q2 & Q3). split; [exact Q1|]. exists z. split; [|exact Q3].
              cbn [a_ready a_set_live as_live] in Q2. now apply without_In in Q2.
        -- rewrite J6. rewrite zlen_cons. lia.
    + assert (Hn' : forall q, as_subs q = as_subs a1 -> nth_error (as_subs q) k = Some ((k * m)%nat, (k * m + o')%nat)).
      { intros q ->. cbn. rewrite Hnth, Hi'. reflexivity. }
      destruct (IH _ _ _ _ o' HB1 (Hn' _ eq_refl) Ho' HF) as (J1 & J2 & J3 & new & J4 & J5 & J6).
      split; [exact J1|]. split; [exact J2|]. split.
      * intro y. rewrite J3. rewrite (HSL y (fun v => ah_slot y <> (k * m + v)%nat)). rewrite <- Hi'. cbn [a1 a_set_subs as_live] in *.
        split; [|tauto]. intros [Y1 Y2]. split; [exact Y1|]. split; [|exact Y2]. intro E. apply slot_heap_None in Ex. apply Ex. rewrite <- E. now apply in_map.
      * exists new. split; [exact J4|]. split; [exact J5|]. lia.
Qed.

Lemma flush_one c k a f a' f' : config_ok c -> (k < sc_substreams c)%nat -> abase c a ->
  a_flush_steps (sc_max_heaps c) k a f = Some (a', f') ->
  abase c a' /\ same_meta a a' /\
  (forall x, In x (as_live a') <-> In x (as_live a) /\ ~ (k * sc_max_heaps c <= ah_slot x < S k * sc_max_heaps c)%nat) /\
  exists new, as_out a' = as_out a ++ new /\ Forall (flushed_of a) new /\ f' = f + zlen new.
Proof.
  intros Hc Hk HB HF. destruct (next_head_ok c (as_subs a) k (ab_subs _ _ HB) Hk (proj1 Hc)) as (_ & _ & _ & _ & _ & _ & (h0 & Hh0 & _)).
  pose proof (so_head _ _ (ab_subs _ _ HB) k _ Hk Hh0) as Hr. cbn [snd] in Hr.
  assert (Hm : (0 < sc_max_heaps c)%nat) by apply Hc.
  set (m := sc_max_heaps c) in *. replace h0 with (k * m + (h0 - k * m))%nat in Hh0 by lia. set (o := (h0 - k * m)%nat) in *.
  destruct (flush_steps_inv c k Hc Hk m a f a' f' o HB Hh0 ltac:(fold m; lia) HF) as (J1 & J2 & J3 & J4).
  split; [exact J1|]. split; [exact J2|]. split; [|exact J4]. intro x. rewrite J3. fold m. split.
  - intros [X1 X2]. split; [exact X1|]. intro XR.
    assert (exists j, (1 <= j <= m)%nat /\ ah_slot x = (k * m + (o + j) mod m)%nat) as (j & Hj & E).
    { set (d := (ah_slot x - k * m)%nat). destruct (Nat.lt_ge_cases o d) as [H|H].
      - exists (d - o)%nat. split; [lia|]. replace (o + (d - o))%nat with d by lia. rewrite Nat.mod_small by lia. lia.
      - exists (d + m - o)%nat. split; [lia|]. replace (o + (d + m - o))%nat with (d + 1 * m)%nat by lia.
        rewrite Nat.mod_add by lia. rewrite Nat.mod_small by lia. lia. }
    exact (X2 j Hj E).
  - intros [X1 X2]. split; [exact X1|]. intros j Hj E. apply X2. rewrite E.
    assert ((o + j) mod m < m)%nat by (apply Nat.mod_upper_bound; lia). lia.
Qed.

Lemma flush_subs_inv c ks : config_ok c -> (forall k, In k ks -> (k < sc_substreams c)%nat) -> forall a f a' f',
  abase c a -> a_flush_subs c ks a f = Some (a', f') ->
  abase c a' /\ same_meta a a' /\
  (forall x, In x (as_live a') <-> In x (as_live a) /\ forall k, In k ks -> ~ (k * sc_max_heaps c <= ah_slot x < S k * sc_max_heaps c)%nat) /\
  exists new, as_out a' = as_out a ++ new /\ Forall (flushed_of a) new /\ f' = f + zlen new.
Proof.
  intro Hc. induction ks as [|k ks IH]; intros Hks a f a' f' HB HF; cbn [a_flush_subs] in HF.
  - injection HF as <- <-. split; [exact HB|]. split; [repeat split|]. split.
    + intro x. cbn. tauto.
    + exists []. rewrite app_nil_r. split; [reflexivity|]. split; [constructor|]. change (zlen (@nil outheap)) with 0. lia.
  - destruct (a_flush_steps (sc_max_heaps c) k a f) as [[a1 f1]|] eqn:E1; [|discriminate].
    destruct (flush_one c k a f a1 f1 Hc (Hks k (or_introl eq_refl)) HB E1) as (J1 & J2 & J3 & new & J4 & J5 & J6).
    destruct (IH (fun j Hj => Hks j (or_intror Hj)) a1 f1 a' f' J1 HF) as (K1 & K2 & K3 & new2 & K4 & K5 & K6).
    split; [exact K1|]. split.
    { destruct J2 as (? & ? & ? & ? & ?), K2 as (? & ? & ? & ? & ?). unfold same_meta. repeat split; congruence. }
    split.
    + intro x. rewrite K3, J3. cbn [In]. split.
      * intros ((X1 & X2) & X3). split; [exact X1|]. intros j [<-|Hj]; [exact X2|now apply X3].
      * intros (X1 & X2). split; [split; [exact X1|apply X2; now left]|]. intros j Hj. apply X2. now right.
    + exists (new ++ new2). split; [rewrite K4, J4; now rewrite <- app_assoc|]. split.
      * apply Forall_app. split; [exact J5|]. eapply Forall_impl; [|exact K5]. intros q (Q1 & z & Q2 & Q3). split; [exact Q1|].
        exists z. split; [now apply J3 in Q2|exact Q3].
      * rewrite K6, J6, zlen_app. lia.
Qed.

Lemma flush_inv c a a' : config_ok c -> ainv c a -> a_flush c a = Some a' ->
  ainv c a' /\ as_live a' = [] /\ as_hist a' = as_hist a /\ as_log a' = as_log a /\ as_dropped a' = as_dropped a /\
  as_stopped a' = as_stopped a /\
  exists new, as_out a' = as_out a ++ new /\ Forall (flushed_of a) new /\
    ss_heaps (as_stats a') = ss_heaps (as_stats a) + zlen new /\
    ss_evicted (as_stats a') = ss_evicted (as_stats a) /\
    ss_flushed (as_stats a') = ss_flushed (as_stats a) + zlen new /\
    ss_packets (as_stats a') = ss_packets (as_stats a) /\ ss_single (as_stats a') = ss_single (as_stats a).
Proof.
  intros Hc HI HF. pose proof (ai_base _ _ HI) as HB. unfold a_flush in HF.
  destruct (a_flush_subs c (seq 0 (sc_substreams c)) a 0) as [[a1 n]|] eqn:E; [|discriminate].
  assert (Hks : forall k, In k (seq 0 (sc_substreams c)) -> (k < sc_substreams c)%nat) by (intros k Hk; apply in_seq in Hk; lia).
  destruct (flush_subs_inv c (seq 0 (sc_substreams c)) Hc Hks a 0 a1 n HB E) as (J1 & J2 & J3 & new & J4 & J5 & J6).
  injection HF as <-. cbn [a_set_stats as_live as_hist as_log as_dropped as_stopped as_stats as_out ss_heaps ss_evicted ss_flushed ss_packets ss_single].
  destruct J2 as (M1 & M2 & M3 & M4 & M5).
  assert (HL : as_live a1 = []).
  { destruct (as_live a1) as [|x l] eqn:El; [reflexivity|exfalso]. destruct (proj1 (J3 x) (or_introl eq_refl)) as [X1 X2].
    destruct (ai_ring _ _ HI x X1) as (_ & R & _). eapply X2; [|exact R]. apply in_seq.
    pose proof (get_substream_lt c (lh_cnt (ah_heap x)) Hc). lia. }
  rewrite Z.add_0_l in J6. subst n. rewrite M5. split; [|split; [exact HL|]].
  - constructor.
    + destruct J1. constructor; cbn; assumption.
    + cbn. rewrite HL. intros x [].
  - repeat (split; [assumption|]). exists new. repeat (split; [assumption || reflexivity|]). reflexivity.
Qed.

(** * One packet *)
Definition fed (a : astream) : Prop :=
  (forall x, In x (as_live a) -> offered_pkts (ah_uid x) (as_log a) <> []) /\
  (forall o, In o (as_out a) -> offered_pkts (oh_uid o) (as_log a) <> []).

(** The statistics, with those of the current batch, count the heaps handed over. *)
Record acct (a : astream) (b : batch) : Prop := {
  ac_heaps : ss_heaps (as_stats a) + ba_complete b + ba_evicted b = zlen (as_out a);
  ac_evicted : ss_evicted (as_stats a) + ba_evicted b = count_why Evicted (as_out a);
  ac_flushed : ss_flushed (as_stats a) = count_why Flushed (as_out a)
}.

Lemma offered_pkts_snoc u log v p r : offered_pkts u (log ++ [(v, p, r)]) = offered_pkts u log ++ (if Nat.eqb v u then [p] else []).
Proof. unfold offered_pkts. rewrite offered_snoc, map_app. destruct (Nat.eqb v u); reflexivity. Qed.
Lemma offered_mono u log v p r : offered_pkts u log <> [] -> offered_pkts u (log ++ [(v, p, r)]) <> [].
Proof. rewrite offered_pkts_snoc. destruct (offered_pkts u log); [contradiction|discriminate]. Qed.
Lemma offered_self u log p r : offered_pkts u (log ++ [(u, p, r)]) <> [].
Proof. rewrite offered_pkts_snoc, Nat.eqb_refl. destruct (offered_pkts u log); discriminate. Qed.

(** What adding a packet to the stream does. *)
Inductive effect (c : sconfig) (p : rpkt) (r : bool) (a a' : astream) : Prop :=
| E_refused :
    r = false -> a' = a ->
    (rp_hlen p < 0 /\ sc_allow_unsized c = false) \/
    (sc_allow_ooo c = false /\ rp_off p <> 0 /\
      (single_packet p = true \/ forall x, In x (as_live a) -> lh_cnt (ah_heap x) <> rp_cnt p)) ->
    effect c p r a a'
| E_offered x h' :
    (* offered to the most recent live heap with its count *)
    single_packet p = false -> find (fun a => lh_cnt (ah_heap a) =? rp_cnt p) (as_live a) = Some x ->
    as_hist a' = as_hist a -> as_log a' = as_log a ++ [(ah_uid x, p, r)] ->
    add_packet (ah_heap x) p (sc_allow_ooo c) = (if r then Added h' else Rejected) ->
    (if is_complete h' then
       r = true /\ as_live a' = without_slot (ah_slot x) (as_live a) /\
       (if sc_stop_item c && lh_eos h' then as_out a' = as_out a /\ as_dropped a' = as_dropped a ++ [ah_uid x]
        else as_out a' = as_out a ++ [{| oh_uid := ah_uid x; oh_why := Complete; oh_heap := h' |}] /\ as_dropped a' = as_dropped a)
     else as_live a' = with_heap (ah_slot x) h' (as_live a) /\ as_out a' = as_out a /\ as_dropped a' = as_dropped a) ->
    effect c p r a a'
| E_started a1 i n h' :
    (single_packet p = true \/ forall x, In x (as_live a) -> lh_cnt (ah_heap x) <> rp_cnt p) ->
    (sc_allow_ooo c = true \/ rp_off p = 0) ->
    a_new_entry c a p = Some (a1, i, n) ->
    as_hist a' = as_hist a ++ [rp_cnt p] -> as_log a' = as_log a ++ [(length (as_hist a), p, r)] ->
    add_packet (live_heap_new p) p (sc_allow_ooo c) = (if r then Added h' else Rejected) ->
    (if is_complete h' then
       r = true /\ as_live a' = without_slot i (as_live a1) /\
       (if sc_stop_item c && lh_eos h' then as_out a' = as_out a1 /\ as_dropped a' = as_dropped a1 ++ [length (as_hist a)]
        else as_out a' = as_out a1 ++ [{| oh_uid := length (as_hist a); oh_why := Complete; oh_heap := h' |}] /\ as_dropped a' = as_dropped a1)
     else as_live a' = with_heap i h' (as_live a1) /\ as_out a' = as_out a1 /\ as_dropped a' = as_dropped a1) ->
    effect c p r a a'.

Lemma count_snoc w l o : count_why w (l ++ [o]) = count_why w l +
  (match oh_why o, w with Complete, Complete | Evicted, Evicted | Flushed, Flushed => 1 | _, _ => 0 end).
Proof. rewrite count_why_app. f_equal. unfold count_why. cbn [filter]. destruct (oh_why o), w; reflexivity. Qed.

Lemma zlen_one {A} (x : A) : zlen [x] = 1.
Proof. reflexivity. Qed.

Definition sums (st : sstats) (co ev : Z) (out : list outheap) : Prop :=
  ss_heaps st + co + ev = zlen out /\ ss_evicted st + ev = count_why Evicted out /\ ss_flushed st = count_why Flushed out.
Lemma acct_sums a b : acct a b <-> sums (as_stats a) (ba_complete b) (ba_evicted b) (as_out a).
Proof. split; [intros [A1 A2 A3]; unfold sums; auto|intros (A1 & A2 & A3); now constructor]. Qed.
Lemma sums_ready st co ev out u h : sums st co ev out ->
  sums st (co + 1) ev (out ++ [{| oh_uid := u; oh_why := Complete; oh_heap := h |}]).
Proof. intros (A1 & A2 & A3). unfold sums. rewrite zlen_app, !count_snoc, zlen_one. cbn [oh_why]. lia. Qed.
Lemma sums_evict st co ev out u h : sums st co ev out ->
  sums st co (ev + 1) (out ++ [{| oh_uid := u; oh_why := Evicted; oh_heap := h |}]).
Proof. intros (A1 & A2 & A3). unfold sums. rewrite zlen_app, !count_snoc, zlen_one. cbn [oh_why]. lia. Qed.

Lemma packet_inv c d a b p a' b' r :
  config_ok c -> ainv c a -> fed a -> acct a b -> rpkt_ok p -> a_add_packet c d a b p = Some (a', b', r) ->
  ainv c a' /\ fed a' /\ acct a' b' /\ as_stopped a' = as_stopped a /\ as_stats a' = as_stats a /\
  ba_packets b' = ba_packets b + 1 /\ (ba_stopped b = true -> ba_stopped b' = true) /\ effect c p r a a'.
Proof.
  intros Hc HI HFd HAc Hp HA. unfold a_add_packet in HA.
  destruct ((rp_hlen p <? 0) && negb (sc_allow_unsized c)) eqn:EU.
  { injection HA as <- <- <-. split; [exact HI|]. split; [exact HFd|]. split; [destruct HAc; now constructor|].
    split; [reflexivity|]. split; [reflexivity|]. split; [reflexivity|]. split; [auto|]. apply E_refused; [reflexivity|reflexivity|].
    left. apply andb_true_iff in EU as [E1 E2]. apply negb_true_iff in E2. clear - E1 E2. split; [lia|exact E2]. }
  cbv zeta in HA. cbn [ba_packets ba_complete ba_evicted ba_single ba_dist ba_stopped] in HA.
  destruct (if single_packet p then None else a_search a (rp_cnt p)) as [i|] eqn:EF.
  - destruct (single_packet p) eqn:ES; [discriminate|].
    destruct (a_search_slot _ _ _ (ab_nodup _ _ (ai_base _ _ HI)) EF) as (x & Hx & Hin & Hcnt & Hfind).
    pose proof (slot_heap_In _ _ _ Hx) as [_ Hxi].
    destruct (feed_inv c a _ i p a' b' r x HI Hx (eq_sym Hcnt) Hp (or_introl (proj1 HFd x Hin)) HA)
      as (J1 & J2 & J3 & J4 & J5 & J6 & J7 & J8 & J9 & h' & J10 & J11).
    cbn [ba_packets ba_complete ba_evicted ba_single ba_dist ba_stopped] in *.
    split; [exact J1|]. split; [|split; [|split; [exact J3|split; [exact J4|split; [exact J7|split]]]]].
    + unfold fed. rewrite J6. split.
      * intros y Hy. destruct J11 as [(_ & -> & _)|(_ & _ & -> & _)] in Hy.
        -- apply with_heap_In in Hy as [(z & Hz & _ & ->)|[Hy _]]; cbn [ah_uid]; apply offered_mono; now apply HFd.
        -- apply without_In in Hy as [Hy _]. apply offered_mono. now apply HFd.
      * intros o Ho. assert (Ho' : In o (as_out a) \/ oh_uid o = ah_uid x).
        { destruct J11 as [(_ & _ & E & _)|(_ & _ & _ & [(_ & _ & _ & _ & E)|(_ & E & _)])]; rewrite E in Ho; [now left| |now left].
          apply in_app_or in Ho as [Ho|[<-|[]]]; [now left|now right]. }
        destruct Ho' as [Ho'|Ho']; [apply offered_mono; now apply HFd|rewrite Ho'; apply offered_self].
    + apply acct_sums. apply acct_sums in HAc. rewrite J4, J8.
      destruct J11 as [(_ & _ & -> & _ & -> & _)|(_ & _ & _ & [(_ & _ & -> & _ & ->)|(_ & -> & -> & _)])];
        [exact HAc|now apply sums_ready|exact HAc].
    + intro Hb. destruct J11 as [(_ & _ & _ & _ & _ & ->)|(_ & _ & _ & [(_ & _ & _ & -> & _)|(_ & _ & _ & -> & _)])]; [now rewrite Hb|exact Hb|reflexivity].
    + apply (E_offered c p r a a' x h'); try assumption. rewrite Hxi.
      destruct J11 as [(-> & E1 & E2 & E3 & _)|(E0 & -> & E1 & [(-> & E2 & _ & _ & E3)|(-> & E2 & _ & _ & E3)])]; auto.
  - destruct (negb (sc_allow_ooo c) && negb (rp_off p =? 0)) eqn:EO.
    { injection HA as <- <- <-. split; [exact HI|]. split; [exact HFd|]. split; [destruct HAc; now constructor|].
      split; [reflexivity|]. split; [reflexivity|]. split; [reflexivity|]. split; [auto|]. apply E_refused; [reflexivity|reflexivity|].
      right. apply andb_true_iff in EO as [E1 E2]. apply negb_true_iff in E1, E2. split; [exact E1|]. split; [clear - E2; lia|].
      destruct (single_packet p); [now left|right]. unfold a_search in EF.
      destruct (find _ (as_live a)) eqn:Ef; [discriminate|]. intros x Hx. pose proof (find_none _ _ Ef x Hx) as Hq. cbn in Hq. clear - Hq. lia. }
    destruct (a_new_entry c a p) as [[[a1 i] n]|] eqn:EN; [|discriminate].
    destruct (new_entry_inv c a p a1 i n Hc HI EN) as (N1 & N2 & N3 & N4 & N5 & N6 & L0 & N7 & N8).
    pose proof (a_new_entry_slot _ _ _ _ _ _ EN) as Hslot.
    destruct (feed_inv c a1 _ i p a' b' r _ N1 Hslot eq_refl Hp (or_intror eq_refl) HA)
      as (J1 & J2 & J3 & J4 & J5 & J6 & J7 & J8 & J9 & h' & J10 & J11).
    cbn [ba_packets ba_complete ba_evicted ba_single ba_dist ba_stopped ah_uid ah_heap] in *.
    split; [exact J1|]. split; [|split; [|split; [congruence|split; [congruence|split; [exact J7|split]]]]].
    + assert (HF1 : (forall y, In y (as_live a1) -> ah_uid y = length (as_hist a) \/ offered_pkts (ah_uid y) (as_log a1) <> []) /\
         (forall o, In o (as_out a1) -> offered_pkts (oh_uid o) (as_log a1) <> [])).
      { rewrite N3, N7. destruct HFd as [F1 F2]. split.
        - intros y [<-|Hy]; [now left|]. right. apply F1. destruct N8 as [(_ & -> & _)|(_ & x & _ & _ & -> & _)] in Hy; [exact Hy|]. now apply without_In in Hy.
        - intros o Ho. destruct N8 as [(_ & _ & ->)|(_ & x & Hx & _ & _ & _ & _ & ->)] in Ho; [now apply F2|].
          apply in_app_or in Ho as [Ho|[<-|[]]]; [now apply F2|]. cbn [oh_uid]. now apply F1. }
      destruct HF1 as [F1 F2]. unfold fed. rewrite J6. split.
      * assert (G : forall y, In y (as_live a1) -> offered_pkts (ah_uid y) (as_log a1 ++ [(length (as_hist a), p, r)]) <> []).
        { intros y Hy. destruct (F1 y Hy) as [E|E]; [rewrite E; apply offered_self|now apply offered_mono]. }
        intros y Hy. destruct J11 as [(_ & -> & _)|(_ & _ & -> & _)] in Hy.
        -- apply with_heap_In in Hy as [(z & Hz & _ & ->)|[Hy _]]; cbn [ah_uid]; now apply G.
        -- apply without_In in Hy as [Hy _]. now apply G.
      * intros o Ho. assert (Ho' : In o (as_out a1) \/ oh_uid o = length (as_hist a)).
        { destruct J11 as [(_ & _ & E & _)|(_ & _ & _ & [(_ & _ & _ & _ & E)|(_ & E & _)])]; rewrite E in Ho; [now left| |now left].
          apply in_app_or in Ho as [Ho|[<-|[]]]; [now left|now right]. }
        destruct Ho' as [Ho'|Ho']; [apply offered_mono; now apply F2|rewrite Ho'; apply offered_self].
    + assert (A1 : sums (as_stats a1) (ba_complete b) (ba_evicted b + n) (as_out a1)).
      { apply acct_sums in HAc. rewrite N6. clear - N8 HAc.
        destruct N8 as [(-> & _ & ->)|(-> & x & _ & _ & _ & _ & _ & ->)]; [now rewrite Z.add_0_r|now apply sums_evict]. }
      apply acct_sums. rewrite J4, J8.
      destruct J11 as [(_ & _ & -> & _ & -> & _)|(_ & _ & _ & [(_ & _ & -> & _ & ->)|(_ & -> & -> & _)])];
        [exact A1|now apply sums_ready|exact A1].
    + intro Hb. destruct J11 as [(_ & _ & _ & _ & _ & ->)|(_ & _ & _ & [(_ & _ & _ & -> & _)|(_ & _ & _ & -> & _)])]; [now rewrite Hb|exact Hb|reflexivity].
    + apply (E_started c p r a a' a1 i n h'); try assumption; try congruence.
      * destruct (single_packet p); [now left|right]. unfold a_search in EF.
        destruct (find _ (as_live a)) eqn:Ef; [discriminate|]. intros x Hx. pose proof (find_none _ _ Ef x Hx) as Hq. cbn in Hq. clear - Hq. lia.
      * destruct (sc_allow_ooo c); [now left|right]. cbn [negb andb] in EO. clear - EO. lia.
      * destruct J11 as [(-> & E1 & E2 & E3 & _)|(E0 & -> & E1 & [(-> & E2 & _ & _ & E3)|(-> & E2 & _ & _ & E3)])]; auto.
Qed.
