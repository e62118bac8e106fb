(** C14, C15, C51: frozen heaps. *)
From Coq Require Import ZArith List Lia Bool.
From Coq Require Import ZifyBool ZifyNat.
From Verif Require Import Base CodecModel CodecProofs PacketSpec RecvPacketModel RecvPacketProofs
  LiveHeapModel LiveHeapSpec LiveHeapProofs LiveHeapProps RecvHeapModel RecvHeapProofs.
Import ListNotations.
Open Scope Z_scope.

(** [p] is an addressed pointer to address [a]. *)
Definition addressed_at (hab a p : Z) : bool := negb (is_immediate p) && (get_address hab p =? a).

(** Among the received pointers [ptrs] of a heap with [total] payload bytes,
    [p] describes the bytes [a, b): it is an addressed pointer to [a], the last
    received one for that address (earlier ones describe empty items), and [b]
    is the next larger address of any addressed pointer, or the end of the
    payload. *)
Record item_region (hab : Z) (ptrs : list Z) (total p a b : Z) : Prop := {
  ir_addr : In p ptrs /\ is_immediate p = false /\ get_address hab p = a;
  ir_last : exists earlier, filter (addressed_at hab a) ptrs = earlier ++ [p];
  ir_range : a < b <= total;
  ir_stop : b = total \/ exists q, In q ptrs /\ is_immediate q = false /\ get_address hab q = b;
  ir_next : forall q, In q ptrs -> is_immediate q = false -> get_address hab q <= a \/ b <= get_address hab q
}.

Lemma sorted_split hab l1 p l2 :
  0 <= hab <= 63 -> sorted (sort_key hab) (l1 ++ p :: l2) -> Forall word_ok (l1 ++ p :: l2) ->
  is_immediate p = false ->
  (forall q, In q l1 -> is_immediate q = false /\ get_address hab q <= get_address hab p) /\
  (forall q, In q l2 -> is_immediate q = false -> get_address hab p <= get_address hab q).
Proof.
  intros Hh Hs Hw Him. apply sorted_app in Hs as (_ & Hs & Hx). cbn [sorted] in Hs. destruct Hs as [Hs _].
  rewrite Forall_forall in Hw.
  assert (HP : word_ok p) by (apply Hw, in_or_app; right; now left).
  pose proof (get_address_range hab p ltac:(lia)) as HR1.
  assert (2 ^ hab <= 2 ^ 63) by (apply Z.pow_le_mono_r; lia).
  split.
  - intros q Hq. specialize (Hx q p Hq (or_introl eq_refl)).
    assert (HQ : word_ok q) by (apply Hw, in_or_app; now left).
    rewrite !sort_key_arith, Him in Hx by assumption.
    pose proof (get_address_range hab q ltac:(lia)) as HR2. destruct (is_immediate q); [lia|]. split; [reflexivity|lia].
  - intros q Hq Hqi. specialize (Hs q Hq).
    assert (HQ : word_ok q) by (apply Hw, in_or_app; right; now right).
    rewrite !sort_key_arith, Him, Hqi in Hs by assumption. lia.
Qed.

Lemma succ_of_spec hab minl l1 p l2 :
  0 <= hab <= 63 -> sorted (sort_key hab) (l1 ++ p :: l2) -> Forall word_ok (l1 ++ p :: l2) ->
  is_immediate p = false ->
  (forall q, In q (l1 ++ p :: l2) -> is_immediate q = false -> get_address hab q <= minl) ->
  let b := succ_of hab minl l2 in
  get_address hab p <= b <= minl /\
  (b = minl \/ exists q, In q (l1 ++ p :: l2) /\ is_immediate q = false /\ get_address hab q = b) /\
  (forall q, In q l2 -> is_immediate q = false -> b <= get_address hab q).
Proof.
  intros Hh Hs Hw Him Hm b.
  destruct (sorted_split hab l1 p l2 Hh Hs Hw Him) as [_ H2].
  assert (Hpm : get_address hab p <= minl) by (apply Hm; [apply in_or_app; right; now left|exact Him]).
  unfold b, succ_of. destruct l2 as [|r l2].
  - split; [lia|]. split; [now left|]. intros q [].
  - assert (HSr : sorted (sort_key hab) ((l1 ++ [p]) ++ r :: l2)) by (rewrite <- app_assoc; exact Hs).
    assert (HWr : Forall word_ok ((l1 ++ [p]) ++ r :: l2)) by (rewrite <- app_assoc; exact Hw).
    assert (Hr : In r (l1 ++ p :: r :: l2)) by (apply in_or_app; right; right; now left).
    destruct (is_immediate r) eqn:Er.
    + split; [lia|]. split; [now left|]. intros q Hq Hqi. exfalso.
      apply sorted_app in HSr as (_ & HSr & _). cbn [sorted] in HSr. destruct HSr as [HSr _].
      destruct Hq as [->|Hq]; [congruence|]. specialize (HSr q Hq).
      rewrite Forall_forall in Hw.
      rewrite !sort_key_arith, Er, Hqi in HSr; try assumption;
        try (apply Hw, in_or_app; right; right; (now left) || (now right)).
      pose proof (get_address_range hab q ltac:(lia)) as HR1. pose proof (get_address_range hab r ltac:(lia)).
      assert (2 ^ hab <= 2 ^ 63) by (apply Z.pow_le_mono_r; lia). lia.
    + destruct (sorted_split hab (l1 ++ [p]) r l2 Hh HSr HWr Er) as [_ H4].
      split; [split; [apply H2; [now left|exact Er]|apply Hm; [exact Hr|exact Er]]|].
      split; [right; exists r; repeat split; assumption|].
      intros q [->|Hq] Hqi; [lia|now apply H4].
Qed.

(** C14 *)
Theorem C14_frozen_items : forall p0 ooo pkts h bs,
  decoded p0 -> Forall decoded pkts -> reaches p0 ooo pkts h bs -> is_contiguous h = true ->
  let hab := rp_hab p0 in
  exists f, freeze h = Some f /\
    (* every item's bytes are inside its storage and initialised *)
    (forall it, In it (fr_items f) -> exists v, ritem_value f it = Some v /\ zlen v = ri_len it) /\
    (* addressed items are exactly the non-empty regions described by the pointers *)
    (forall id a v,
      (exists it, In it (fr_items f) /\ ri_imm it = false /\ ri_id it = id /\ ri_start it = a /\
                  ritem_value f it = Some v) <->
      (exists p b, item_region hab (lh_pointers h) (lh_min h) p a b /\ get_id hab p = id /\ id <> 0 /\
                   slice (lh_mem h) a (b - a) = map Some v)) /\
    (* they do not overlap and are in increasing order *)
    ForallOrdPairs (fun i j => ri_imm i = false -> ri_imm j = false -> ri_start i + ri_len i <= ri_start j)
      (fr_items f) /\
    (* immediates hold the value of their pointer, big endian *)
    (forall id v,
      (exists it, In it (fr_items f) /\ ri_imm it = true /\ ri_id it = id /\ ritem_value f it = Some v) <->
      (exists p, In p (lh_pointers h) /\ is_immediate p = true /\ get_id hab p = id /\ id <> 0 /\
                 v = be_encode (Z.to_nat (hab / 8)) (get_immediate hab p))).
Proof.
  intros p0 ooo pkts h bs Hp0 HF HR HC hab. destruct (reaches_inv _ _ _ _ _ HF HR) as (HI & _ & Hh).
  pose proof (ro_flavour p0 (decoded_ok p0 Hp0)) as Hfl. unfold hab. rewrite <- Hh in *. clear hab.
  set (hab := lh_hab h) in *.
  pose proof (flavour_ok_range _ Hfl) as Hhr.
  destruct (load_spec h true true Hfl) as (f & HL & _ & Hfh & Hfp & Hfi & Himm).
  fold hab in Hfh, Hfi, Himm.
  set (S := stable_sort (sort_key hab) (lh_pointers h)) in *.
  assert (HSs : sorted (sort_key hab) S) by apply sort_sorted.
  assert (HSin : forall q, In q S <-> In q (lh_pointers h)) by (intro q; apply sort_In).
  assert (HSw : Forall word_ok S).
  { apply Forall_forall. intros q Hq. apply (inv_ptr_words _ _ _ _ HI). now apply HSin. }
  assert (HSm : forall q, In q S -> is_immediate q = false -> get_address hab q <= lh_min h).
  { intros q Hq. apply (inv_ptr_min _ _ _ _ HI). now apply HSin. }
  destruct (contiguous_payload _ _ _ HI HC) as [Hres Hbytes].
  (* value of an addressed region *)
  assert (HV : forall a b, 0 <= a -> a <= b -> b <= lh_min h ->
    exists v, slice (lh_mem h) a (b - a) = map Some v /\ zlen v = b - a).
  { intros a b Ha Hab Hb.
    assert (HLs : zlen (slice (lh_mem h) a (b - a)) = b - a)
      by (apply zlen_slice; rewrite ?(hi_res _ _ _ HI); lia).
    destruct (init_list (slice (lh_mem h) a (b - a))) as (v & Hv).
    { rewrite HLs. intros i Hi. rewrite znth_slice by lia. destruct (i <? b - a) eqn:E; [|lia].
      destruct (Hbytes (a + i) ltac:(lia)) as (p & Hp & Hc & ->).
      pose proof (hi_pkts _ _ _ HI) as HP. rewrite Forall_forall in HP. specialize (HP p Hp).
      pose proof (ro_plen p HP) as Hpl. unfold carries in Hc.
      unfold znth. destruct (a + i - rp_off p <? 0) eqn:E2; [lia|].
      destruct (nth_error (rp_payload p) (Z.to_nat (a + i - rp_off p))) as [c|] eqn:E3; [eauto|].
      apply nth_error_None in E3. unfold zlen in Hpl. lia. }
    exists v. split; [exact Hv|]. rewrite Hv, zlen_map in HLs. exact HLs. }
  assert (HVal : forall it a b v, ri_imm it = false -> ri_start it = a -> ri_len it = b - a ->
    0 <= a -> a <= b -> b <= lh_min h ->
    (ritem_value f it = Some v <-> slice (lh_mem h) a (b - a) = map Some v)).
  { intros it a b v H1 H2 H3 Ha Hab Hb. unfold ritem_value, ritem_bytes. rewrite H1, H2, H3, Hfp, (hi_res _ _ _ HI).
    destruct ((0 <=? a) && (0 <=? b - a) && (a + (b - a) <=? lh_reserved h)) eqn:E; [|lia].
    split; [apply all_init_inv|intros ->; apply all_init_Some]. }
  (* addressed items come from a split of S *)
  assert (HAddr : forall it, In it (fr_items f) -> ri_imm it = false ->
    exists p b, item_region hab (lh_pointers h) (lh_min h) p (ri_start it) b /\ ri_len it = b - ri_start it /\
      ri_id it = get_id hab p /\ get_id hab p <> 0).
  { intros it Hin Him. rewrite Hfi in Hin.
    destruct (items_of_addr_sound _ _ _ _ _ _ Hin Him) as (_ & l1 & p & l2 & E & Hp1 & Hp2 & Hp3 & Hp4 & Hp5 & Hp6).
    rewrite E in HSs, HSw, HSm.
    destruct (succ_of_spec hab (lh_min h) l1 p l2 ltac:(lia) HSs HSw Hp1 HSm) as (Q1 & Q2 & Q3).
    destruct (sorted_split hab l1 p l2 ltac:(lia) HSs HSw Hp1) as [P1 P2].
    set (b := succ_of hab (lh_min h) l2) in *.
    exists p, b. rewrite Hp4. split; [|repeat split; assumption].
    assert (HpS : In p S) by (rewrite E; apply in_or_app; right; now left).
    constructor.
    - repeat split; [now apply HSin|exact Hp1].
    - exists (filter (addressed_at hab (get_address hab p)) l1).
      rewrite <- (sort_filter_in (sort_key hab) (addressed_at hab (get_address hab p)) (get_address hab p)).
      + fold S. rewrite E, filter_app. f_equal. cbn [filter]. unfold addressed_at at 1. rewrite Hp1, Z.eqb_refl. cbn [negb andb].
        f_equal. destruct (filter _ l2) as [|y l] eqn:EF; [reflexivity|].
        assert (Hy : In y (filter (addressed_at hab (get_address hab p)) l2)) by (rewrite EF; now left).
        apply filter_In in Hy as [Hy1 Hy2]. unfold addressed_at in Hy2. apply andb_true_iff in Hy2 as [Hy2 Hy3].
        apply negb_true_iff in Hy2. specialize (Q3 y Hy1 Hy2). lia.
      + intros y Hyi Hy. unfold addressed_at in Hy. apply andb_true_iff in Hy as [Hy1 Hy2]. apply negb_true_iff in Hy1.
        rewrite sort_key_arith by (try lia; apply (inv_ptr_words _ _ _ _ HI Hyi)). rewrite Hy1. lia.
    - clear - Q1 Hp6. lia.
    - destruct Q2 as [Q2|(q & Hq & Hq1 & Hq2)]; [now left|]. right. exists q. rewrite <- E in Hq. repeat split; [now apply HSin|exact Hq1|exact Hq2].
    - intros q Hq Hqi. apply HSin in Hq. rewrite E in Hq. apply in_app_or in Hq as [Hq|[<-|Hq]].
      + left. now apply P1.
      + left. lia.
      + right. now apply Q3. }
  exists f. split; [exact HL|].
  split.
  { intros it Hin. destruct (ri_imm it) eqn:Him.
    - destruct (Himm it Hin Him) as [Hv Hl]. eexists. split; [exact Hv|].
      rewrite Hl. unfold zlen. rewrite be_encode_length. pose proof (flavour_ok_bytes _ Hfl). lia.
    - destruct (HAddr it Hin Him) as (p & b & HR1 & Hl & _).
      destruct HR1 as [(A1 & A2 & A3) _ A4 _ _].
      pose proof (get_address_range hab p ltac:(lia)) as A5.
      destruct (HV (ri_start it) b ltac:(lia) ltac:(lia) ltac:(lia)) as (v & Hv & Hzl).
      exists v. split; [|lia]. apply (HVal it (ri_start it) b); try assumption; try reflexivity; lia. }
  split.
  { intros id a v. split.
    - intros (it & Hin & Him & Hid & Hst & Hv).
      destruct (HAddr it Hin Him) as (p & b & HR1 & Hl & Hid1 & Hid2).
      pose proof HR1 as HR2. destruct HR2 as [(A1 & A2 & A3) _ A4 _ _].
      pose proof (get_address_range hab p ltac:(lia)) as A5.
      exists p, b. rewrite Hst in *. split; [exact HR1|]. split; [congruence|]. split; [congruence|].
      apply (HVal it a b); try assumption; lia.
    - intros (p & b & HR1 & Hid & Hid0 & Hv).
      pose proof HR1 as HR2. destruct HR2 as [(A1 & A2 & A3) (m & A6) A4 A7 A8].
      pose proof (get_address_range hab p ltac:(lia)) as A5.
      rewrite <- (sort_filter_in (sort_key hab) _ a) in A6.
      2:{ intros y Hyi Hy. unfold addressed_at in Hy. apply andb_true_iff in Hy as [Hy1 Hy2]. apply negb_true_iff in Hy1.
          rewrite sort_key_arith by (try lia; apply (inv_ptr_words _ _ _ _ HI Hyi)). rewrite Hy1. lia. }
      fold S in A6. destruct (filter_snoc_split _ _ _ _ A6) as (l1 & l2 & E & EF).
      rewrite E in HSs, HSw, HSm.
      destruct (succ_of_spec hab (lh_min h) l1 p l2 ltac:(lia) HSs HSw A2 HSm) as (Q1 & Q2 & Q3).
      destruct (sorted_split hab l1 p l2 ltac:(lia) HSs HSw A2) as [P1 P2].
      assert (Hb : succ_of hab (lh_min h) l2 = b).
      { rewrite <- E in Q2.
        assert (HL2 : forall q, In q l2 -> is_immediate q = false -> b <= get_address hab q).
        { intros q Hq Hqi. destruct (A8 q) as [Hle|Hge]; [|exact Hqi| |exact Hge].
          - apply HSin. rewrite E. apply in_or_app. right. now right.
          - exfalso. assert (HF2 : In q (filter (addressed_at hab a) l2)).
            { apply filter_In. split; [exact Hq|]. unfold addressed_at. rewrite Hqi.
              specialize (P2 q Hq Hqi). cbn [negb andb]. lia. }
            rewrite EF in HF2. destruct HF2. }
        assert (Hge : b <= succ_of hab (lh_min h) l2).
        { unfold succ_of. destruct l2 as [|q l2]; [lia|]. destruct (is_immediate q) eqn:Eq; [lia|].
          apply HL2; [now left|exact Eq]. }
        assert (Hle : succ_of hab (lh_min h) l2 <= b).
        { destruct A7 as [->|(q & Hq & Hqi & <-)]; [lia|].
          apply HSin in Hq. rewrite E in Hq. apply in_app_or in Hq as [Hq|[<-|Hq]].
          - destruct (P1 q Hq). lia.
          - lia.
          - now apply Q3. }
        clear - Hge Hle. lia. }
      pose proof (items_of_addr_complete hab (lh_min h) l1 p l2 0 A2 ltac:(congruence) ltac:(lia)) as HIn.
      rewrite <- E, <- Hfi, Hb, A3 in HIn.
      eexists. split; [exact HIn|]. cbn [ri_imm ri_id ri_start]. split; [reflexivity|]. split; [exact Hid|]. split; [reflexivity|].
      apply (HVal _ a b); cbn [ri_imm ri_start ri_len]; try reflexivity; try assumption; lia. }
  split.
  { rewrite Hfi. apply items_of_disjoint; try assumption; lia. }
  { intros id v. split.
    - intros (it & Hin & Him & Hid & Hv). destruct (Himm it Hin Him) as [Hv' _].
      rewrite Hfi in Hin. destruct (items_of_imm_sound _ _ _ _ _ _ Hin Him) as (_ & p & Hp & Hp1 & Hp2 & Hp3 & Hp4).
      exists p. split; [now apply HSin|]. split; [exact Hp1|]. split; [congruence|]. split; [congruence|].
      rewrite Hp4 in Hv'. congruence.
    - intros (p & Hp & Hp1 & Hp2 & Hp3 & ->). apply HSin in Hp.
      destruct (items_of_imm_complete hab (lh_min h) true S p 0 Hp Hp1 ltac:(congruence)) as (it & Hin & Him & Hid & Hval).
      rewrite <- Hfi in Hin. exists it. split; [exact Hin|]. split; [exact Him|]. split; [congruence|].
      destruct (Himm it Hin Him) as [Hv' _]. now rewrite <- Hval. }
Qed.
Print Assumptions C14_frozen_items.

(** C15: the search for a control code is memory safe unless it meets a
    stream-control item longer than 8 bytes before a match, and otherwise its
    answer is right. *)
Definition ctrl_matches (f : frozen) (code : Z) (it : ritem) : Prop :=
  ri_id it = STREAM_CTRL_ID /\ exists v, ritem_value f it = Some v /\ zlen v <= 8 /\ be_decode v = code.

Lemma ctrl_search_spec f code items :
  (forall it, In it items -> exists v, ritem_value f it = Some v /\ zlen v = ri_len it) ->
  match ctrl_search f items code with
  | Some true => exists it, In it items /\ ctrl_matches f code it
  | Some false => forall it, In it items -> ri_id it = STREAM_CTRL_ID -> ri_len it <= 8 /\ ~ ctrl_matches f code it
  | None => exists l1 it l2, items = l1 ++ it :: l2 /\ ri_id it = STREAM_CTRL_ID /\ 8 < ri_len it /\
              (forall i, In i l1 -> ~ ctrl_matches f code i)
  end.
Proof.
  induction items as [|it items IH]; intro HV; cbn [ctrl_search]; [intros it []|].
  specialize (IH (fun i Hi => HV i (or_intror Hi))).
  destruct (Z.eqb_spec (ri_id it) STREAM_CTRL_ID) as [E|E].
  - destruct (HV it (or_introl eq_refl)) as (v & Hv & Hl). rewrite Hv. cbn [load_bytes_be].
    destruct (Z.leb_spec (zlen v) 8) as [H8|H8].
    + destruct (Z.eqb_spec (be_decode v) code) as [EC|EC].
      * exists it. split; [now left|]. split; [exact E|]. exists v. auto.
      * assert (HN : ~ ctrl_matches f code it) by (intros (_ & w & Hw & _ & Hc); congruence).
        destruct (ctrl_search f items code) as [[|]|].
        -- destruct IH as (i & Hi & Hm). exists i. split; [now right|exact Hm].
        -- intros i [<-|Hi] Hid; [split; [lia|exact HN]|now apply IH].
        -- destruct IH as (l1 & i & l2 & -> & H1 & H2 & H3). exists (it :: l1), i, l2. split; [reflexivity|].
           split; [exact H1|]. split; [exact H2|]. intros j [<-|Hj]; [exact HN|now apply H3].
    + exists [], it, items. split; [reflexivity|]. split; [exact E|]. split; [lia|]. intros i [].
  - assert (HN : ~ ctrl_matches f code it) by (intros (H & _); contradiction).
    destruct (ctrl_search f items code) as [[|]|].
    + destruct IH as (i & Hi & Hm). exists i. split; [now right|exact Hm].
    + intros i [<-|Hi] Hid; [contradiction|now apply IH].
    + destruct IH as (l1 & i & l2 & -> & H1 & H2 & H3). exists (it :: l1), i, l2. split; [reflexivity|].
      split; [exact H1|]. split; [exact H2|]. intros j [<-|Hj]; [exact HN|now apply H3].
Qed.

(** C15, as far as it holds.  Missing: nothing guarantees [ri_len it <= 8] for
    a received heap, see [C15_ctrl_item_refuted]. *)
Theorem C15_ctrl_item_partial : forall p0 ooo pkts h bs f code,
  decoded p0 -> Forall decoded pkts -> reaches p0 ooo pkts h bs -> is_contiguous h = true ->
  freeze h = Some f ->
  (forall it, In it (fr_items f) -> ri_id it = STREAM_CTRL_ID -> ri_len it <= 8) ->
  exists r, is_ctrl_item f code = Some r /\
    (r = true <-> exists it, In it (fr_items f) /\ ctrl_matches f code it).
Proof.
  intros p0 ooo pkts h bs f code Hp0 HF HR HC Hf H8.
  destruct (C14_frozen_items _ _ _ _ _ Hp0 HF HR HC) as (f' & Hf' & HV & _).
  rewrite Hf in Hf'. injection Hf' as <-. unfold is_ctrl_item.
  pose proof (ctrl_search_spec f code (fr_items f) HV) as HS.
  destruct (ctrl_search f (fr_items f) code) as [[|]|].
  - exists true. split; [reflexivity|]. tauto.
  - exists false. split; [reflexivity|]. split; [discriminate|]. intros (it & Hi & Hm).
    exfalso. destruct (HS it Hi (proj1 Hm)) as [_ HN]. contradiction.
  - destruct HS as (l1 & it & l2 & E & H1 & H2 & _). exfalso.
    specialize (H8 it ltac:(rewrite E; apply in_or_app; right; now left) H1). lia.
Qed.
Print Assumptions C15_ctrl_item_partial.

(** The control search goes out of bounds exactly on such an item. *)
Theorem C15_unsafe_iff : forall p0 ooo pkts h bs f code,
  decoded p0 -> Forall decoded pkts -> reaches p0 ooo pkts h bs -> is_contiguous h = true ->
  freeze h = Some f ->
  (is_ctrl_item f code = None <->
   exists l1 it l2, fr_items f = l1 ++ it :: l2 /\ ri_id it = STREAM_CTRL_ID /\ 8 < ri_len it /\
     forall i, In i l1 -> ~ ctrl_matches f code i).
Proof.
  intros p0 ooo pkts h bs f code Hp0 HF HR HC Hf.
  destruct (C14_frozen_items _ _ _ _ _ Hp0 HF HR HC) as (f' & Hf' & HV & _).
  rewrite Hf in Hf'. injection Hf' as <-. unfold is_ctrl_item. split.
  - intro HN. pose proof (ctrl_search_spec f code (fr_items f) HV) as HS. now rewrite HN in HS.
  - intros (l1 & it & l2 & E & H1 & H2 & H3). rewrite E in HV |- *. clear E.
    induction l1 as [|i l1 IH]; cbn [app ctrl_search].
    + rewrite H1, Z.eqb_refl. destruct (HV it (or_introl eq_refl)) as (v & -> & Hl). cbn [load_bytes_be].
      destruct (Z.leb_spec (zlen v) 8); [lia|reflexivity].
    + assert (IH' : ctrl_search f (l1 ++ it :: l2) code = None).
      { apply IH; [intros j Hj; apply HV; now right|intros j Hj; apply H3; now right]. }
      destruct (Z.eqb_spec (ri_id i) STREAM_CTRL_ID) as [Ei|Ei]; [|exact IH'].
      destruct (HV i (or_introl eq_refl)) as (v & Hv & Hl). rewrite Hv. cbn [load_bytes_be].
      destruct (Z.leb_spec (zlen v) 8) as [H8|H8]; [|reflexivity].
      destruct (Z.eqb_spec (be_decode v) code) as [EC|EC]; [|exact IH'].
      exfalso. apply (H3 i (or_introl eq_refl)). split; [exact Ei|]. exists v. auto.
Qed.
Print Assumptions C15_unsafe_iff.

(** A single legal-looking packet whose stream-control item is addressed and 9
    bytes long makes the search write before its local variable. *)
Definition ex_long_ctrl : list rpkt := map ex_rp
  [ex_pkt [9] 0 [encode_address 40 STREAM_CTRL_ID 0] [0; 0; 0; 0; 0; 0; 0; 0; 2]].
Theorem C15_ctrl_item_refuted : exists p0 pkts h bs f,
  decoded p0 /\ Forall decoded pkts /\ reaches p0 true pkts h bs /\ is_complete h = true /\
  is_contiguous h = true /\ freeze h = Some f /\ is_ctrl_item f 2 = None.
Proof.
  exists (hd (ex_rp []) ex_long_ctrl), ex_long_ctrl. eexists. exists [true]. eexists.
  split; [unfold ex_long_ctrl; cbn [map hd]; ex_dec|].
  split; [unfold ex_long_ctrl; cbn [map]; repeat (apply Forall_cons; [ex_dec|]); apply Forall_nil|].
  split; [vm_compute; reflexivity|]. split; [vm_compute; reflexivity|]. split; [vm_compute; reflexivity|].
  split; vm_compute; reflexivity.
Qed.
Print Assumptions C15_ctrl_item_refuted.

(** ** C51: incomplete heaps *)
(** What the user of an incomplete heap may rely on: immediates only (with
    their exact values), the total received, and the exact set of received
    payload bytes, each of which is in the payload buffer if it was kept. *)
Theorem C51_incomplete_heap : forall p0 ooo pkts h bs keep_payload,
  decoded p0 -> Forall decoded pkts -> reaches p0 ooo pkts h bs ->
  let hab := rp_hab p0 in
  exists ic, freeze_incomplete h keep_payload true = Some ic /\
    (forall it, In it (fr_items (ic_frozen ic)) -> ri_imm it = true) /\
    (forall id v,
      (exists it, In it (fr_items (ic_frozen ic)) /\ ri_id it = id /\ ritem_value (ic_frozen ic) it = Some v) <->
      (exists p, In p (lh_pointers h) /\ is_immediate p = true /\ get_id hab p = id /\ id <> 0 /\
                 v = be_encode (Z.to_nat (hab / 8)) (get_immediate hab p))) /\
    ic_recv ic = total_payload (added pkts bs) /\
    separated (ic_ranges ic) /\
    (forall x, in_ranges (ic_ranges ic) x <-> exists p, In p (added pkts bs) /\ carries p x) /\
    (keep_payload = true -> forall x, in_ranges (ic_ranges ic) x ->
       exists p v, In p (added pkts bs) /\ carries p x /\ znth (rp_payload p) (x - rp_off p) = Some v /\
                   znth (fr_payload (ic_frozen ic)) x = Some (Some v)).
Proof.
  intros p0 ooo pkts h bs kp Hp0 HF HR hab. destruct (reaches_inv _ _ _ _ _ HF HR) as (HI & _ & Hh).
  pose proof (ro_flavour p0 (decoded_ok p0 Hp0)) as Hfl. unfold hab. rewrite <- Hh in *. clear hab.
  set (hab := lh_hab h) in *.
  destruct (load_spec h false kp Hfl) as (f & HL & _ & Hfh & Hfp & Hfi & Himm). fold hab in Hfi, Himm.
  unfold freeze_incomplete. rewrite HL. eexists. split; [reflexivity|]. cbn [ic_frozen ic_recv ic_ranges].
  assert (HAll : forall it, In it (fr_items f) -> ri_imm it = true).
  { intros it Hin. destruct (ri_imm it) eqn:E; [reflexivity|]. rewrite Hfi in Hin.
    destruct (items_of_addr_sound _ _ _ _ _ _ Hin E) as (H & _). discriminate H. }
  split; [exact HAll|]. split.
  { intros id v. split.
    - intros (it & Hin & Hid & Hv). pose proof (HAll it Hin) as Him. destruct (Himm it Hin Him) as [Hv' _].
      rewrite Hfi in Hin. destruct (items_of_imm_sound _ _ _ _ _ _ Hin Him) as (_ & p & Hp & Hp1 & Hp2 & Hp3 & Hp4).
      exists p. split; [now apply (sort_In (sort_key hab))|]. split; [exact Hp1|]. split; [congruence|]. split; [congruence|].
      rewrite Hp4 in Hv'. congruence.
    - intros (p & Hp & Hp1 & Hp2 & Hp3 & ->). apply (sort_In (sort_key hab)) in Hp.
      destruct (items_of_imm_complete hab (lh_min h) false _ p 0 Hp Hp1 ltac:(congruence)) as (it & Hin & Him & Hid & Hval).
      rewrite <- Hfi in Hin. exists it. split; [exact Hin|]. split; [congruence|].
      destruct (Himm it Hin Him) as [Hv' _]. now rewrite <- Hval. }
  split; [exact (hi_recv _ _ _ HI)|].
  set (rs := match lh_ranges h with
             | [] => if 0 <? lh_recv h then [(0, lh_recv h)] else []
             | r :: l => r :: l
             end).
  assert (HRS : separated rs /\ forall x, in_ranges rs x <-> exists p, In p (added pkts bs) /\ carries p x).
  { pose proof (hi_cover _ _ _ HI) as HC. unfold coverage in HC. unfold rs. destruct ooo.
    - destruct HC as (C1 & C2 & C3). destruct (lh_ranges h) as [|r0 rs0] eqn:ER; [|split; [exact C1|exact C3]].
      assert (HZ : lh_recv h = 0).
      { rewrite (hi_recv _ _ _ HI). pose proof (hi_pkts _ _ _ HI) as HP. clear - C3 HP.
        assert (HX : forall p, In p (added pkts bs) -> rp_plen p = 0).
        { intros p Hp. rewrite Forall_forall in HP. pose proof (rp_plen_nonneg p (HP p Hp)) as H0.
          destruct (Z.eq_dec (rp_plen p) 0) as [E|E]; [exact E|]. exfalso.
          destruct (proj2 (C3 (rp_off p))) as (r & [] & _). exists p. split; [exact Hp|]. unfold carries. lia. }
        clear HP C3. induction (added pkts bs) as [|p l IH]; [reflexivity|]. unfold total_payload in *. cbn [fold_right].
        rewrite IH by (intros q Hq; apply HX; now right). rewrite (HX p (or_introl eq_refl)). lia. }
      rewrite HZ. change (0 <? 0) with false. split; [exact C1|exact C3].
    - destruct HC as (C1 & C2). rewrite C1. destruct (0 <? lh_recv h) eqn:E.
      + split; [cbn [separated fst snd]; split; [lia|]; split; [intros q []|exact I]|].
        intro x. rewrite <- C2. unfold in_ranges. split.
        * intros (r & [<-|[]] & Hx). exact Hx.
        * intro Hx. exists (0, lh_recv h). split; [now left|exact Hx].
      + split; [exact I|]. intro x. rewrite <- C2. unfold in_ranges. split; [intros (r & [] & _)|lia]. }
  destruct HRS as [HS HX]. split; [exact HS|]. split; [exact HX|].
  intros -> x Hx. destruct (proj1 (HX x) Hx) as (p & Hp & Hc). unfold carries in Hc.
  pose proof (hi_mem _ _ _ HI) as HM. rewrite Forall_forall in HM. specialize (HM p Hp (x - rp_off p) ltac:(lia)).
  replace (rp_off p + (x - rp_off p)) with x in HM by lia.
  pose proof (hi_pkts _ _ _ HI) as HP. rewrite Forall_forall in HP. pose proof (ro_plen p (HP p Hp)) as Hpl.
  destruct (znth (rp_payload p) (x - rp_off p)) as [v|] eqn:EV.
  - exists p, v. rewrite Hfp. repeat split; try assumption; unfold carries; lia.
  - exfalso. unfold znth in EV. destruct (x - rp_off p <? 0) eqn:E; [lia|].
    apply nth_error_None in EV. unfold zlen in Hpl. lia.
Qed.
Print Assumptions C51_incomplete_heap.

(** ** Examples: the theorems' hypotheses are met by the history of
    LiveHeapProps and by an unfinished prefix of it. *)
Example ex_frozen : exists h f,
  reaches (hd (ex_rp []) ex_history) true ex_history h [true; true; false; false; true; false; true] /\
  is_contiguous h = true /\ freeze h = Some f /\
  map (fun it => (ri_id it, ri_imm it, ritem_value f it)) (firstn 2 (fr_items f)) =
    [(5000, false, Some [3; 4; 5; 6; 7; 8]); (4096, true, Some [0; 0; 0; 0; 1])] /\
  length (fr_items f) = 12%nat /\
  is_ctrl_item f 2 = Some true /\ is_ctrl_item f 0 = Some false.
Proof.
  eexists. eexists. split; [vm_compute; reflexivity|]. split; [vm_compute; reflexivity|]. split; [vm_compute; reflexivity|].
  vm_compute. auto 10.
Qed.

Example ex_region : exists p b,
  item_region 40 [encode_address 40 5000 2; encode_address 40 5001 2; encode_address 40 5002 6; encode_immediate 40 6 2] 8 p 2 b /\
  get_id 40 p = 5001 /\ b = 6.
Proof.
  exists (encode_address 40 5001 2), 6. split; [|vm_compute; auto]. constructor.
  - vm_compute. auto 10.
  - exists [encode_address 40 5000 2]. vm_compute. reflexivity.
  - lia.
  - right. exists (encode_address 40 5002 6). vm_compute. auto 10.
  - intros q Hq Hi. cbn [In] in Hq.
    destruct Hq as [<-|[<-|[<-|[<-|[]]]]].
    + left. vm_compute. discriminate.
    + left. vm_compute. discriminate.
    + right. vm_compute. discriminate.
    + vm_compute in Hi. discriminate.
Qed.

Example ex_incomplete : exists h ic,
  reaches (hd (ex_rp []) ex_history) true (firstn 6 ex_history) h [true; true; false; false; true; false] /\
  freeze_incomplete h true true = Some ic /\ ic_ranges ic = [(0, 2); (4, 8)] /\ ic_recv ic = 6 /\ ic_hlen ic = 8 /\
  length (fr_items (ic_frozen ic)) = 10%nat.
Proof. eexists. eexists. split; [vm_compute; reflexivity|]. vm_compute. auto 10. Qed.
