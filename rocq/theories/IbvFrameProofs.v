(** Proofs about the frames of the ibverbs sender. *)
From Coq Require Import ZArith List Bool Lia.
From Verif Require Import Base ConcBase RawModel RawSpec RawProps IbvFrameModel IbvFrameSpec.
Import ListNotations.
Open Scope Z_scope.

(** ** A frame as the concatenation of its fields *)
Lemma concat_split {A} (F : list (list A)) k old : nth_error F k = Some old -> concat F = concat (firstn k F) ++ old ++ concat (skipn (S k) F).
Proof.
  revert k. induction F as [|x F IH]; intros [|k] H; cbn [nth_error] in H; try discriminate; [injection H as <-; reflexivity|]. cbn [firstn skipn concat]. rewrite (IH k H) at 1. now rewrite <- app_assoc.
Qed.
Lemma concat_upd {A} (F : list (list A)) k old new : nth_error F k = Some old -> concat (upd F k new) = concat (firstn k F) ++ new ++ concat (skipn (S k) F).
Proof.
  revert k. induction F as [|x F IH]; intros [|k] H; cbn [nth_error] in H; try discriminate; [reflexivity|]. cbn [upd firstn skipn concat]. rewrite (IH k H). now rewrite <- app_assoc.
Qed.
Lemma store_mid pre old post new : zlen new = zlen old -> store (pre ++ old ++ post) (zlen pre) new = pre ++ new ++ post.
Proof.
  intro E. unfold store. pose proof (zlen_nonneg pre). pose proof (zlen_nonneg old). pose proof (zlen_nonneg post). f_equal; [|f_equal].
  - rewrite slice_app_l by lia. apply slice_full.
  - rewrite E, !zlen_app. replace (zlen pre + (zlen old + zlen post) - zlen pre - zlen old) with (zlen post) by lia.
    rewrite app_assoc. rewrite slice_app_r by (rewrite ?zlen_app; lia). rewrite zlen_app. replace (zlen pre + zlen old - (zlen pre + zlen old)) with 0 by lia. apply slice_full.
Qed.
Lemma set_field F b off k l old : nth_error F k = Some old -> zlen l = zlen old -> pb_off b + off = zlen (concat (firstn k F)) -> set (concat F) b off l = POk (concat (upd F k l)).
Proof.
  intros H1 H2 H3. unfold set. rewrite H3. rewrite (concat_upd F k old l H1). rewrite (concat_split F k old H1). pose proof (zlen_nonneg (concat (firstn k F))). pose proof (zlen_nonneg (concat (skipn (S k) F))).
  destruct (Z.leb_spec 0 (zlen (concat (firstn k F)))); [|lia]. rewrite !zlen_app. destruct (Z.leb_spec (zlen (concat (firstn k F)) + zlen l) (zlen (concat (firstn k F)) + (zlen old + zlen (concat (skipn (S k) F))))); [|lia].
  cbn [andb]. now rewrite store_mid.
Qed.
Lemma get_field F b off k n old : nth_error F k = Some old -> n = zlen old -> pb_off b + off = zlen (concat (firstn k F)) -> get_be (concat F) b off n = POk (be_decode old).
Proof.
  intros H1 H2 H3. unfold get_be, get. rewrite H3. rewrite (concat_split F k old H1). pose proof (zlen_nonneg (concat (firstn k F))). pose proof (zlen_nonneg (concat (skipn (S k) F))).
  destruct (Z.leb_spec 0 (zlen (concat (firstn k F)))); [|lia]. rewrite !zlen_app. destruct (Z.leb_spec (zlen (concat (firstn k F)) + n) (zlen (concat (firstn k F)) + (zlen old + zlen (concat (skipn (S k) F))))); [|lia].
  cbn [andb pbind]. now rewrite H2, slice_app_exact.
Qed.

Definition fields (d s ty vi ds tl id fl tt pr ck sa da sp dp ul uc pay : list Z) : list (list Z) :=
  [d; s; ty; vi; ds; tl; id; fl; tt; pr; ck; sa; da; sp; dp; ul; uc; pay].
(** the slot's frame *)
Definition shape (c : icfg) (f : list Z) (d tl ck da dp ul pay : list Z) : Prop :=
  f = concat (fields d (ic_mac c) [8; 0] [69] [0] tl [0; 0] [64; 0] [ic_ttl c] [17] ck (ic_addr c) da (be_encode 2 (ic_port c)) dp ul [0; 0] pay)
  /\ zlen d = 6 /\ zlen tl = 2 /\ zlen ck = 2 /\ zlen da = 4 /\ zlen dp = 2 /\ zlen ul = 2 /\ zlen pay = ic_mps c
  /\ bytes_ok d /\ bytes_ok tl /\ bytes_ok ck /\ bytes_ok da /\ bytes_ok dp /\ bytes_ok ul /\ bytes_ok pay.
Ltac zl := cbn [firstn concat app fields upd nth_error]; repeat first [rewrite zlen_app|rewrite zlen_be_encode|rewrite zlen_cons]; change (zlen (@nil Z)) with 0; cbn [pb_off pb_len].

Lemma zlen_of_length {A} (l : list A) n : length l = n -> zlen l = Z.of_nat n. Proof. unfold zlen. congruence. Qed.
Lemma mac_ok a : length a = 4%nat -> bytes_ok a -> zlen (multicast_mac a) = 6 /\ bytes_ok (multicast_mac a).
Proof.
  intros L B. destruct a as [|a0 [|a1 [|a2 [|a3 [|]]]]]; cbn in L; try lia. unfold bytes_ok in *. rewrite !Forall_cons_iff in B. destruct B as (B0 & B1 & B2 & B3 & _). split; [reflexivity|]. cbn [multicast_mac].
  assert (byte_ok (Z.land a1 127)). { unfold byte_ok in *. change 127 with (Z.ones 7). rewrite Z.land_ones by lia. change (2 ^ 7) with 128. pose proof (Z.mod_pos_bound a1 128). lia. }
  repeat (apply Forall_cons; [unfold byte_ok in *; lia|]). constructor.
Qed.
Lemma be2_pair v : exists x y, be_encode 2 v = [x; y]. Proof. cbn [be_encode app]. eauto. Qed.
Lemma repeat_add {A} (x : A) n m : repeat x (n + m) = repeat x n ++ repeat x m.
Proof. apply repeat_app. Qed.

(** The constructor *)
Section Ctor.
Context (c : icfg) (CO : cfg_ok c).

Lemma frame_zero : repeat 0 (Z.to_nat (raw_size c)) =
  concat (fields (repeat 0 6) (repeat 0 6) [0;0] [0] [0] [0;0] [0;0] [0;0] [0] [0] [0;0] (repeat 0 4) (repeat 0 4) [0;0] [0;0] [0;0] [0;0] (repeat 0 (Z.to_nat (ic_mps c)))).
Proof.
  pose proof (co_mps c CO). replace (Z.to_nat (raw_size c)) with (42 + Z.to_nat (ic_mps c))%nat by (unfold raw_size, header_size, eth_min, ipv4_min, udp_min; lia).
  rewrite repeat_add. cbn [fields concat repeat app]. rewrite app_nil_r. reflexivity.
Qed.

Ltac sets k := erewrite (set_field _ _ _ k); [|reflexivity|zl; lia|zl; lia]; cbn [fields upd pbind].
Ltac gets k := erewrite (get_field _ _ _ k); [|reflexivity|zl; lia|zl; lia]; cbn [fields upd pbind].

Definition ok16 (v : Z) : Prop := 28 <= (v + 28) mod 65536.

Lemma new_slot_shape addr0 port0 rest : ic_eps c = (addr0, port0) :: rest -> no_overlap (reg_sort (ic_regions c)) = true -> ok16 (ic_mps c) ->
  exists f pay, new_slot c = POk (f, 42) /\ shape c f (multicast_mac addr0) (be_encode 2 (ic_mps c + 28)) [0;0] addr0 (be_encode 2 port0) (be_encode 2 (ic_mps c + 8)) pay.
Proof.
  intros E NO OK. pose proof (co_mps c CO) as HM. pose proof (co_eps c CO) as HE. rewrite E in HE. apply Forall_inv in HE as (HA1 & HA2 & HP). cbn [fst snd] in *.
  destruct (mac_ok addr0 HA1 HA2) as (M1 & M2). destruct (co_mac c CO) as (SM1 & SM2). destruct (co_addr c CO) as (SA1 & SA2). apply zlen_of_length in HA1, SM1, SA1. pose proof (co_ttl c CO) as TT.
  unfold new_slot. rewrite E, NO. cbn [negb]. unfold the_frame. unfold sized at 1. cbn [pb_len]. unfold raw_size, header_size, eth_min, ipv4_min, udp_min.
  destruct (Z.ltb_spec (ic_mps c + (14 + 20 + 8)) 14); [lia|]. cbn [pbind].
  change (ic_mps c + (14 + 20 + 8)) with (raw_size c). rewrite frame_zero. change (repeat 0 6) with [0;0;0;0;0;0]. change (repeat 0 4) with [0;0;0;0]. set (P := repeat 0 (Z.to_nat (ic_mps c))).
  assert (ZP : zlen P = ic_mps c) by (unfold P; rewrite zlen_repeat; lia). assert (BP : bytes_ok P) by (unfold P; apply Forall_forall; intros x Hx; apply repeat_spec in Hx; subst; unfold byte_ok; lia). clearbody P.
  sets 0%nat. sets 1%nat. unfold set_be. sets 2%nat. unfold payload_ipv4, sized. cbn [pb_off pb_len]. unfold raw_size, header_size, eth_min, ipv4_min, udp_min.
  destruct (Z.ltb_spec (ic_mps c + (14 + 20 + 8) - 14) 20); [lia|]. cbn [pbind].
  sets 3%nat. sets 5%nat. sets 7%nat. sets 8%nat. sets 9%nat. sets 11%nat. sets 12%nat.
  unfold payload_udp, header_length, sized, ipv4_min, udp_min. cbn [pb_off pb_len]. gets 3%nat. gets 5%nat.
  change (be_decode (be_encode 1 69)) with 69. change (4 * Z.land 69 15) with 20. change (20 <? 20) with false. cbv iota. rewrite be_decode_encode. change (256 ^ Z.of_nat 2) with 65536.
  unfold ok16 in OK. pose proof (Z.mod_le (ic_mps c + 28) 65536 ltac:(lia) ltac:(lia)) as LE. replace (ic_mps c + 20 + 8) with (ic_mps c + 28) by lia. set (T := (ic_mps c + 28) mod 65536) in *.
  destruct (Z.ltb_spec (ic_mps c + (14 + 20 + 8) - 14) T); [lia|]. destruct (Z.ltb_spec T 20); [lia|]. cbn [orb]. destruct (Z.ltb_spec (T - 20) 8); [lia|]. cbn [pbind].
  sets 13%nat. sets 14%nat. sets 15%nat. sets 16%nat. unfold udp_payload. gets 15%nat. cbn [pb_len pb_off]. rewrite be_decode_encode. change (256 ^ Z.of_nat 2) with 65536. unfold udp_min.
  assert (U : (ic_mps c + 8) mod 65536 = T - 20).
  { unfold T. pose proof (Z.div_mod (ic_mps c + 28) 65536 ltac:(lia)). pose proof (Z.mod_pos_bound (ic_mps c + 28) 65536 ltac:(lia)). symmetry. apply (Z.mod_unique _ _ ((ic_mps c + 28) / 65536)); unfold T in *; lia. }
  rewrite U. destruct (Z.ltb_spec (T - 20) (T - 20)); [lia|]. destruct (Z.ltb_spec (T - 20) 8); [lia|]. cbn [orb pbind pb_off].
  eexists. exists P. split; [reflexivity|]. unfold shape. split.
  { change (be_encode 2 2048) with [8; 0]. change (be_encode 1 69) with [69]. change (be_encode 2 16384) with [64; 0]. change (be_encode 1 17) with [17]. change (be_encode 2 0) with [0; 0].
    assert (ET : be_encode 1 (ic_ttl c) = [ic_ttl c]) by (cbn [be_encode app]; f_equal; apply Z.mod_small; exact TT). rewrite ET. reflexivity. }
  rewrite !zlen_be_encode. repeat split; auto using be_encode_ok; try lia. all: repeat (apply Forall_cons; [unfold byte_ok; lia|]); constructor.
Qed.
End Ctor.

(** ** Registered regions *)
From Coq Require Import Permutation Sorting.Sorted.
Lemma reg_insert_perm r l : Permutation (reg_insert r l) (r :: l).
Proof. induction l as [|x l IH]; cbn [reg_insert]; [reflexivity|]. destruct (reg_le r x); [reflexivity|]. rewrite IH. apply perm_swap. Qed.
Lemma reg_sort_perm l : Permutation (reg_sort l) l.
Proof. induction l as [|x l IH]; cbn [reg_sort fold_right]; [reflexivity|]. fold (reg_sort l). rewrite reg_insert_perm, IH. reflexivity. Qed.
Lemma no_overlap_sorted l : Forall (fun r => 0 < rg_size r) l -> no_overlap l = true -> StronglySorted (fun a b => rg_ptr a + rg_size a <= rg_ptr b) l.
Proof.
  induction l as [|a l IH]; intros S H; [constructor|]. apply Forall_cons_iff in S as (Sa & Sl). destruct l as [|b l].
  - repeat constructor.
  - cbn [no_overlap] in H. apply andb_true_iff in H as (H1 & H2). apply Z.leb_le in H1. pose proof (IH Sl H2) as SS. constructor; [exact SS|]. constructor; [exact H1|].
    apply StronglySorted_inv in SS as (_ & SS). apply Forall_cons_iff in Sl as (Sb & _). eapply Forall_impl; [|exact SS]. cbn beta. lia.
Qed.
Lemma no_overlap_apart l : Forall (fun r => 0 < rg_size r) l -> no_overlap (reg_sort l) = true -> apart l.
Proof.
  intros S H. assert (S' : Forall (fun r => 0 < rg_size r) (reg_sort l)) by (eapply Permutation_Forall; [symmetry; apply reg_sort_perm|exact S]).
  pose proof (no_overlap_sorted _ S' H) as SS. pose proof (reg_sort_perm l) as P. revert SS S' P. generalize (reg_sort l). intros m SS S' P. split.
  - eapply Permutation_NoDup; [apply Permutation_map; exact P|]. clear P H. induction SS as [|a m SS IH F]; [constructor|]. apply Forall_cons_iff in S' as (Sa & Sm). cbn [map]. constructor; [|auto].
    intro K. apply in_map_iff in K as (x & E & K). rewrite Forall_forall in F. specialize (F x K). lia.
  - intros a b Ha Hb LT. apply (Permutation_in a (Permutation_sym P)) in Ha. apply (Permutation_in b (Permutation_sym P)) in Hb. clear P H. induction SS as [|x m SS IH F]; [contradiction|]. apply Forall_cons_iff in S' as (Sx & Sm).
    rewrite Forall_forall in F, Sm. destruct Ha as [->|Ha], Hb as [->|Hb]; auto; [lia| |apply IH; auto; now apply Forall_forall]. specialize (F a Ha). specialize (Sm a Ha). lia.
Qed.
Lemma reg_insert_sorted r l : StronglySorted (fun a b => rg_ptr a <= rg_ptr b) l -> StronglySorted (fun a b => rg_ptr a <= rg_ptr b) (reg_insert r l).
Proof.
  induction 1 as [|y l SS IH F]; cbn [reg_insert]; [repeat constructor|]. unfold reg_le. destruct (Z.ltb_spec (rg_ptr r) (rg_ptr y)); cbn [orb].
  { constructor; [constructor; auto|]. constructor; [lia|]. eapply Forall_impl; [|exact F]. cbn beta. lia. }
  destruct (Z.eqb_spec (rg_ptr r) (rg_ptr y)); cbn [andb]; [destruct (_ <=? _)|].
  - constructor; [constructor; auto|]. constructor; [lia|]. eapply Forall_impl; [|exact F]. cbn beta. lia.
  - constructor; [exact IH|]. eapply Permutation_Forall; [symmetry; apply reg_insert_perm|]. constructor; [lia|exact F].
  - constructor; [exact IH|]. eapply Permutation_Forall; [symmetry; apply reg_insert_perm|]. constructor; [lia|exact F].
Qed.
Lemma apart_no_overlap l : apart l -> no_overlap (reg_sort l) = true.
Proof.
  intros (ND & AP). assert (SS : StronglySorted (fun a b => rg_ptr a <= rg_ptr b) (reg_sort l)) by (clear; induction l as [|x l IH]; [constructor|now apply reg_insert_sorted]).
  pose proof (reg_sort_perm l) as P. assert (ND' : NoDup (map rg_ptr (reg_sort l))) by (eapply Permutation_NoDup; [apply Permutation_map; symmetry; exact P|exact ND]).
  assert (AP' : forall a b, In a (reg_sort l) -> In b (reg_sort l) -> rg_ptr a < rg_ptr b -> rg_ptr a + rg_size a <= rg_ptr b) by (intros a b Ha Hb; apply AP; eapply Permutation_in; eauto).
  clear P ND AP. induction SS as [|a m SS IH F]; [reflexivity|]. cbn [map] in ND'. apply NoDup_cons_iff in ND' as (N1 & N2). destruct m as [|b m]; [reflexivity|]. cbn [no_overlap]. apply andb_true_iff. split.
  - apply Z.leb_le, AP'; [now left|right; now left|]. apply Forall_inv in F. assert (rg_ptr a <> rg_ptr b) by (intro E; apply N1; rewrite E; now left). lia.
  - apply IH; [exact N2|]. intros x y Hx Hy. apply AP'; now right.
Qed.

Lemma set_insert_in r l x : ~ In (rg_ptr r) (map rg_ptr l) -> In x (set_insert r l) <-> x = r \/ In x l.
Proof.
  induction l as [|y l IH]; intro N; cbn [set_insert].
  - cbn [In]. intuition.
  - cbn [map In] in N. destruct (Z.ltb_spec (rg_ptr y) (rg_ptr r)); [cbn [In]; intuition|]. destruct (Z.ltb_spec (rg_ptr r) (rg_ptr y)); [|exfalso; apply N; left; lia].
    cbn [In]. rewrite IH by tauto. intuition.
Qed.
Lemma set_insert_sorted r l : StronglySorted (fun a b => rg_ptr b < rg_ptr a) l -> StronglySorted (fun a b => rg_ptr b < rg_ptr a) (set_insert r l).
Proof.
  induction 1 as [|y l SS IH F]; cbn [set_insert]; [repeat constructor|]. destruct (Z.ltb_spec (rg_ptr y) (rg_ptr r)).
  - constructor; [constructor; auto|]. constructor; [auto|]. eapply Forall_impl; [|exact F]. cbn beta. lia.
  - destruct (Z.ltb_spec (rg_ptr r) (rg_ptr y)); [|constructor; auto]. constructor; [exact IH|]. clear - F H0. induction l as [|z l IH]; cbn [set_insert]; [repeat constructor; auto|].
    apply Forall_cons_iff in F as (Fz & Fl). destruct (_ <? _); [repeat constructor; auto|]. destruct (_ <? _); constructor; auto.
Qed.
Lemma region_set_gen l : forall s, StronglySorted (fun a b => rg_ptr b < rg_ptr a) s -> NoDup (map rg_ptr l) -> (forall x y, In x s -> In y l -> rg_ptr x <> rg_ptr y) ->
  let s' := fold_left (fun s r => set_insert r s) l s in StronglySorted (fun a b => rg_ptr b < rg_ptr a) s' /\ forall x, In x s' <-> In x s \/ In x l.
Proof.
  induction l as [|r l IH]; intros s SS ND D; cbn [fold_left].
  - split; [exact SS|]. cbn [In]. tauto.
  - cbn [map] in ND. apply NoDup_cons_iff in ND as (N & ND). assert (NS : ~ In (rg_ptr r) (map rg_ptr s)). { intro K. apply in_map_iff in K as (x & E & K). exact (D x r K (or_introl eq_refl) E). }
    destruct (IH (set_insert r s) (set_insert_sorted r s SS) ND) as (I1 & I2).
    { intros x y Hx Hy. apply set_insert_in in Hx; [|exact NS]. destruct Hx as [->|Hx]; [|apply D; [exact Hx|now right]]. intro E. apply N. rewrite E. now apply in_map. }
    split; [exact I1|]. intro x. rewrite I2, set_insert_in by exact NS. cbn [In]. intuition.
Qed.
Lemma lookup_spec c ptr len : Forall (fun r => 0 < rg_size r) (ic_regions c) -> apart (ic_regions c) -> 0 <= len ->
  match (match lower_bound (region_set (ic_regions c)) ptr with Some r => if contains r ptr len then Some r else None | None => None end) with
  | Some r => In r (ic_regions c) /\ rg_ptr r <= ptr /\ ptr + len <= rg_ptr r + rg_size r /\ registered c (ptr, len) = true
  | None => registered c (ptr, len) = false
  end.
Proof.
  intros SZ (ND & AP) HL. rewrite Forall_forall in SZ. destruct (region_set_gen (ic_regions c) [] (SSorted_nil _) ND ltac:(intros x y [])) as (SS & IN). fold (region_set (ic_regions c)) in SS, IN. cbn [In] in IN.
  assert (R : forall r, In r (ic_regions c) -> rg_ptr r <= ptr -> ptr + len <= rg_ptr r + rg_size r -> registered c (ptr, len) = true).
  { intros r H1 H2 H3. unfold registered. apply existsb_exists. exists r. cbn [fst snd]. split; [exact H1|]. apply andb_true_iff. split; now apply Z.leb_le. }
  assert (F : match lower_bound (region_set (ic_regions c)) ptr with Some r => In r (ic_regions c) /\ rg_ptr r <= ptr /\ forall x, In x (ic_regions c) -> rg_ptr x <= ptr -> rg_ptr x < rg_ptr r \/ x = r | None => forall x, In x (ic_regions c) -> ptr < rg_ptr x end).
  { assert (G : match lower_bound (region_set (ic_regions c)) ptr with Some r => In r (region_set (ic_regions c)) /\ rg_ptr r <= ptr /\ forall x, In x (region_set (ic_regions c)) -> rg_ptr x <= ptr -> rg_ptr x < rg_ptr r \/ x = r | None => forall x, In x (region_set (ic_regions c)) -> ptr < rg_ptr x end).
    { clear IN R. induction SS as [|a l SS IH F]; cbn [lower_bound find]; [intros x []|]. destruct (Z.leb_spec (rg_ptr a) ptr).
      - split; [now left|]. split; [auto|]. intros x [->|Hx] _; [now right|]. left. rewrite Forall_forall in F. auto.
      - fold (lower_bound l ptr). destruct (lower_bound l ptr) as [r|].
        + destruct IH as (I1 & I2 & I3). split; [now right|]. split; [auto|]. intros x [->|Hx] K; [lia|auto].
        + intros x [->|Hx]; [lia|auto]. }
    destruct (lower_bound _ _) as [r|].
    - destruct G as (G1 & G2 & G3). split; [apply IN in G1; tauto|]. split; [auto|]. intros x Hx. apply G3, IN. auto.
    - intros x Hx. apply G, IN. auto. }
  assert (RF : (forall r, In r (ic_regions c) -> rg_ptr r <= ptr -> ptr + len <= rg_ptr r + rg_size r -> False) -> registered c (ptr, len) = false).
  { intro K. destruct (registered c (ptr, len)) eqn:E; [|reflexivity]. unfold registered in E. apply existsb_exists in E as (r & E1 & E2). cbn [fst snd] in E2. apply andb_true_iff in E2 as (E2 & E3). apply Z.leb_le in E2, E3. exfalso. eauto. }
  destruct (lower_bound _ _) as [r|].
  - destruct F as (F1 & F2 & F3). unfold contains. destruct (Z.leb_spec (rg_ptr r) ptr); [|lia]. cbn [andb]. destruct (Z.leb_spec (ptr + len) (rg_ptr r + rg_size r)); [eauto|].
    apply RF. intros x X1 X2 X3. destruct (F3 x X1 X2) as [LT| ->]; [|lia]. pose proof (AP x r X1 F1 LT). specialize (SZ r F1). lia.
  - apply RF. intros x X1 X2 X3. specialize (F x X1). lia.
Qed.

(** ** The scatter/gather list *)
Lemma total_app {A} (w : A -> Z) l1 l2 : total w (l1 ++ l2) = total w l1 + total w l2.
Proof. induction l1 as [|x l IH]; cbn [total app]; lia. Qed.
Lemma total_rev {A} (w : A -> Z) l : total w (rev l) = total w l.
Proof. induction l as [|x l IH]; cbn [rev total]; [reflexivity|]. rewrite total_app, IH. cbn [total]. lia. Qed.
Lemma zlen_load mem a n : 0 <= n -> zlen (load mem a n) = n.
Proof. intro. unfold load. rewrite zlen_map. unfold zlen. rewrite seq_length. lia. Qed.
Lemma load_split mem a n m : 0 <= n -> 0 <= m -> load mem a (n + m) = load mem a n ++ load mem (a + n) m.
Proof.
  intros. unfold load. rewrite Z2Nat.inj_add by lia. rewrite seq_app, map_app. f_equal. cbn [plus]. rewrite <- (Nat.add_0_r (Z.to_nat n)) at 1.
  assert (G : forall k b, map (fun i => mem (a + Z.of_nat i)) (seq (Z.to_nat n + b) k) = map (fun i => mem (a + n + Z.of_nat i)) (seq b k)).
  { induction k as [|k IH]; intro b; [reflexivity|]. cbn [seq map]. f_equal; [f_equal; lia|]. rewrite <- IH. do 2 f_equal. lia. }
  apply G.
Qed.
Lemma load_ok mem a n : (forall x, byte_ok (mem x)) -> bytes_ok (load mem a n).
Proof. intro H. apply Forall_forall. intros x Hx. apply in_map_iff in Hx as (i & <- & _). apply H. Qed.
Lemma slice_store_l f ct l off n : 0 <= off -> 0 <= n -> off + n <= ct -> ct <= zlen f -> slice (store f ct l) off n = slice f off n.
Proof. intros. unfold store. rewrite slice_app_l by (rewrite ?zlen_slice; lia). rewrite slice_slice by lia. f_equal. Qed.
Lemma slice_store_at f ct l : 0 <= ct -> ct <= zlen f -> slice (store f ct l) ct (zlen l) = l.
Proof. intros H1 H2. unfold store. pose proof (slice_app_exact (slice f 0 ct) l (slice f (ct + zlen l) (zlen f - ct - zlen l))) as E. rewrite zlen_slice in E by lia. exact E. Qed.

Section Sge.
Context (c : icfg) (CO : cfg_ok c) (AP : apart (ic_regions c)) (mem : Z -> Z) (MO : forall a, byte_ok (mem a)) (at_ : Z).

(** inside the part of the slot that has been written, or in a region *)
Definition ent (ct : Z) (e : sge) : Prop :=
  0 <= e_len e /\
  ((e_key e = ic_key c /\ at_ <= e_addr e /\ e_addr e + e_len e <= at_ + ct)
   \/ exists r, In r (ic_regions c) /\ e_key e = rg_key r /\ rg_ptr r <= e_addr e /\ e_addr e + e_len e <= rg_ptr r + rg_size r).
Lemma ent_mono ct ct' e : ct <= ct' -> ent ct e -> ent ct' e.
Proof. intros L (H1 & [(H2 & H3 & H4)|H]); split; auto. left. repeat split; auto; lia. Qed.
Lemma key_differs r : In r (ic_regions c) -> rg_key r <> ic_key c.
Proof. intros H E. pose proof (co_keys c CO) as K. apply NoDup_cons_iff in K as (K & _). apply K. rewrite <- E. now apply in_map. Qed.
Lemma nodup_map_inj {A B} (g : A -> B) l a b : NoDup (map g l) -> In a l -> In b l -> g a = g b -> a = b.
Proof.
  induction l as [|x l IH]; intros N Ha Hb E; [contradiction|]. cbn [map] in N. apply NoDup_cons_iff in N as (N1 & N2). destruct Ha as [->|Ha], Hb as [->|Hb]; auto.
  - exfalso. apply N1. rewrite E. now apply in_map.
  - exfalso. apply N1. rewrite <- E. now apply in_map.
Qed.
Lemma key_inj r r' : In r (ic_regions c) -> In r' (ic_regions c) -> rg_key r = rg_key r' -> r = r'.
Proof. pose proof (co_keys c CO) as K. apply NoDup_cons_iff in K as (_ & K). now apply nodup_map_inj. Qed.

Definition own (e : sge) : Z := if e_key e =? ic_key c then 0 else e_len e.
Lemma add_sge_spec f ct cur sges : 0 <= ct -> ent ct cur -> Forall (ent ct) sges ->
  (exists p rest, sges = p :: rest /\ ((length rest < 3)%nat \/ (e_key p = e_key cur /\ e_addr p + e_len p = e_addr cur))) ->
  exists sges', add_sge cur sges = Some sges' /\ Forall (ent ct) sges' /\ (exists p rest, sges' = p :: rest /\ e_key p = e_key cur /\ e_addr p + e_len p = e_addr cur + e_len cur /\ (length rest = length sges \/ Datatypes.S (length rest) = length sges)%nat
      /\ (forall q rest', sges = q :: rest' -> e_key q = e_key cur -> e_addr q + e_len q = e_addr cur -> rest = rest')) /\
    (length sges' <= Datatypes.S (length sges))%nat /\ (length sges' <= Nat.max 4 (length sges))%nat /\
    flat_map (sge_bytes c mem at_ f) (rev sges') = flat_map (sge_bytes c mem at_ f) (rev sges) ++ sge_bytes c mem at_ f cur /\ total own sges' = total own sges + own cur.
Proof.
  intros HC EC F (p & rest & -> & HL). cbn [add_sge]. apply Forall_cons_iff in F as (EP & FR). destruct ((e_key p =? e_key cur) && (e_addr p + e_len p =? e_addr cur)) eqn:M.
  - apply andb_true_iff in M as (M1 & M2). apply Z.eqb_eq in M1, M2. eexists. split; [reflexivity|]. destruct EP as (P0 & P), EC as (C0 & C).
    split; [|split; [|split; [cbn [length]; lia|split; [cbn [length]; lia|split]]]].
    + constructor; [|exact FR]. split; cbn [e_len e_addr e_key]; [lia|]. destruct P as [(P1 & P2 & P3)|(r & P1 & P2 & P3 & P4)], C as [(C1 & C2 & C3)|(r' & C1 & C2 & C3 & C4)].
      * left. repeat split; auto; lia.
      * exfalso. apply (key_differs r' C1). congruence.
      * exfalso. apply (key_differs r P1). congruence.
      * right. exists r. assert (r = r') by (apply key_inj; congruence). subst r'. repeat split; auto; lia.
    + eexists _, _. split; [reflexivity|]. cbn [e_len e_addr e_key length]. repeat split; auto; [lia|]. intros q rest' E _ _. congruence.
    + cbn [rev]. rewrite !flat_map_app, <- app_assoc. f_equal. cbn [flat_map]. rewrite !app_nil_r. unfold sge_bytes. cbn [e_key e_addr e_len]. rewrite <- M1. destruct (Z.eqb_spec (e_key p) (ic_key c)) as [K|K].
      * rewrite slice_split; [f_equal; f_equal; lia| |lia|lia]. destruct P as [P|(r & P1 & P2 & _)]; [lia|]. exfalso. apply (key_differs r P1). congruence.
      * rewrite load_split by lia. f_equal. f_equal. lia.
    + cbn [total]. unfold own. cbn [e_key e_len]. rewrite <- M1. destruct (_ =? _); lia.
  - assert (L : (length rest < 3)%nat). { destruct HL as [HL|(K1 & K2)]; [exact HL|]. exfalso. rewrite (proj2 (Z.eqb_eq _ _) K1), (proj2 (Z.eqb_eq _ _) K2) in M. discriminate. }
    unfold max_sge. destruct (Nat.ltb_spec (length (p :: rest)) 4) as [L4|L4]; [|cbn [length] in L4; lia]. eexists. split; [reflexivity|]. cbn [length] in *.
    split; [constructor; [exact EC|constructor; auto]|]. split.
    { eexists _, _. split; [reflexivity|]. repeat split; auto. intros q rest' E K1 K2. exfalso. injection E as <- <-. rewrite (proj2 (Z.eqb_eq _ _) K1), (proj2 (Z.eqb_eq _ _) K2) in M. discriminate. }
    split; [lia|]. split; [lia|]. split; [|cbn [total]; lia]. cbn [rev]. rewrite flat_map_app. cbn [flat_map]. now rewrite app_nil_r.
Qed.

Lemma bytes_store f ct l e : 0 <= ct -> ct + zlen l <= zlen f -> ent ct e -> sge_bytes c mem at_ (store f ct l) e = sge_bytes c mem at_ f e.
Proof.
  intros H1 H2 (E0 & E). unfold sge_bytes. destruct (Z.eqb_spec (e_key e) (ic_key c)) as [K|K]; [|reflexivity]. destruct E as [E|(r & R1 & R2 & _)]; [|exfalso; apply (key_differs r R1); congruence].
  pose proof (zlen_nonneg l). apply slice_store_l; lia.
Qed.
Lemma flat_map_ext_in' {A B} (g h : A -> list B) l : (forall x, In x l -> g x = h x) -> flat_map g l = flat_map h l.
Proof. induction l as [|x l IH]; intro H; [reflexivity|]. cbn [flat_map]. rewrite H by now left. f_equal. apply IH. intros. apply H. now right. Qed.

Lemma put_buffers_spec (skip : bool) : forall bufs f ct sges, zlen f = raw_size c -> bytes_ok f -> 0 <= ct -> Forall (fun b => 0 <= snd b) bufs -> ct + total snd bufs <= raw_size c ->
  Forall (ent ct) sges -> sges <> [] ->
  (skip = true -> (length sges + length bufs <= 4)%nat) -> (skip = false -> exists e, sges = [e] /\ e_key e = ic_key c /\ e_addr e + e_len e = at_ + ct) ->
  exists f' l, put_buffers c mem at_ skip bufs f ct sges = POk (f', l) /\ zlen f' = raw_size c /\ bytes_ok f' /\ slice f' 0 ct = slice f 0 ct /\
    Forall (entry_ok c at_) l /\ (1 <= length l <= 4)%nat /\
    flat_map (sge_bytes c mem at_ f') l = flat_map (sge_bytes c mem at_ f) (rev sges) ++ flat_map (fun b => load mem (fst b) (snd b)) bufs /\
    total own l = total own sges + (if skip then total (fun b => if registered c b then snd b else 0) bufs else 0).
Proof.
  induction bufs as [|[ptr len] bufs IH]; intros f ct sges HF BF HC HL HT FE NE HS HN; cbn [put_buffers].
  - exists f, (rev sges). split; [reflexivity|]. split; [exact HF|]. split; [exact BF|]. split; [reflexivity|]. cbn [total] in HT. split; [|split; [|split]].
    + apply Forall_rev. eapply Forall_impl; [|exact FE]. intros e (E0 & E). split; [exact E0|]. destruct E as [(E1 & E2 & E3)|E]; [left; repeat split; auto; lia|now right].
    + rewrite rev_length. destruct sges; [congruence|]. cbn [length] in *. destruct skip; [specialize (HS eq_refl)|destruct (HN eq_refl) as (e & E & _); injection E as -> ->; cbn [length]]; lia.
    + cbn [flat_map]. now rewrite app_nil_r.
    + rewrite total_rev. cbn [total]. destruct skip; lia.
  - apply Forall_cons_iff in HL as (L0 & HL). cbn [snd] in L0. cbn [total snd] in HT. cbn [length] in HS. assert (TN : 0 <= total snd bufs) by (clear - HL; induction HL; cbn [total]; lia).
    pose proof (lookup_spec c ptr len (co_sizes c CO) AP L0) as LK.
    set (hit := match lower_bound (region_set (ic_regions c)) ptr with Some r => if contains r ptr len then Some r else None | None => None end) in *.
    assert (CASES : (exists r, (if skip then hit else None) = Some r /\ skip = true /\ hit = Some r) \/ (if skip then hit else None) = None) by (destruct skip; [destruct hit; eauto|now right]).
    destruct CASES as [(r & ER & -> & EH)|ER]; rewrite ER.
    + (* not copied *)
      clear ER. rewrite EH in LK. destruct LK as (R1 & R2 & R3 & R4). specialize (HS eq_refl). destruct sges as [|p rest]; [congruence|]. cbn [length] in HS.
      set (cur := {| e_addr := ptr; e_len := len; e_key := rg_key r |}). assert (EC : ent ct cur) by (split; unfold cur; cbn [e_len e_key e_addr]; [lia|right; exists r; auto]).
      destruct (add_sge_spec f ct cur (p :: rest) HC EC FE) as (sges' & A1 & A2 & (p' & rest' & A3 & _) & A4 & _ & A5 & A6); [exists p, rest; split; [reflexivity|left; lia]|]. rewrite A1.
      destruct (IH f ct sges' HF BF HC HL ltac:(lia) A2 ltac:(rewrite A3; discriminate)) as (f' & l & I1 & I2 & I3 & I4 & I5 & I6 & I7 & I8); [intros _; cbn [length] in A4; lia|discriminate|].
      exists f', l. split; [exact I1|]. split; [exact I2|]. split; [exact I3|]. split; [exact I4|]. split; [exact I5|]. split; [exact I6|]. split.
      * rewrite I7, A5, <- app_assoc. f_equal. cbn [flat_map fst snd]. f_equal. unfold sge_bytes. cbn [e_key e_addr e_len cur]. destruct (Z.eqb_spec (rg_key r) (ic_key c)) as [K|K]; [exfalso; exact (key_differs r R1 K)|reflexivity].
      * rewrite I8, A6. cbn [total snd]. rewrite R4. unfold own. cbn [e_key e_len cur]. destruct (Z.eqb_spec (rg_key r) (ic_key c)) as [K|K]; [exfalso; exact (key_differs r R1 K)|lia].
    + (* copied *)
      assert (ZL : zlen (load mem ptr len) = len) by now apply zlen_load. unfold set. cbn [the_frame pb_off]. rewrite ZL, HF. destruct (Z.leb_spec 0 (0 + ct)); [|lia]. destruct (Z.leb_spec (0 + ct + len) (raw_size c)); [|lia]. cbn [andb pbind].
      set (f1 := store f (0 + ct) (load mem ptr len)). change (0 + ct) with ct in f1.
      assert (HF1 : zlen f1 = raw_size c) by (unfold f1; rewrite zlen_store; lia). assert (BF1 : bytes_ok f1) by (apply store_ok; [exact BF|now apply load_ok]).
      set (cur := {| e_addr := at_ + ct; e_len := len; e_key := ic_key c |}). assert (EC : ent (ct + len) cur) by (split; cbn [e_len cur]; [lia|left; unfold cur; cbn [e_key e_addr e_len]; lia]).
      assert (FE1 : Forall (ent (ct + len)) sges) by (eapply Forall_impl; [|exact FE]; intros e; apply ent_mono; lia).
      destruct (add_sge_spec f1 (ct + len) cur sges ltac:(lia) EC FE1) as (sges' & A1 & A2 & (p' & rest' & A3 & A3a & A3b & A3c & A3d) & A4 & A4' & A5 & A6).
      { destruct sges as [|p rest]; [congruence|]. exists p, rest. split; [reflexivity|]. cbn [length] in HS. destruct skip; [left; specialize (HS eq_refl); lia|]. destruct (HN eq_refl) as (e & E & E1 & E2). injection E as -> ->. right. cbn [e_key e_addr cur]. auto. }
      rewrite A1. destruct (IH f1 (ct + len) sges' HF1 BF1 ltac:(lia) HL ltac:(lia) A2 ltac:(rewrite A3; discriminate)) as (f' & l & I1 & I2 & I3 & I4 & I5 & I6 & I7 & I8).
      { intro K. specialize (HS K). lia. }
      { intro K. destruct (HN K) as (e & E & E1 & E2). exists p'. rewrite A3. cbn [e_key e_addr e_len cur] in *. rewrite (A3d e [] E E1 E2). repeat split; auto; lia. }
      assert (S1 : slice f1 0 ct = slice f 0 ct) by (unfold f1; apply slice_store_l; lia).
      exists f', l. split; [exact I1|]. split; [exact I2|]. split; [exact I3|]. split.
      { assert (X : slice (slice f' 0 (ct + len)) 0 ct = slice (slice f1 0 (ct + len)) 0 ct) by now rewrite I4. rewrite !slice_slice in X by lia. change (0 + 0) with 0 in X. congruence. }
      split; [exact I5|]. split; [exact I6|]. split.
      * rewrite I7, A5, <- app_assoc. f_equal; [|cbn [flat_map fst snd]; f_equal].
        -- apply flat_map_ext_in'. intros e He. apply in_rev in He. rewrite Forall_forall in FE. apply bytes_store; auto; lia.
        -- unfold sge_bytes. cbn [e_key e_addr e_len cur]. rewrite Z.eqb_refl. replace (at_ + ct - at_) with ct by lia. unfold f1. rewrite <- ZL at 2. apply slice_store_at; lia.
      * rewrite I8, A6. cbn [total snd]. unfold own at 2. cbn [e_key cur]. rewrite Z.eqb_refl. destruct skip; [|lia]. rewrite ER in LK. rewrite LK. lia.
Qed.
End Sge.

(** ** A whole packet *)
Lemma ext8 a b : zlen a = zlen b -> (forall i, 0 <= i < zlen a -> at8 a i = at8 b i) -> a = b.
Proof.
  intros L H. apply nth_ext with (d := 0) (d' := 0); unfold zlen in *; [lia|]. intros n Hn. specialize (H (Z.of_nat n) ltac:(lia)). unfold at8 in H. now rewrite Nat2Z.id in H.
Qed.
Lemma at8_slice f o n i : 0 <= o -> 0 <= n -> o + n <= zlen f -> 0 <= i < n -> at8 (slice f o n) i = at8 f (o + i).
Proof. intros. unfold at8. rewrite nth_slice by lia. f_equal. lia. Qed.
Lemma checksum_field F b ck off : nth_error F 10 = Some ck -> zlen ck = 2 -> bytes_ok (concat F) -> pb_off b + 10 = zlen (concat (firstn 10 F)) -> pb_off b = off -> 0 <= off ->
  at8 (concat F) off = 69 -> off + 20 <= zlen (concat F) ->
  exists ck', update_checksum (concat F) b = POk (concat (upd F 10 ck')) /\ zlen ck' = 2 /\ bytes_ok ck' /\ oc_sum (words (concat (upd F 10 ck')) off 10) = 65535.
Proof.
  intros HN HL B HO <- H0 H69 HZ. destruct (C40_checksum (concat F) b B) as (m & M1 & M2 & M3 & M4 & M5); [exact H0|rewrite H69; cbn; lia|rewrite H69; change (69 mod 16) with 5; lia|].
  rewrite H69 in M2. change (Z.to_nat (2 * (69 mod 16))) with 10%nat in M2. set (ck' := slice m (pb_off b + 10) 2). assert (ZC : zlen ck' = 2) by (apply zlen_slice; lia).
  assert (E : m = concat (upd F 10 ck')).
  { rewrite (concat_upd F 10 ck ck' HN). rewrite <- (store_mid (concat (firstn 10 F)) ck (concat (skipn 11 F)) ck') by lia. rewrite <- (concat_split F 10 ck HN), <- HO. apply ext8; [rewrite zlen_store; lia|].
    intros i Hi. rewrite at8_store by lia. rewrite ZC. destruct (Z.leb_spec (pb_off b + 10) i), (Z.ltb_spec i (pb_off b + 10 + 2)); cbn [andb]; try (apply M5; lia). unfold ck'. rewrite at8_slice by lia. f_equal. lia. }
  exists ck'. rewrite <- E. repeat split; auto. now apply bytes_ok_slice.
Qed.

Section Put.
Context (c : icfg) (CO : cfg_ok c) (AP : apart (ic_regions c)).

Definition good (f : list Z) : Prop := exists d tl ck da dp ul pay, shape c f d tl ck da dp ul pay
  /\ (forall addr port, ic_eps c = [(addr, port)] -> d = multicast_mac addr /\ da = addr /\ dp = be_encode 2 port) /\ (ic_csum c = true -> ck = [0; 0]).

Lemma new_slot_good f pay : ok16 (ic_mps c) -> new_slot c = POk (f, pay) -> pay = 42 /\ good f.
Proof.
  intros OK E. assert (E' := E). unfold new_slot in E'. destruct (ic_eps c) as [|[addr0 port0] rest] eqn:EE; [discriminate|]. destruct (no_overlap (reg_sort (ic_regions c))) eqn:NO; [|discriminate]. clear E'.
  destruct (new_slot_shape c CO addr0 port0 rest EE NO OK) as (f0 & p0 & N1 & N2). rewrite N1 in E. injection E as <- <-. split; [reflexivity|].
  exists (multicast_mac addr0), (be_encode 2 (ic_mps c + 28)), [0;0], addr0, (be_encode 2 port0), (be_encode 2 (ic_mps c + 8)), p0. split; [exact N2|]. split; [|auto]. intros addr port E. rewrite EE in E. injection E as -> -> _. auto.
Qed.

Ltac sets k := erewrite (set_field _ _ _ k); [|reflexivity|zl; lia|zl; lia]; cbn [fields upd pbind].
Ltac gets k := erewrite (get_field _ _ _ k); [|reflexivity|zl; lia|zl; lia]; cbn [fields upd pbind].

Lemma size_total p : ip_size p = ip_len0 p + total snd (ip_bufs p).
Proof. unfold ip_size. f_equal. induction (ip_bufs p) as [|b l IH]; cbn [fold_right total]; lia. Qed.

Lemma put_packet_spec mem at_ f p addr port : (forall a, byte_ok (mem a)) -> good f -> fits c p -> nth_error (ic_eps c) (ip_sub p) = Some (addr, port) -> ok16 (ip_size p) ->
  exists f' l ck, put_packet c mem at_ 42 f p = POk (f', l) /\ good f' /\ Forall (entry_ok c at_) l /\ (1 <= length l <= 4)%nat /\
    wire c mem at_ f' l = headers (multicast_mac addr) (ic_mac c) (ic_addr c) addr (ic_ttl c) (ic_port c) port (ip_size p) ck ++ packet_data mem p /\
    zlen ck = 2 /\ bytes_ok ck /\ (ic_csum c = true -> ck = [0; 0]) /\ (ic_csum c = false -> oc_sum (words (wire c mem at_ f' l) 14 10) = 65535) /\
    direct c l = if Nat.leb (length (ip_bufs p)) 3 then total (fun b => if registered c b then snd b else 0) (ip_bufs p) else 0.
Proof.
  intros MO (d & tl & ck & da & dp & ul & pay & SH & ONE & CK) FI NE OK. destruct SH as (-> & Z1 & Z2 & Z3 & Z4 & Z5 & Z6 & Z7 & B1 & B2 & B3 & B4 & B5 & B6 & B7).
  destruct FI as [FW FL FR FB FS FU]. pose proof (co_mps c CO) as HM. pose proof (co_eps c CO) as HE. rewrite Forall_forall in HE. pose proof (HE _ (nth_error_In _ _ NE)) as (A1 & A2 & A3). cbn [fst snd] in *.
  destruct (mac_ok addr A1 A2) as (M1 & M2). destruct (co_mac c CO) as (SM1 & SM2). destruct (co_addr c CO) as (SA1 & SA2). apply zlen_of_length in A1, SM1, SA1. pose proof (co_ttl c CO) as TT.
  assert (TN : 0 <= total snd (ip_bufs p)) by (clear - FB; induction FB; cbn [total]; lia). pose proof (size_total p) as ST.
  unfold put_packet, the_frame.
  (* get_packet *)
  set (w := ip_words p) in *. pose proof (zlen_nonneg w) as ZW.
  assert (SP : exists q r, pay = q ++ r /\ zlen q = zlen w /\ zlen r = ic_mps c - zlen w /\ bytes_ok r).
  { exists (slice pay 0 (zlen w)), (slice pay (zlen w) (ic_mps c - zlen w)). split; [|split; [apply zlen_slice; lia|split; [apply zlen_slice; lia|now apply bytes_ok_slice]]].
    change (zlen w) with (0 + zlen w) at 2. rewrite <- slice_split by lia. symmetry. apply slice_0_all. lia. }
  destruct SP as (q & r & -> & ZS & ZR & BR).
  assert (E1 : forall x y : list Z, concat (fields d (ic_mac c) [8; 0] [69] [0] tl [0; 0] [64; 0] [ic_ttl c] [17] ck (ic_addr c) da (be_encode 2 (ic_port c)) dp ul [0; 0] (x ++ y)) =
                concat [d; ic_mac c; [8; 0]; [69]; [0]; tl; [0; 0]; [64; 0]; [ic_ttl c]; [17]; ck; ic_addr c; da; be_encode 2 (ic_port c); dp; ul; [0; 0]; x; y]).
  { intros x y. cbn [fields concat]. now rewrite !app_nil_r. }
  rewrite E1. sets 17%nat. clear E1.
  unfold payload_ipv4, sized. cbn [pb_off pb_len]. unfold raw_size, header_size, eth_min, ipv4_min, udp_min. destruct (Z.ltb_spec (ic_mps c + (14 + 20 + 8) - 14) 20); [lia|]. cbn [pbind].
  unfold header_length. gets 3%nat. rewrite be1. change (4 * Z.land 69 15) with 20. unfold set_be. sets 5%nat.
  unfold payload_udp, header_length, sized, ipv4_min, udp_min. cbn [pb_off pb_len]. gets 3%nat. rewrite be1. change (4 * Z.land 69 15) with 20. gets 5%nat. change (20 <? 20) with false. cbv iota. rewrite be_decode_encode. change (256 ^ Z.of_nat 2) with 65536.
  unfold ok16 in OK. replace (ip_size p + 8 + 20) with (ip_size p + 28) by lia. pose proof (Z.mod_le (ip_size p + 28) 65536 ltac:(lia) ltac:(lia)) as LE. set (T := (ip_size p + 28) mod 65536) in *.
  destruct (Z.ltb_spec (ic_mps c + (14 + 20 + 8) - 14) T); [lia|]. destruct (Z.ltb_spec T 20); [lia|]. cbn [orb]. destruct (Z.ltb_spec (T - 20) 8); [lia|]. cbn [pbind]. cbn [pb_off pb_len].
  sets 15%nat. set (sz := ip_size p) in *.
  (* the destination *)
  match goal with |- context [pbind (if 1 <? zlen (ic_eps c) then ?X else ?Y) ?K] => assert (DST : (if 1 <? zlen (ic_eps c) then X else Y) =
    POk (concat [multicast_mac addr; ic_mac c; [8; 0]; [69]; [0]; be_encode 2 (sz + 28); [0; 0]; [64; 0]; [ic_ttl c]; [17]; ck; ic_addr c; addr; be_encode 2 (ic_port c); be_encode 2 port; be_encode 2 (sz + 8); [0; 0]; w; r])) end.
  { destruct (Z.ltb_spec 1 (zlen (ic_eps c))) as [G|G].
    - rewrite NE. sets 0%nat. sets 12%nat. sets 14%nat. reflexivity.
    - assert (E : ic_eps c = [(addr, port)]). { unfold zlen in G. destruct (ic_eps c) as [|e0 [|]]; cbn [length] in *; [destruct (ip_sub p); discriminate NE| |lia]. destruct (ip_sub p) as [|n]; [cbn in NE; congruence|destruct n; discriminate NE]. }
      destruct (ONE addr port E) as (-> & -> & ->). reflexivity. }
  rewrite DST. cbn [pbind]. clear DST.
  (* the checksum *)
  set (F := [multicast_mac addr; ic_mac c; [8; 0]; [69]; [0]; be_encode 2 (sz + 28); [0; 0]; [64; 0]; [ic_ttl c]; [17]; ck; ic_addr c; addr; be_encode 2 (ic_port c); be_encode 2 port; be_encode 2 (sz + 8); [0; 0]; w; r]).
  assert (BF : bytes_ok (concat F)). { unfold F. cbn [concat]. rewrite !bytes_ok_app. repeat split; auto using be_encode_ok; repeat (apply Forall_cons; [first [exact TT|unfold byte_ok; lia]|]); constructor. }
  assert (ZF : zlen (concat F) = raw_size c). { unfold F, raw_size, header_size, eth_min, ipv4_min, udp_min. zl. lia. }
  assert (CS : exists ck', (if ic_csum c then POk (concat F) else update_checksum (concat F) {| pb_off := 0 + 14; pb_len := ic_mps c + (14 + 20 + 8) - 14 |}) = POk (concat (upd F 10 ck')) /\ zlen ck' = 2 /\ bytes_ok ck' /\ (ic_csum c = true -> ck' = [0; 0]) /\
     (ic_csum c = false -> oc_sum (words (concat (upd F 10 ck')) 14 10) = 65535)).
  { destruct (ic_csum c); [exists ck; repeat split; auto; discriminate|]. destruct (checksum_field F {| pb_off := 0 + 14; pb_len := ic_mps c + (14 + 20 + 8) - 14 |} ck 14) as (ck' & K1 & K2 & K3 & K4); auto; try lia.
    - unfold F. zl. lia.
    - rewrite (concat_split F 3 [69] eq_refl). unfold F, at8. rewrite app_nth2; cbn [firstn concat].
      + match goal with |- nth ?n _ _ = _ => replace n with 0%nat; [reflexivity|] end. unfold zlen in *. rewrite !app_length. cbn [length]. lia.
      + unfold zlen in *. rewrite !app_length. cbn [length]. lia.
    - rewrite ZF. unfold raw_size, header_size, eth_min, ipv4_min, udp_min. lia.
    - exists ck'. repeat split; auto; discriminate. }
  destruct CS as (ck' & CS & ZC & BC & CT & CF). rewrite CS. cbn [pbind]. clear CS.
  assert (BF2 : bytes_ok (concat (upd F 10 ck'))). { rewrite (concat_upd F 10 ck ck' eq_refl). rewrite (concat_split F 10 ck eq_refl) in BF. rewrite !bytes_ok_app in *. tauto. }
  assert (ZF2 : zlen (concat (upd F 10 ck')) = raw_size c). { rewrite (concat_upd F 10 ck ck' eq_refl). rewrite (concat_split F 10 ck eq_refl) in ZF. rewrite !zlen_app in *. lia. }
  set (HD := headers (multicast_mac addr) (ic_mac c) (ic_addr c) addr (ic_ttl c) (ic_port c) port sz ck').
  assert (EH : concat (upd F 10 ck') = HD ++ w ++ r).
  { unfold HD, headers, F. cbn [upd concat]. replace (20 + 8 + sz) with (sz + 28) by lia. replace (8 + sz) with (sz + 8) by lia. rewrite app_nil_r, <- !app_assoc. cbn [app]. reflexivity. }
  assert (ZH : zlen HD = 42) by (unfold HD, headers; zl; lia). rewrite EH in *. set (f1 := HD ++ w ++ r) in *.
  (* the buffers *)
  assert (RS : raw_size c = ic_mps c + 42) by (unfold raw_size, header_size, eth_min, ipv4_min, udp_min; lia).
  destruct (put_buffers_spec c CO AP mem MO at_ (Nat.leb (Datatypes.S (length (ip_bufs p))) max_sge) (ip_bufs p) f1 (42 + ip_len0 p) [{| e_addr := at_; e_len := 42 + ip_len0 p; e_key := ic_key c |}]) as (f' & l & P1 & P2 & P3 & P4 & P5 & P6 & P7 & P8); auto; try lia.
  - constructor; [|constructor]. split; cbn [e_len e_key e_addr]; [lia|]. left. lia.
  - discriminate.
  - intro K. apply Nat.leb_le in K. unfold max_sge in K. cbn [length]. lia.
  - intros _. eexists. split; [reflexivity|]. cbn [e_len e_key e_addr]. lia.
  - assert (S1 : slice f1 0 (42 + ip_len0 p) = HD ++ slice w 0 (ip_len0 p)).
    { unfold f1. rewrite slice_split by lia. rewrite <- ZH at 1 2. rewrite slice_app_l, slice_full by lia. f_equal. rewrite slice_app_r by lia. rewrite ZH. change (0 + 42 - 42) with 0. apply slice_app_l; lia. }
    assert (W : wire c mem at_ f' l = HD ++ packet_data mem p).
    { unfold wire. rewrite P7. cbn [rev app flat_map]. rewrite app_nil_r. unfold sge_bytes at 1. cbn [e_key e_addr e_len]. rewrite Z.eqb_refl. replace (at_ - at_) with 0 by lia. rewrite S1. unfold packet_data. fold w. now rewrite <- app_assoc. }
    exists f', l, ck'. split; [exact P1|]. split.
    + (* the slot stays good *)
      exists (multicast_mac addr), (be_encode 2 (sz + 28)), ck', addr, (be_encode 2 port), (be_encode 2 (sz + 8)), (slice f' 42 (ic_mps c)). split; [|split; [|exact CT]].
      * unfold shape. rewrite !zlen_be_encode. split; [|repeat split; auto using be_encode_ok, bytes_ok_slice; try lia; apply zlen_slice; lia].
        assert (HH : slice f' 0 42 = HD). { assert (X : slice (slice f' 0 (42 + ip_len0 p)) 0 42 = slice (slice f1 0 (42 + ip_len0 p)) 0 42) by now rewrite P4. rewrite S1, slice_slice in X by lia. change (0 + 0) with 0 in X. rewrite X. rewrite slice_app_l by lia. rewrite <- ZH. apply slice_full. }
        transitivity (slice f' 0 42 ++ slice f' 42 (ic_mps c)); [|].
        { change 42 with (0 + 42) at 2. rewrite <- slice_split by lia. symmetry. apply slice_0_all. lia. }
        rewrite HH. unfold HD, headers. cbn [fields concat]. replace (20 + 8 + sz) with (sz + 28) by lia. replace (8 + sz) with (sz + 8) by lia. rewrite app_nil_r, <- !app_assoc. cbn [app]. reflexivity.
      * intros a0 p0 E. rewrite E in NE. destruct (ip_sub p) as [|n]; [cbn in NE; injection NE as -> ->; auto|destruct n; discriminate NE].
    + split; [exact P5|]. split; [exact P6|]. split; [exact W|]. split; [exact ZC|]. split; [exact BC|]. split; [exact CT|]. split.
      * intro K. rewrite <- (CF K). rewrite W. f_equal. unfold words. apply map_ext_in. intros i Hi. apply in_seq in Hi. assert (X : forall j, 0 <= j < 42 -> at8 (HD ++ packet_data mem p) j = at8 f1 j).
        { intros j Hj. unfold at8, f1. unfold zlen in ZH. rewrite !app_nth1 by lia. reflexivity. }
        unfold at16. rewrite !X by lia. reflexivity.
      * unfold direct. change (fun e => if e_key e =? ic_key c then 0 else e_len e) with (own c). rewrite P8. cbn [total]. unfold own at 1. cbn [e_key]. rewrite Z.eqb_refl. unfold max_sge. destruct (Nat.leb_spec (Datatypes.S (length (ip_bufs p))) 4), (Nat.leb_spec (length (ip_bufs p)) 3); lia.
Qed.
(** A length that wraps to less than the headers *)
Lemma put_packet_error mem at_ f p addr port : (forall a, byte_ok (mem a)) -> good f -> fits c p -> nth_error (ic_eps c) (ip_sub p) = Some (addr, port) -> (ip_size p + 28) mod 65536 < 28 -> put_packet c mem at_ 42 f p = PErr LengthError.
Proof.
  intros MO (d & tl & ck & da & dp & ul & pay & SH & ONE & CK) FI NE LT. destruct SH as (-> & Z1 & Z2 & Z3 & Z4 & Z5 & Z6 & Z7 & B1 & B2 & B3 & B4 & B5 & B6 & B7).
  destruct FI as [FW FL FR FB FS FU]. pose proof (co_mps c CO) as HM. pose proof (co_eps c CO) as HE. rewrite Forall_forall in HE. pose proof (HE _ (nth_error_In _ _ NE)) as (A1 & A2 & A3). cbn [fst snd] in *.
  destruct (mac_ok addr A1 A2) as (M1 & M2). destruct (co_mac c CO) as (SM1 & SM2). destruct (co_addr c CO) as (SA1 & SA2). apply zlen_of_length in A1, SM1, SA1. pose proof (co_ttl c CO) as TT.
  assert (TN : 0 <= total snd (ip_bufs p)) by (clear - FB; induction FB; cbn [total]; lia). pose proof (size_total p) as ST.
  unfold put_packet, the_frame.
  (* get_packet *)
  set (w := ip_words p) in *. pose proof (zlen_nonneg w) as ZW.
  assert (SP : exists q r, pay = q ++ r /\ zlen q = zlen w /\ zlen r = ic_mps c - zlen w /\ bytes_ok r).
  { exists (slice pay 0 (zlen w)), (slice pay (zlen w) (ic_mps c - zlen w)). split; [|split; [apply zlen_slice; lia|split; [apply zlen_slice; lia|now apply bytes_ok_slice]]].
    change (zlen w) with (0 + zlen w) at 2. rewrite <- slice_split by lia. symmetry. apply slice_0_all. lia. }
  destruct SP as (q & r & -> & ZS & ZR & BR).
  assert (E1 : forall x y : list Z, concat (fields d (ic_mac c) [8; 0] [69] [0] tl [0; 0] [64; 0] [ic_ttl c] [17] ck (ic_addr c) da (be_encode 2 (ic_port c)) dp ul [0; 0] (x ++ y)) =
                concat [d; ic_mac c; [8; 0]; [69]; [0]; tl; [0; 0]; [64; 0]; [ic_ttl c]; [17]; ck; ic_addr c; da; be_encode 2 (ic_port c); dp; ul; [0; 0]; x; y]).
  { intros x y. cbn [fields concat]. now rewrite !app_nil_r. }
  rewrite E1. sets 17%nat. clear E1.
  unfold payload_ipv4, sized. cbn [pb_off pb_len]. unfold raw_size, header_size, eth_min, ipv4_min, udp_min. destruct (Z.ltb_spec (ic_mps c + (14 + 20 + 8) - 14) 20); [lia|]. cbn [pbind].
  unfold header_length. gets 3%nat. rewrite be1. change (4 * Z.land 69 15) with 20. unfold set_be. sets 5%nat.
  unfold payload_udp, header_length, sized, ipv4_min, udp_min. cbn [pb_off pb_len]. gets 3%nat. rewrite be1. change (4 * Z.land 69 15) with 20. gets 5%nat. change (20 <? 20) with false. cbv iota. rewrite be_decode_encode. change (256 ^ Z.of_nat 2) with 65536.
  replace (ip_size p + 8 + 20) with (ip_size p + 28) by lia. set (T := (ip_size p + 28) mod 65536) in *. destruct (_ || _) eqn:C; [reflexivity|]. destruct (Z.ltb_spec (T - 20) 8); [reflexivity|lia].
Qed.
End Put.
