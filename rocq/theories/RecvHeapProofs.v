From Coq Require Import ZArith List Lia Bool Permutation.
From Coq Require Import ZifyBool ZifyNat.
From Verif Require Import Base CodecModel CodecProofs PacketSpec RecvPacketModel RecvPacketProofs
  LiveHeapModel LiveHeapSpec LiveHeapProofs RecvHeapModel.
Import ListNotations.
Open Scope Z_scope.

(** ** Stable sort *)
Section Sort.
  Variable key : Z -> Z.

  Fixpoint sorted (l : list Z) : Prop :=
    match l with
    | [] => True
    | x :: l' => (forall y, In y l' -> key x <= key y) /\ sorted l'
    end.

  Lemma insert_In x l y : In y (insert_by key x l) <-> y = x \/ In y l.
  Proof.
    induction l as [|z l IH]; cbn [insert_by].
    - cbn [In]. intuition.
    - destruct (key x <=? key z); cbn [In]; [intuition|]. rewrite IH. intuition.
  Qed.
  Lemma insert_sorted x l : sorted l -> sorted (insert_by key x l).
  Proof.
    induction l as [|z l IH]; cbn [insert_by sorted].
    - intros _. split; [intros y []|exact I].
    - intros [H1 H2]. destruct (Z.leb_spec (key x) (key z)) as [H|H]; cbn [sorted].
      + split; [|now split]. intros y [<-|Hy]; [exact H|]. specialize (H1 y Hy). lia.
      + split; [|now apply IH]. intros y Hy. apply insert_In in Hy as [->|Hy]; [lia|now apply H1].
  Qed.
  Lemma sort_sorted l : sorted (stable_sort key l).
  Proof. unfold stable_sort. induction l as [|x l IH]; cbn [fold_right]; [exact I|now apply insert_sorted]. Qed.
  Lemma sort_In l y : In y (stable_sort key l) <-> In y l.
  Proof.
    unfold stable_sort. induction l as [|x l IH]; cbn [fold_right]; [reflexivity|].
    rewrite insert_In, IH. cbn [In]. intuition.
  Qed.
  Lemma insert_perm x l : Permutation (insert_by key x l) (x :: l).
  Proof.
    induction l as [|z l IH]; cbn [insert_by]; [reflexivity|].
    destruct (key x <=? key z); [reflexivity|]. rewrite IH. apply perm_swap.
  Qed.
  Lemma sort_perm l : Permutation (stable_sort key l) l.
  Proof.
    unfold stable_sort. induction l as [|x l IH]; cbn [fold_right]; [reflexivity|].
    rewrite insert_perm. now constructor.
  Qed.
  (** Stability, for any predicate that holds only for one key. *)
  Lemma insert_filter f k x l :
    (forall y, f y = true -> key y = k) -> sorted l ->
    filter f (insert_by key x l) = (if f x then [x] else []) ++ filter f l.
  Proof.
    intros Hf. induction l as [|z l IH]; intro Hs; cbn [insert_by].
    - cbn [filter]. destruct (f x); reflexivity.
    - destruct (Z.leb_spec (key x) (key z)) as [H|H].
      + cbn [filter]. destruct (f x); reflexivity.
      + destruct Hs as [H1 H2]. cbn [filter]. rewrite (IH H2).
        destruct (f x) eqn:Ex; [|reflexivity]. destruct (f z) eqn:Ez; [|reflexivity].
        apply Hf in Ex, Ez. lia.
  Qed.
  Lemma sort_filter f k l :
    (forall y, f y = true -> key y = k) -> filter f (stable_sort key l) = filter f l.
  Proof.
    intro Hf. unfold stable_sort. induction l as [|x l IH]; cbn [fold_right]; [reflexivity|].
    rewrite (insert_filter f k) by (try exact Hf; apply sort_sorted).
    unfold stable_sort in IH. rewrite IH. cbn [filter]. destruct (f x); reflexivity.
  Qed.
  Lemma sort_filter_in f k l :
    (forall y, In y l -> f y = true -> key y = k) -> filter f (stable_sort key l) = filter f l.
  Proof.
    intro Hf.
    assert (HE : forall y, In y l -> f y = f y && (key y =? k)).
    { intros y Hy. destruct (f y) eqn:E; [|reflexivity]. rewrite (Hf y Hy E), Z.eqb_refl. reflexivity. }
    rewrite (filter_ext_in f (fun y => f y && (key y =? k)) l HE).
    rewrite (filter_ext_in f (fun y => f y && (key y =? k)) (stable_sort key l)).
    - apply (sort_filter _ k). intros y Hy. apply andb_true_iff in Hy as [_ Hy]. lia.
    - intros y Hy. apply HE. now apply sort_In.
  Qed.
  Lemma sorted_app l1 l2 :
    sorted (l1 ++ l2) <-> sorted l1 /\ sorted l2 /\ forall x y, In x l1 -> In y l2 -> key x <= key y.
  Proof.
    induction l1 as [|z l1 IH]; cbn [app sorted].
    - split; [intro H; split; [exact I|split; [exact H|intros x y []]]|tauto].
    - rewrite IH. split.
      + intros (H1 & H2 & H3 & H4). repeat split; try assumption.
        * intros y Hy. apply H1, in_or_app. now left.
        * intros x y [<-|Hx] Hy; [apply H1, in_or_app; now right|now apply H4].
      + intros ((H1 & H2) & H3 & H4). repeat split; try assumption.
        * intros y Hy. apply in_app_or in Hy as [Hy|Hy]; [now apply H1|apply H4; [now left|exact Hy]].
        * intros x y Hx Hy. apply H4; [now right|exact Hy].
  Qed.
End Sort.

(** ** The sort key *)
Lemma sort_key_arith hab p :
  0 <= hab <= 63 -> 0 <= p < 2 ^ 64 ->
  sort_key hab p = (if is_immediate p then 2 ^ 63 else 0) + get_address hab p.
Proof.
  intros Hh Hp. unfold sort_key, sort_mask, immediate_mask.
  rewrite Z.land_lor_distr_r.
  assert (H1 : Z.land p (2 ^ 63) = if is_immediate p then 2 ^ 63 else 0).
  { rewrite is_immediate_arith by exact Hp.
    apply Z.bits_inj'. intros n Hn. rewrite Z.land_spec, Z.pow2_bits_eqb by lia.
    destruct (Z.eqb_spec 63 n) as [<-|Hne].
    - rewrite andb_true_r. destruct (Z.leb_spec (2 ^ 63) p) as [H|H].
      + rewrite Z.pow2_bits_true by lia. apply Z.testbit_true; [lia|].
        replace (p / 2 ^ 63) with 1; [reflexivity|]. apply Z.div_unique with (p - 2 ^ 63); lia.
      + rewrite Z.bits_0. apply Z.testbit_false; [lia|]. rewrite Z.div_small by lia. reflexivity.
    - rewrite andb_false_r. destruct (2 ^ 63 <=? p); [|now rewrite Z.bits_0].
      rewrite Z.pow2_bits_false by lia. reflexivity. }
  rewrite H1. unfold get_address, address_mask.
  pose proof (get_address_arith hab p ltac:(lia)) as HA. unfold get_address, address_mask in HA.
  assert (0 <= Z.land p (Z.shiftl 1 hab - 1) < 2 ^ 63).
  { rewrite HA. pose proof (Z.mod_pos_bound p (2 ^ hab) ltac:(apply Z.pow_pos_nonneg; lia)).
    assert (2 ^ hab <= 2 ^ 63) by (apply Z.pow_le_mono_r; lia). lia. }
  destruct (is_immediate p).
  - rewrite <- (Z.mul_1_l (2 ^ 63)) at 1. rewrite lor_shifted_small by lia. lia.
  - rewrite Z.lor_0_l. lia.
Qed.

(** ** Immediate bytes *)
Lemma be_encode_app a b v : be_encode (a + b) v = be_encode a (v / 256 ^ Z.of_nat b) ++ be_encode b v.
Proof.
  revert v. induction b as [|b IH]; intro v.
  - rewrite Nat.add_0_r. cbn [be_encode]. rewrite app_nil_r. change (256 ^ Z.of_nat 0) with 1. now rewrite Z.div_1_r.
  - replace (a + S b)%nat with (S (a + b)) by lia. cbn [be_encode]. rewrite IH, <- app_assoc. f_equal. f_equal.
    rewrite Nat2Z.inj_succ, Z.pow_succ_r by lia. rewrite Z.div_div by lia. reflexivity.
Qed.
Lemma be_encode_mod n v : be_encode n (v mod 256 ^ Z.of_nat n) = be_encode n v.
Proof.
  revert v. induction n as [|n IH]; intro v; [reflexivity|]. cbn [be_encode].
  rewrite Nat2Z.inj_succ, Z.pow_succ_r by lia.
  assert (0 < 256 ^ Z.of_nat n) by lia.
  rewrite Z.rem_mul_r by lia. f_equal.
  - rewrite <- (IH (v / 256)). f_equal.
    replace (v mod 256 + 256 * ((v / 256) mod 256 ^ Z.of_nat n)) with ((v / 256) mod 256 ^ Z.of_nat n * 256 + v mod 256) by lia.
    rewrite Z.div_add_l by lia. rewrite (Z.div_small (v mod 256)) by (apply Z.mod_pos_bound; lia). lia.
  - f_equal. rewrite (Z.mul_comm 256), Z.mod_add by lia. apply Z.mod_mod. lia.
Qed.

Lemma slice_suffix {A} (l1 l2 : list A) a b : zlen l1 = a -> zlen l2 = b -> slice (l1 ++ l2) a b = l2.
Proof. intros <- <-. rewrite <- (app_nil_r l2) at 1. apply slice_app_exact. Qed.

Lemma immediate_bytes hab p :
  flavour_ok hab = true ->
  slice (be_encode 8 p) (8 - hab / 8) (hab / 8) = be_encode (Z.to_nat (hab / 8)) (get_address hab p).
Proof.
  intro Hf. pose proof (flavour_ok_bytes _ Hf) as [He Hr]. set (k := hab / 8) in *.
  replace 8%nat with ((8 - Z.to_nat k) + Z.to_nat k)%nat by lia. rewrite be_encode_app.
  rewrite (slice_suffix _ _ (8 - k) k) by (rewrite zlen_be_encode; lia).
  rewrite <- be_encode_mod. f_equal.
  rewrite get_address_arith by lia. f_equal.
  replace 256 with (2 ^ 8) by reflexivity. rewrite <- Z.pow_mul_r by lia. f_equal. lia.
Qed.

(** ** The loop *)
(** Items produced for a sorted list of pointers, [next] being the immediate
    storage offset. *)
Fixpoint items_of (hab minl : Z) (keep : bool) (ptrs : list Z) (next : Z) : list ritem :=
  match ptrs with
  | [] => []
  | p :: rest =>
      let id := get_id hab p in
      if id =? 0 then items_of hab minl keep rest next
      else if is_immediate p then
        {| ri_id := id; ri_imm := true; ri_start := next; ri_len := hab / 8; ri_value := get_immediate hab p |}
        :: items_of hab minl keep rest (next + hab / 8)
      else if negb keep then items_of hab minl keep rest next
      else
        let start := get_address hab p in
        let stop := match rest with
                    | q :: _ => if is_immediate q then minl else get_address hab q
                    | [] => minl
                    end in
        if start =? stop then items_of hab minl keep rest next
        else {| ri_id := id; ri_imm := false; ri_start := start; ri_len := stop - start; ri_value := 0 |}
             :: items_of hab minl keep rest next
  end.

Lemma load_loop_spec hab minl keep ptrs :
  flavour_ok hab = true -> forall s,
  0 <= ld_next s -> ld_next s + hab / 8 * zlen (filter is_immediate ptrs) <= zlen (ld_imm s) ->
  exists s', load_loop hab minl keep ptrs s = Some s' /\
    ld_items s' = rev (items_of hab minl keep ptrs (ld_next s)) ++ ld_items s /\
    zlen (ld_imm s') = zlen (ld_imm s) /\
    (forall i, 0 <= i < ld_next s -> znth (ld_imm s') i = znth (ld_imm s) i) /\
    (forall it, In it (items_of hab minl keep ptrs (ld_next s)) -> ri_imm it = true ->
       0 <= ri_start it /\ ri_start it + ri_len it <= zlen (ld_imm s) /\
       slice (ld_imm s') (ri_start it) (ri_len it) = map Some (be_encode (Z.to_nat (hab / 8)) (ri_value it))).
Proof.
  intro Hf. pose proof (flavour_ok_bytes _ Hf) as [_ Hr].
  induction ptrs as [|p ptrs IH]; intros s H0 Hb; cbn [load_loop items_of].
  - exists s. split; [reflexivity|]. split; [reflexivity|]. split; [reflexivity|]. split; [reflexivity|]. intros it [].
  - assert (Hb' : forall n, 0 <= n -> ld_next s + hab / 8 * zlen (filter is_immediate ptrs) <= zlen (ld_imm s)).
    { intros _ _. cbn [filter] in Hb. pose proof (zlen_nonneg (filter is_immediate ptrs)).
      destruct (is_immediate p); [rewrite zlen_cons in Hb; nia|exact Hb]. }
    specialize (Hb' 0 (Z.le_refl 0)).
    unfold load_step. cbv zeta. destruct (get_id hab p =? 0) eqn:EI; [exact (IH s H0 Hb')|].
    destruct (is_immediate p) eqn:EM.
    + cbn [filter] in Hb. rewrite EM, zlen_cons in Hb. pose proof (zlen_nonneg (filter is_immediate ptrs)) as Hz.
      rewrite (immediate_bytes hab p Hf).
      set (bs := be_encode (Z.to_nat (hab / 8)) (get_address hab p)).
      assert (HL : zlen (map Some bs) = hab / 8) by (rewrite zlen_map; unfold bs; rewrite zlen_be_encode; lia).
      destruct (mem_write_spec (ld_imm s) (ld_next s) (map Some bs)) as (imm & -> & M1 & M2); [exact H0|nia|].
      match goal with |- context [load_loop hab minl keep ptrs ?x] => set (s1 := x) end.
      destruct (IH s1) as (s' & -> & I1 & I2 & I3 & I4).
      { cbn [s1 ld_next]. lia. }
      { cbn [s1 ld_next ld_imm]. rewrite M1. lia. }
      cbn [s1 ld_next ld_imm ld_items] in *.
      exists s'. split; [reflexivity|]. split; [|split; [|split]].
      * rewrite I1. cbn [rev]. now rewrite <- app_assoc.
      * lia.
      * intros i Hi. rewrite I3 by lia. rewrite M2 by lia. destruct (ld_next s <=? i) eqn:E; [lia|]. reflexivity.
      * intros it [<-|Hin] Him.
        -- cbn [ri_start ri_len ri_value]. split; [lia|]. split; [nia|].
           change (get_immediate hab p) with (get_address hab p). fold bs. rewrite <- HL. apply slice_of_znth; [lia|].
           intros i Hi. rewrite I3 by lia. rewrite M2 by lia.
           destruct ((ld_next s <=? ld_next s + i) && (ld_next s + i <? ld_next s + zlen (map Some bs))) eqn:E; [|lia].
           f_equal. lia.
        -- rewrite M1 in I4. exact (I4 it Hin Him).
    + destruct (negb keep); [exact (IH s H0 Hb')|].
      replace (match hd_error ptrs with Some q => if is_immediate q then minl else get_address hab q | None => minl end)
        with (match ptrs with q :: _ => if is_immediate q then minl else get_address hab q | [] => minl end)
        by (destruct ptrs; reflexivity).
      set (stop := match ptrs with q :: _ => if is_immediate q then minl else get_address hab q | [] => minl end).
      destruct (get_address hab p =? stop); [exact (IH s H0 Hb')|].
      match goal with |- context [load_loop hab minl keep ptrs ?x] => set (s1 := x) end.
      destruct (IH s1 H0 Hb') as (s' & -> & I1 & I2 & I3 & I4).
      cbn [s1 ld_next ld_imm ld_items] in *.
      exists s'. split; [reflexivity|]. split; [|split; [exact I2|split; [exact I3|]]].
      * rewrite I1. cbn [rev]. now rewrite <- app_assoc.
      * intros it [<-|Hin] Him; [discriminate Him|]. exact (I4 it Hin Him).
Qed.

(** ** Which items are produced *)
Definition succ_of (hab minl : Z) (rest : list Z) : Z :=
  match rest with
  | q :: _ => if is_immediate q then minl else get_address hab q
  | [] => minl
  end.

Lemma items_of_imm_sound hab minl keep ptrs : forall next it,
  In it (items_of hab minl keep ptrs next) -> ri_imm it = true ->
  ri_len it = hab / 8 /\
  exists p, In p ptrs /\ is_immediate p = true /\ get_id hab p <> 0 /\
            ri_id it = get_id hab p /\ ri_value it = get_immediate hab p.
Proof.
  induction ptrs as [|p ptrs IH]; intros next it Hin Him; cbn [items_of] in Hin; [destruct Hin|].
  assert (HT : forall next', In it (items_of hab minl keep ptrs next') ->
    ri_len it = hab / 8 /\
    exists p0, In p0 (p :: ptrs) /\ is_immediate p0 = true /\ get_id hab p0 <> 0 /\
            ri_id it = get_id hab p0 /\ ri_value it = get_immediate hab p0).
  { intros n' H'. destruct (IH n' it H' Him) as (H1 & q & Hq & H2). split; [exact H1|]. exists q. split; [now right|exact H2]. }
  destruct (Z.eqb_spec (get_id hab p) 0) as [E|E]; [eauto|].
  destruct (is_immediate p) eqn:EM.
  - destruct Hin as [<-|Hin]; [|eauto]. cbn [ri_len ri_id ri_value]. split; [reflexivity|].
    exists p. split; [now left|]. repeat split; assumption.
  - destruct (negb keep); [eauto|]. destruct (_ =? _); [eauto|].
    destruct Hin as [<-|Hin]; [discriminate Him|eauto].
Qed.

Lemma items_of_imm_complete hab minl keep ptrs p : forall next,
  In p ptrs -> is_immediate p = true -> get_id hab p <> 0 ->
  exists it, In it (items_of hab minl keep ptrs next) /\ ri_imm it = true /\
             ri_id it = get_id hab p /\ ri_value it = get_immediate hab p.
Proof.
  induction ptrs as [|q ptrs IH]; intros next Hin Him Hid; [destruct Hin|]. cbn [items_of].
  destruct Hin as [->|Hin].
  - destruct (Z.eqb_spec (get_id hab p) 0) as [E|E]; [contradiction|]. rewrite Him.
    eexists. split; [now left|]. repeat split.
  - assert (HT : forall next', exists it, In it (items_of hab minl keep ptrs next') /\ ri_imm it = true /\
             ri_id it = get_id hab p /\ ri_value it = get_immediate hab p) by (intro; now apply IH).
    destruct (get_id hab q =? 0); [apply HT|]. destruct (is_immediate q).
    + destruct (HT (next + hab / 8)) as (it & H & H'). exists it. split; [now right|exact H'].
    + destruct (negb keep); [apply HT|]. destruct (_ =? _); [apply HT|].
      destruct (HT next) as (it & H & H'). exists it. split; [now right|exact H'].
Qed.

Lemma items_of_addr_sound hab minl keep ptrs : forall next it,
  In it (items_of hab minl keep ptrs next) -> ri_imm it = false ->
  keep = true /\
  exists l1 p l2, ptrs = l1 ++ p :: l2 /\ is_immediate p = false /\ get_id hab p <> 0 /\
    ri_id it = get_id hab p /\ ri_start it = get_address hab p /\
    ri_len it = succ_of hab minl l2 - get_address hab p /\ get_address hab p <> succ_of hab minl l2.
Proof.
  induction ptrs as [|p ptrs IH]; intros next it Hin Him; cbn [items_of] in Hin; [destruct Hin|].
  assert (HT : forall next', In it (items_of hab minl keep ptrs next') ->
    keep = true /\
    exists l1 p0 l2, p :: ptrs = l1 ++ p0 :: l2 /\ is_immediate p0 = false /\ get_id hab p0 <> 0 /\
      ri_id it = get_id hab p0 /\ ri_start it = get_address hab p0 /\
      ri_len it = succ_of hab minl l2 - get_address hab p0 /\ get_address hab p0 <> succ_of hab minl l2).
  { intros n' H'. destruct (IH n' it H' Him) as (H1 & l1 & q & l2 & -> & H2). split; [exact H1|].
    exists (p :: l1), q, l2. split; [reflexivity|exact H2]. }
  destruct (Z.eqb_spec (get_id hab p) 0) as [E|E]; [eauto|].
  destruct (is_immediate p) eqn:EM.
  - destruct Hin as [<-|Hin]; [discriminate Him|eauto].
  - destruct keep; cbn [negb] in Hin; [|eauto]. fold (succ_of hab minl ptrs) in Hin.
    destruct (Z.eqb_spec (get_address hab p) (succ_of hab minl ptrs)) as [E2|E2]; [eauto|].
    destruct Hin as [<-|Hin]; [|eauto]. cbn [ri_id ri_start ri_len]. split; [reflexivity|].
    exists [], p, ptrs. repeat split; assumption.
Qed.

Lemma items_of_addr_complete hab minl l1 p l2 : forall next,
  is_immediate p = false -> get_id hab p <> 0 -> get_address hab p <> succ_of hab minl l2 ->
  In {| ri_id := get_id hab p; ri_imm := false; ri_start := get_address hab p;
        ri_len := succ_of hab minl l2 - get_address hab p; ri_value := 0 |}
     (items_of hab minl true (l1 ++ p :: l2) next).
Proof.
  induction l1 as [|q l1 IH]; intros next Him Hid Hne; cbn [app items_of].
  - destruct (Z.eqb_spec (get_id hab p) 0) as [E|E]; [contradiction|]. rewrite Him. cbn [negb].
    fold (succ_of hab minl l2). destruct (Z.eqb_spec (get_address hab p) (succ_of hab minl l2)); [contradiction|]. now left.
  - destruct (get_id hab q =? 0); [now apply IH|]. destruct (is_immediate q); [right; now apply IH|].
    cbn [negb]. destruct (_ =? _); [now apply IH|right; now apply IH].
Qed.

Lemma filter_snoc_split {A} (f : A -> bool) l m x :
  filter f l = m ++ [x] -> exists l1 l2, l = l1 ++ x :: l2 /\ filter f l2 = [].
Proof.
  revert m. induction l as [|y l IH]; intros m H; cbn [filter] in H; [destruct m; discriminate|].
  destruct (f y) eqn:E.
  - destruct m as [|z m]; cbn [app] in H; injection H as H1 H2.
    + subst y. exists [], l. split; [reflexivity|exact H2].
    + destruct (IH m H2) as (l1 & l2 & -> & H3). exists (y :: l1), l2. split; [reflexivity|exact H3].
  - destruct (IH m H) as (l1 & l2 & -> & H3). exists (y :: l1), l2. split; [reflexivity|exact H3].
Qed.

(** Items in the list are in address order and do not overlap. *)
Lemma items_of_disjoint hab minl keep ptrs : forall next,
  sorted (sort_key hab) ptrs -> Forall word_ok ptrs -> 0 <= hab <= 63 ->
  (forall p, In p ptrs -> is_immediate p = false -> get_address hab p <= minl) ->
  ForallOrdPairs (fun i j => ri_imm i = false -> ri_imm j = false -> ri_start i + ri_len i <= ri_start j)
    (items_of hab minl keep ptrs next).
Proof.
  induction ptrs as [|p ptrs IH]; intros next Hs Hw Hh Hm; cbn [items_of]; [constructor|].
  destruct Hs as [Hs1 Hs2]. inversion Hw as [|? ? Hwp Hw']; subst.
  assert (HI : forall n, ForallOrdPairs (fun i j => ri_imm i = false -> ri_imm j = false -> ri_start i + ri_len i <= ri_start j)
    (items_of hab minl keep ptrs n)) by (intro n; apply IH; auto; intros q Hq; apply Hm; now right).
  destruct (get_id hab p =? 0); [apply HI|]. destruct (is_immediate p) eqn:EM.
  - constructor; [|apply HI]. apply Forall_forall. intros j _ H. discriminate H.
  - destruct (negb keep); [apply HI|]. fold (succ_of hab minl ptrs).
    destruct (_ =? _); [apply HI|]. constructor; [|apply HI].
    apply Forall_forall. intros j Hj _ Hji. cbn [ri_start ri_len].
    destruct (items_of_addr_sound _ _ _ _ _ _ Hj Hji) as (_ & l1 & q & l2 & E & Hq & _ & _ & Hst & _).
    rewrite Hst. enough (succ_of hab minl ptrs <= get_address hab q) by lia.
    assert (HqA : In q ptrs) by (rewrite E; apply in_or_app; right; now left).
    destruct ptrs as [|r ptrs']; [destruct HqA|]. cbn [succ_of].
    destruct Hs2 as [Hs2 _]. inversion Hw' as [|? ? Hwr Hw'']; subst.
    assert (Hkr : sort_key hab r <= sort_key hab q).
    { destruct HqA as [->|HqA]; [lia|now apply Hs2]. }
    assert (Hwq : word_ok q) by (rewrite Forall_forall in Hw'; now apply Hw').
    rewrite !sort_key_arith, Hq in Hkr by assumption.
    pose proof (get_address_range hab r ltac:(lia)) as HR1. pose proof (get_address_range hab q ltac:(lia)) as HR2.
    assert (2 ^ hab <= 2 ^ 63) by (apply Z.pow_le_mono_r; lia).
    destruct (is_immediate r); lia.
Qed.

Lemma all_init_Some l : all_init (map Some l) = Some l.
Proof. induction l as [|x l IH]; [reflexivity|]. cbn [map all_init]. now rewrite IH. Qed.
Lemma all_init_inv m l : all_init m = Some l -> m = map Some l.
Proof.
  revert l. induction m as [|o m IH]; intros l H; cbn [all_init] in H.
  - injection H as <-. reflexivity.
  - destruct o as [b|]; [|discriminate]. destruct (all_init m) as [l'|]; [|discriminate]. injection H as <-.
    cbn [map]. now rewrite <- (IH l' eq_refl).
Qed.

(** Memory all of whose bytes are initialised. *)
Lemma init_list (m : memory) :
  (forall i, 0 <= i < zlen m -> exists b, znth m i = Some (Some b)) -> exists l, m = map Some l.
Proof.
  induction m as [|o m IH]; intro H; [now exists []|].
  destruct (H 0) as (b & Hb); [rewrite zlen_cons; pose proof (zlen_nonneg m); lia|].
  unfold znth in Hb. change (Z.to_nat 0) with 0%nat in Hb. cbn in Hb. injection Hb as ->.
  destruct IH as (l & ->).
  - intros i Hi. destruct (H (i + 1)) as (c & Hc); [rewrite zlen_cons; lia|]. exists c.
    unfold znth in *. destruct (i + 1 <? 0) eqn:E1; [lia|]. destruct (i <? 0) eqn:E2; [lia|].
    replace (Z.to_nat (i + 1)) with (S (Z.to_nat i)) in Hc by lia. exact Hc.
  - now exists (b :: l).
Qed.

(** ** Freezing *)
Lemma inv_ptr_words ooo h acc p :
  heap_inv ooo h acc -> In p (lh_pointers h) -> word_ok p.
Proof.
  intros HI Hin.
  assert (HE : lh_pointers h = first_occurrences (kept_of (lh_hab h) acc)).
  { unfold lh_pointers. destruct (hi_ptrs _ _ _ HI) as [(H1 & _ & H3 & _)|(H1 & H2 & _)];
      cbn [lh_store ps_ninline ps_inline ps_ext] in *.
    - destruct (0 <=? lh_ninline h) eqn:E; [exact H3|lia].
    - destruct (0 <=? lh_ninline h) eqn:E; [lia|exact H2]. }
  rewrite HE, first_occurrences_In in Hin. unfold kept_of in Hin.
  apply filter_In in Hin as [Hin _]. apply in_flat_map in Hin as (q & Hq & Hp).
  pose proof (hi_pkts _ _ _ HI) as HP. rewrite Forall_forall in HP. specialize (HP q Hq).
  pose proof (ro_words q HP) as HW. rewrite Forall_forall in HW. now apply HW.
Qed.

Lemma inv_ptr_min ooo h acc p :
  heap_inv ooo h acc -> In p (lh_pointers h) -> is_immediate p = false -> get_address (lh_hab h) p <= lh_min h.
Proof.
  intros HI Hin Him.
  assert (HE : lh_pointers h = first_occurrences (kept_of (lh_hab h) acc)).
  { unfold lh_pointers. destruct (hi_ptrs _ _ _ HI) as [(H1 & _ & H3 & _)|(H1 & H2 & _)];
      cbn [lh_store ps_ninline ps_inline ps_ext] in *.
    - destruct (0 <=? lh_ninline h) eqn:E; [exact H3|lia].
    - destruct (0 <=? lh_ninline h) eqn:E; [lia|exact H2]. }
  rewrite HE, first_occurrences_In in Hin. unfold kept_of in Hin.
  apply filter_In in Hin as [Hin _]. apply in_flat_map in Hin as (q & Hq & Hp).
  rewrite (hi_min _ _ _ HI). apply zmax0_ge, in_flat_map. exists q. split; [exact Hq|].
  unfold pkt_extent. right. pose proof (hi_hab _ _ _ HI) as HH. rewrite Forall_forall in HH. specialize (HH q Hq). cbn in HH.
  rewrite HH. apply in_map. apply filter_In. split; [exact Hp|]. now rewrite Him.
Qed.

Lemma load_spec h keep keepp :
  flavour_ok (lh_hab h) = true ->
  exists f, load h keep keepp = Some f /\ fr_cnt f = lh_cnt h /\ fr_hab f = lh_hab h /\
    fr_payload f = (if keepp then lh_mem h else []) /\
    fr_items f = items_of (lh_hab h) (lh_min h) keep (stable_sort (sort_key (lh_hab h)) (lh_pointers h)) 0 /\
    (forall it, In it (fr_items f) -> ri_imm it = true ->
       ritem_value f it = Some (be_encode (Z.to_nat (lh_hab h / 8)) (ri_value it)) /\ ri_len it = lh_hab h / 8).
Proof.
  intro Hf. pose proof (flavour_ok_bytes _ Hf) as [_ Hr]. unfold load.
  set (ptrs := stable_sort (sort_key (lh_hab h)) (lh_pointers h)).
  set (need := lh_hab h / 8 * zlen (filter is_immediate ptrs)).
  set (size := if inline_immediates <? need then need else inline_immediates).
  assert (Hsize : need <= size /\ 0 <= size).
  { unfold size, inline_immediates. destruct (24 <? need) eqn:E; lia. }
  destruct (load_loop_spec (lh_hab h) (lh_min h) keep ptrs Hf
    {| ld_items := []; ld_imm := repeat None (Z.to_nat size); ld_next := 0 |}) as (s' & -> & L1 & L2 & L3 & L4).
  { cbn [ld_next]. lia. }
  { cbn [ld_next ld_imm]. rewrite zlen_repeat. fold need. lia. }
  cbn [ld_next ld_imm ld_items] in *. rewrite app_nil_r in L1.
  eexists. split; [reflexivity|]. cbn [fr_cnt fr_hab fr_payload fr_items]. split; [reflexivity|]. split; [reflexivity|].
  split; [reflexivity|]. rewrite L1, rev_involutive. split; [reflexivity|].
  intros it Hin Him. destruct (L4 it Hin Him) as (B1 & B2 & B3).
  pose proof (proj1 (items_of_imm_sound _ _ _ _ _ _ Hin Him)) as Hlen. split; [|exact Hlen].
  unfold ritem_value, ritem_bytes. rewrite Him. cbn [fr_immediates]. rewrite L2.
  destruct ((0 <=? ri_start it) && (0 <=? ri_len it) && (ri_start it + ri_len it <=? zlen (repeat (@None Z) (Z.to_nat size)))) eqn:E; [|lia].
  rewrite B3. apply all_init_Some.
Qed.
