From Coq Require Import ZArith List Lia Bool.
From Coq Require Import ZifyBool ZifyNat.
From Verif Require Import Base CodecModel CodecProofs PacketSpec RecvPacketModel RecvPacketProofs
  LiveHeapModel LiveHeapSpec.
Import ListNotations.
Open Scope Z_scope.

(** ** What the decoder guarantees *)
Record rpkt_ok (p : rpkt) : Prop := {
  ro_flavour : flavour_ok (rp_hab p) = true;
  ro_plen : rp_plen p = zlen (rp_payload p);
  ro_off : 0 <= rp_off p;
  ro_hlen : rp_hlen p = -1 \/ (0 <= rp_hlen p /\ rp_off p + rp_plen p <= rp_hlen p);
  ro_words : Forall word_ok (rp_ptrs p)
}.

Lemma decoded_ok p : decoded p -> rpkt_ok p.
Proof.
  intros (data & h & size & Hb & HD & ->).
  destruct (decode_packet_sound data h size Hb HD) as (hab & ptrs & payload & cnt & hlen & off & PA & -> & ->).
  pose proof (accepted_regions _ _ _ _ _ _ _ PA) as (R1 & R2 & _).
  destruct PA as [Hf Hw Hc _ H1 H2 H3 H4 H5].
  pose proof (flavour_ok_range _ Hf) as Hh.
  constructor; unfold rpkt_of; cbn [rp_hab rp_plen rp_payload rp_off rp_hlen rp_ptrs]; try (rewrite R1 || rewrite R2);
    cbn [the_header ph_hab ph_payload_length ph_payload_offset ph_heap_length].
  - exact Hf.
  - reflexivity.
  - now apply (last_imm_range hab _ _ _ ltac:(lia)) in H3.
  - destruct hlen as [l|]; cbn [or_else]; [right|now left]. split; [|now apply H5].
    now apply (last_imm_range hab _ _ _ ltac:(lia)) in H2.
  - rewrite skip_specials_suffix. apply Forall_forall. intros x Hx. apply In_skipn in Hx.
    rewrite Forall_forall in Hw. now apply Hw.
Qed.

Lemma rp_plen_nonneg p : rpkt_ok p -> 0 <= rp_plen p.
Proof. intro H. rewrite (ro_plen p H). apply zlen_nonneg. Qed.

(** ** Memory *)
Definition znth {A} (l : list A) (i : Z) : option A := if i <? 0 then None else nth_error l (Z.to_nat i).

Lemma znth_slice {A} (l : list A) off len i :
  0 <= off -> 0 <= i -> znth (slice l off len) i = if i <? len then znth l (off + i) else None.
Proof.
  intros Ho Hi. unfold znth, slice.
  destruct (i <? 0) eqn:E; [lia|]. destruct (off + i <? 0) eqn:E2; [lia|].
  destruct (Z.ltb_spec i len) as [H|H].
  - replace (Z.to_nat (off + i)) with (Z.to_nat off + Z.to_nat i)%nat by lia.
    rewrite nth_error_firstn_lt by lia. apply nth_error_skipn'.
  - apply nth_error_None. rewrite firstn_length. lia.
Qed.

Lemma znth_app {A} (l1 l2 : list A) i :
  0 <= i -> znth (l1 ++ l2) i = if i <? zlen l1 then znth l1 i else znth l2 (i - zlen l1).
Proof.
  intro Hi. unfold znth, zlen. destruct (i <? 0) eqn:E; [lia|].
  destruct (Z.ltb_spec i (Z.of_nat (length l1))).
  - apply nth_error_app1. lia.
  - rewrite nth_error_app2 by lia. destruct (i - Z.of_nat (length l1) <? 0) eqn:E2; [lia|]. f_equal. lia.
Qed.

Lemma znth_None {A} (l : list A) i : zlen l <= i -> znth l i = None.
Proof. intro H. unfold znth, zlen in *. destruct (i <? 0) eqn:E; [reflexivity|]. apply nth_error_None. lia. Qed.

Lemma znth_map {A B} (f : A -> B) l i : znth (map f l) i = option_map f (znth l i).
Proof. unfold znth. destruct (i <? 0); [reflexivity|]. now rewrite nth_error_map. Qed.

Lemma znth_ext {A} (l1 l2 : list A) :
  zlen l1 = zlen l2 -> (forall i, 0 <= i < zlen l1 -> znth l1 i = znth l2 i) -> l1 = l2.
Proof.
  unfold zlen, znth. revert l2. induction l1 as [|x l1 IH]; intros l2 HL HE; destruct l2 as [|y l2]; cbn [length] in *; try lia; [reflexivity|].
  f_equal.
  - specialize (HE 0 ltac:(lia)). change (Z.to_nat 0) with 0%nat in HE. cbn in HE. congruence.
  - apply IH; [lia|]. intros i Hi. specialize (HE (i + 1) ltac:(lia)).
    destruct (i + 1 <? 0) eqn:E; [lia|]. destruct (i <? 0) eqn:E2; [lia|].
    replace (Z.to_nat (i + 1)) with (S (Z.to_nat i)) in HE by lia. exact HE.
Qed.

Lemma mem_write_spec mem off src :
  0 <= off -> off + zlen src <= zlen mem ->
  exists mem', mem_write mem off src = Some mem' /\ zlen mem' = zlen mem /\
    forall i, 0 <= i -> znth mem' i = if (off <=? i) && (i <? off + zlen src) then znth src (i - off) else znth mem i.
Proof.
  intros Ho Hl. unfold mem_write. pose proof (zlen_nonneg src).
  destruct ((0 <=? off) && (off + zlen src <=? zlen mem)) eqn:E; [|lia].
  eexists. split; [reflexivity|].
  assert (H1 : zlen (slice mem 0 off) = off) by (apply zlen_slice; lia).
  assert (H2 : zlen (slice mem (off + zlen src) (zlen mem - (off + zlen src))) = zlen mem - (off + zlen src))
    by (apply zlen_slice; lia).
  split; [rewrite !zlen_app; lia|].
  intros i Hi. rewrite znth_app, H1 by lia.
  destruct (i <? off) eqn:E1.
  - rewrite znth_slice by lia. rewrite E1, Z.add_0_l. destruct (off <=? i) eqn:E2; [lia|]. reflexivity.
  - rewrite znth_app by lia. destruct (off <=? i) eqn:E2; [|lia]. cbn [andb].
    destruct (Z.ltb_spec (i - off) (zlen src)); destruct (Z.ltb_spec i (off + zlen src)); try lia; [reflexivity|].
    rewrite znth_slice by lia.
    destruct (Z.ltb_spec (i - off - zlen src) (zlen mem - (off + zlen src))).
    + f_equal. lia.
    + symmetry. apply znth_None. lia.
Qed.

Lemma payload_reserve_spec mem reserved size exact :
  zlen mem = reserved ->
  exists mem' res', payload_reserve mem reserved size exact = Some (mem', res') /\
    zlen mem' = res' /\ reserved <= res' /\ size <= res' /\
    forall i, 0 <= i < reserved -> znth mem' i = znth mem i.
Proof.
  intro HL. unfold payload_reserve. pose proof (zlen_nonneg mem).
  destruct (Z.ltb_spec reserved size) as [H1|H1].
  - set (size' := if negb exact && (size <? reserved * 2) then reserved * 2 else size).
    assert (Hs : size <= size') by (unfold size'; destruct exact; cbn [negb andb]; destruct (size <? reserved * 2) eqn:E; lia).
    clearbody size'.
    assert (Hz : zlen (slice mem 0 reserved) = reserved) by (apply zlen_slice; lia).
    destruct (mem_write_spec (repeat None (Z.to_nat size')) 0 (slice mem 0 reserved)) as (m & -> & Hm & Hn);
      [lia|rewrite Hz, zlen_repeat; lia|].
    exists m, size'. split; [reflexivity|]. rewrite zlen_repeat in Hm.
    split; [lia|]. split; [lia|]. split; [lia|].
    intros i Hi. rewrite Hn by lia. rewrite Hz. destruct ((0 <=? i) && (i <? 0 + reserved)) eqn:E; [|lia].
    rewrite znth_slice by lia. destruct (i - 0 <? reserved) eqn:E2; [|lia]. f_equal; lia.
  - exists mem, reserved. repeat split; try lia.
Qed.

(** ** Ranges *)
Lemma separated_app l1 l2 :
  separated (l1 ++ l2) <-> separated l1 /\ separated l2 /\ (forall r q, In r l1 -> In q l2 -> snd r < fst q).
Proof.
  induction l1 as [|a l1 IH]; cbn [app separated].
  - split; [intro H; split; [exact I|split; [exact H|intros r q []]]|intros (_ & H & _); exact H].
  - rewrite IH. split.
    + intros (H1 & H2 & H3 & H4 & H5). repeat split; try assumption.
      * intros q Hq. apply H2, in_or_app. now left.
      * intros r q [<-|Hr] Hq; [apply H2, in_or_app; now right|now apply H5].
    + intros ((H1 & H2 & H3) & H4 & H5). repeat split; try assumption.
      * intros q Hq. apply in_app_or in Hq as [Hq|Hq]; [now apply H2|]. apply H5; [now left|exact Hq].
      * intros r q Hr Hq. apply H5; [now right|exact Hq].
Qed.

Lemma in_ranges_app l1 l2 x : in_ranges (l1 ++ l2) x <-> in_ranges l1 x \/ in_ranges l2 x.
Proof.
  unfold in_ranges. split.
  - intros (r & H & Hx). apply in_app_or in H as [H|H]; [left|right]; exists r; auto.
  - intros [(r & H & Hx)|(r & H & Hx)]; exists r; split; try assumption; apply in_or_app; auto.
Qed.
Lemma in_ranges_cons r l x : in_ranges (r :: l) x <-> (fst r <= x < snd r) \/ in_ranges l x.
Proof.
  unfold in_ranges. split.
  - intros (q & [->|H] & Hx); [now left|right; eauto].
  - intros [H|(q & H & Hx)]; [exists r|exists q]; cbn; auto.
Qed.
Lemma in_ranges_nil x : ~ in_ranges [] x.
Proof. intros (r & [] & _). Qed.

Definition total_ranges (m : list (Z * Z)) : Z := fold_right (fun r a => snd r - fst r + a) 0 m.
Lemma total_ranges_app l1 l2 : total_ranges (l1 ++ l2) = total_ranges l1 + total_ranges l2.
Proof. unfold total_ranges. induction l1 as [|a l1 IH]; cbn [app fold_right]; [lia|]. rewrite IH. lia. Qed.

Lemma upper_bound_spec m k : forall before,
  separated m ->
  exists b a, upper_bound m k before = (rev b ++ before, a) /\ m = b ++ a /\
    (forall r, In r b -> fst r <= k) /\ (forall r, In r a -> k < fst r).
Proof.
  induction m as [|r m IH]; intros before Hs; cbn [upper_bound].
  - exists [], []. repeat split; intros r [].
  - destruct Hs as (H1 & H2 & H3). destruct (Z.leb_spec (fst r) k) as [Hk|Hk].
    + destruct (IH (r :: before) H3) as (b & a & -> & -> & Hb & Ha).
      exists (r :: b), a. cbn [rev]. rewrite <- app_assoc. repeat split; try assumption.
      intros q [<-|Hq]; [exact Hk|now apply Hb].
    + exists [], (r :: m). cbn [rev app]. repeat split; [intros q []|].
      intros q [<-|Hq]; [exact Hk|]. specialize (H2 q Hq). lia.
Qed.

Lemma join_next_spec r a :
  separated (r :: a) \/ (fst r <= snd r /\ separated a /\ forall q, In q a -> snd r <= fst q) ->
  separated (join_next r a) /\
  (forall x, in_ranges (join_next r a) x <-> (fst r <= x < snd r) \/ in_ranges a x) /\
  total_ranges (join_next r a) = snd r - fst r + total_ranges a /\
  (forall q, In q (join_next r a) -> fst q = fst r \/ In q a).
Proof.
  intro H.
  assert (H0 : fst r <= snd r /\ separated a /\ forall q, In q a -> snd r <= fst q).
  { destruct H as [(H1 & H2 & H3)|H]; [|exact H]. split; [exact H1|]. split; [exact H3|].
    intros q Hq. specialize (H2 q Hq). lia. }
  clear H. destruct H0 as (H1 & H2 & H3). unfold join_next.
  destruct a as [|n rest].
  - cbn [separated total_ranges fold_right]. split; [split; [exact H1|split; [intros q []|exact I]]|].
    split; [intro x; apply in_ranges_cons|]. split; [reflexivity|].
    intros q [<-|[]]. now left.
  - destruct H2 as (H4 & H5 & H6).
    pose proof (H3 n (or_introl eq_refl)) as H7.
    destruct (Z.eqb_spec (fst n) (snd r)) as [E|E].
    + cbn [separated fst snd]. repeat split; try lia; try assumption.
      * rewrite !in_ranges_cons. cbn [fst snd]. intros [H|H]; [|tauto].
        destruct (Z.lt_ge_cases x (snd r)); [left; lia|right; left; lia].
      * rewrite !in_ranges_cons. cbn [fst snd]. intros [H|[H|H]]; [left; lia|left; lia|now right].
      * unfold total_ranges. cbn [fold_right fst snd]. lia.
      * intros q [<-|Hq]; [now left|right; now right].
    + split; [split; [exact H1|split; [|repeat split; assumption]]|].
      { intros q [<-|Hq]; [lia|]. specialize (H5 q Hq). lia. }
      split; [intro x; apply in_ranges_cons|]. split; [reflexivity|].
      intros q [<-|Hq]; [now left|now right].
Qed.

Lemma add_range_some m first last m' :
  separated m -> first <= last -> add_payload_range m first last = Some m' ->
  separated m' /\
  (forall x, in_ranges m' x <-> in_ranges m x \/ first <= x < last) /\
  (forall x, in_ranges m x -> ~ (first <= x < last)) /\
  total_ranges m' = total_ranges m + (last - first).
Proof.
  intros Hs Hfl. unfold add_payload_range.
  destruct (upper_bound_spec m first [] Hs) as (b & a & HE & -> & Hb & Ha). rewrite HE, app_nil_r. clear HE.
  apply separated_app in Hs as (S1 & S2 & S3).
  destruct (match a with [] => false | n :: _ => fst n <? last end) eqn:EA; [discriminate|].
  assert (HA : forall q, In q a -> last <= fst q).
  { destruct a as [|n a]; [intros q []|]. intros q [<-|Hq]; [lia|].
    destruct S2 as (S4 & S5 & _). specialize (S5 q Hq). lia. }
  assert (HxA : forall x, in_ranges a x -> last <= x).
  { intros x (q & Hq & Hx). specialize (HA q Hq). lia. }
  destruct (rev b) as [|prev b'] eqn:EB.
  - assert (b = []) as -> by (rewrite <- (rev_involutive b), EB; reflexivity). cbn [app].
    intro H. injection H as <-.
    destruct (join_next_spec (first, last) a) as (J1 & J2 & J3 & J4);
      [right; cbn [fst snd]; repeat split; assumption|]. cbn [fst snd] in *.
    split; [exact J1|]. split; [intro x; rewrite J2; tauto|].
    split; [intros x Hx; specialize (HxA x Hx); lia|lia].
  - assert (Hbb : b = rev b' ++ [prev]) by (rewrite <- (rev_involutive b), EB; reflexivity).
    subst b. rewrite !rev_append_rev. cbn [rev]. set (b0 := rev b') in *. clearbody b0. clear EB.
    apply separated_app in S1 as (S4 & S5 & S6). cbn [separated] in S5. destruct S5 as (S5 & _).
    pose proof (Hb prev ltac:(apply in_or_app; right; now left)) as Hp.
    assert (Hb0 : forall r, In r b0 -> snd r < fst prev) by (intros r Hr; apply S6; [exact Hr|now left]).
    assert (Hxb : forall x, in_ranges b0 x -> x < fst prev).
    { intros x (q & Hq & Hx). specialize (Hb0 q Hq). lia. }
    assert (Hpa : forall q, In q a -> snd prev < fst q)
      by (intros q Hq; apply S3; [apply in_or_app; right; now left|exact Hq]).
    assert (Hba : forall r q, In r b0 -> In q a -> snd r < fst q)
      by (intros r q Hr Hq; apply S3; [apply in_or_app; now left|exact Hq]).
    destruct (Z.ltb_spec (snd prev) first) as [H1|H1]; [|destruct (Z.eqb_spec (snd prev) first) as [H2|H2]; [|discriminate]].
    + intro H. injection H as <-.
      destruct (join_next_spec (first, last) a) as (J1 & J2 & J3 & J4);
        [right; cbn [fst snd]; repeat split; assumption|]. cbn [fst snd] in *.
      split; [|split; [|split]].
      * apply separated_app. split; [apply separated_app; split; [exact S4|split; [cbn [separated]; repeat split; [exact S5|intros q []]|exact S6]]|].
        split; [exact J1|]. intros r q Hr Hq. apply J4 in Hq as [Hq|Hq]; [|now apply S3].
        rewrite Hq. apply in_app_or in Hr as [Hr|[<-|[]]]; [|exact H1]. specialize (Hb0 r Hr). lia.
      * intro x. rewrite !in_ranges_app, J2. tauto.
      * intros x Hx Hn. rewrite !in_ranges_app, in_ranges_cons in Hx.
        destruct Hx as [[Hx|[Hx|Hx]]|Hx]; [specialize (Hxb x Hx); lia|lia|destruct (in_ranges_nil x Hx)|specialize (HxA x Hx); lia].
      * rewrite !total_ranges_app, J3. unfold total_ranges. cbn [fold_right]. lia.
    + intro H. injection H as <-.
      destruct (join_next_spec (fst prev, last) a) as (J1 & J2 & J3 & J4);
        [right; cbn [fst snd]; repeat split; try assumption; lia|]. cbn [fst snd] in *.
      split; [|split; [|split]].
      * apply separated_app. split; [exact S4|]. split; [exact J1|].
        intros r q Hr Hq. apply J4 in Hq as [Hq|Hq]; [rewrite Hq; now apply Hb0|now apply Hba].
      * intro x. rewrite !in_ranges_app, J2, in_ranges_cons. split.
        -- intros [H|[H|H]]; [tauto| |tauto].
           destruct (Z.lt_ge_cases x first); [left; left; right; left; lia|right; lia].
        -- intros [[[H|[H|H]]|H]|H]; [tauto|right; left; lia|destruct (in_ranges_nil x H)|tauto|right; left; lia].
      * intros x Hx Hn. rewrite !in_ranges_app, in_ranges_cons in Hx.
        destruct Hx as [[Hx|[Hx|Hx]]|Hx]; [specialize (Hxb x Hx); lia|lia|destruct (in_ranges_nil x Hx)|specialize (HxA x Hx); lia].
      * rewrite !total_ranges_app, J3. unfold total_ranges. cbn [fold_right]. lia.
Qed.

(** Why a range is refused. *)
Lemma add_range_none m first last :
  separated m -> first < last -> add_payload_range m first last = None ->
  (exists x, in_ranges m x /\ first <= x < last) \/ (exists k, In (k, k) m /\ first < k < last).
Proof.
  intros Hs Hfl. unfold add_payload_range.
  destruct (upper_bound_spec m first [] Hs) as (b & a & HE & -> & Hb & Ha). rewrite HE, app_nil_r. clear HE.
  apply separated_app in Hs as (S1 & S2 & S3).
  destruct (match a with [] => false | n :: _ => fst n <? last end) eqn:EA.
  - intros _. destruct a as [|[k e] a]; [discriminate|]. cbn [fst] in EA.
    pose proof (Ha (k, e) (or_introl eq_refl)) as Hk. cbn [fst] in Hk.
    destruct S2 as (S4 & _). cbn [fst snd] in S4.
    destruct (Z.eq_dec k e) as [->|Hne].
    + right. exists e. split; [apply in_or_app; right; now left|lia].
    + left. exists k. split; [|lia]. apply in_ranges_app. right. apply in_ranges_cons. left. cbn [fst snd]. lia.
  - destruct (rev b) as [|prev b'] eqn:EB; [discriminate|].
    assert (Hbb : b = rev b' ++ [prev]) by (rewrite <- (rev_involutive b), EB; reflexivity).
    destruct (Z.ltb_spec (snd prev) first); [discriminate|].
    destruct (Z.eqb_spec (snd prev) first); [discriminate|]. intros _.
    left. exists first. split; [|lia]. apply in_ranges_app. left. subst b.
    apply in_ranges_app. right. apply in_ranges_cons. left.
    pose proof (Hb prev ltac:(apply in_or_app; right; now left)) as Hp. lia.
Qed.

(** A refused overlap: any range sharing a byte is refused. *)
Lemma add_range_overlap m first last x :
  separated m -> in_ranges m x -> first <= x < last -> add_payload_range m first last = None.
Proof.
  intros Hs Hx Hf. destruct (add_payload_range m first last) as [m'|] eqn:E; [|reflexivity].
  apply add_range_some in E as (_ & _ & H & _); [|exact Hs|lia]. exfalso. exact (H x Hx Hf).
Qed.

Lemma total_ranges_nonneg m : separated m -> 0 <= total_ranges m.
Proof.
  unfold total_ranges. induction m as [|r m IH]; cbn [separated fold_right]; [lia|].
  intros (H1 & _ & H3). specialize (IH H3). lia.
Qed.

(** If the ranges are inside [lo, hi) and their total length is hi - lo, they
    cover everything. *)
Lemma total_full m : forall lo hi,
  separated m -> lo <= hi -> (forall r, In r m -> lo <= fst r /\ snd r <= hi) ->
  total_ranges m <= hi - lo /\
  (total_ranges m = hi - lo -> forall x, lo <= x < hi -> in_ranges m x).
Proof.
  induction m as [|r m IH]; intros lo hi Hs Hlo Hr.
  - cbn [total_ranges fold_right]. split; [lia|]. intros. lia.
  - destruct Hs as (H1 & H2 & H3). destruct (Hr r (or_introl eq_refl)) as [H4 H5].
    destruct (IH (snd r) hi H3 H5) as [H6 H7].
    { intros q Hq. specialize (H2 q Hq). specialize (Hr q (or_intror Hq)). lia. }
    change (total_ranges (r :: m)) with (snd r - fst r + total_ranges m).
    split; [lia|]. intros HE x Hx. apply in_ranges_cons.
    destruct (Z.lt_ge_cases x (snd r)); [left; lia|right]. apply H7; lia.
Qed.

(** ** Item pointer store *)
Definition store_ok (s : pstore) (l : list Z) : Prop :=
  (0 <= ps_ninline s <= 8 /\ zlen (ps_inline s) = 8 /\ slice (ps_inline s) 0 (ps_ninline s) = l
   /\ ps_ext s = [] /\ ps_seen s = [])
  \/ (ps_ninline s = -1 /\ ps_ext s = l /\ forall p, In p (ps_seen s) <-> In p l).

Lemma mem_z_In p l : mem_z p l = true <-> In p l.
Proof.
  unfold mem_z. rewrite existsb_exists. split.
  - intros (x & Hx & E). apply Z.eqb_eq in E. now subst.
  - intro H. exists p. split; [exact H|apply Z.eqb_refl].
Qed.
Lemma mem_z_ext p l1 l2 : (In p l1 <-> In p l2) -> mem_z p l1 = mem_z p l2.
Proof.
  intro H. destruct (mem_z p l1) eqn:E1; destruct (mem_z p l2) eqn:E2; try reflexivity.
  - apply mem_z_In, H, mem_z_In in E1. congruence.
  - apply mem_z_In, H, mem_z_In in E2. congruence.
Qed.

Lemma set_nth_length {A} (l : list A) n x : length (set_nth l n x) = length l.
Proof. revert n. induction l as [|y l IH]; intros [|n]; cbn [set_nth length]; [reflexivity..|]. now rewrite IH. Qed.
Lemma firstn_set_nth {A} (l : list A) n x :
  (n < length l)%nat -> firstn (S n) (set_nth l n x) = firstn n l ++ [x].
Proof.
  revert n. induction l as [|y l IH]; intros n H; cbn [length] in H; [lia|].
  destruct n as [|n]; [reflexivity|]. cbn [set_nth]. rewrite !firstn_cons. cbn [app]. rewrite IH by lia. reflexivity.
Qed.

Lemma store_pointer_spec s l p :
  store_ok s l ->
  exists s', store_pointer s p = Some s' /\ store_ok s' (l ++ [p]) /\ ps_min s' = ps_min s /\ ps_eos s' = ps_eos s.
Proof.
  intros [(H1 & H2 & H3 & H4 & H5)|(H1 & H2 & H3)]; unfold store_pointer, max_inline_pointers.
  - destruct (Z.eqb_spec (ps_ninline s) 8) as [E|E]; cbn [ps_ninline ps_min ps_eos ps_inline ps_ext ps_seen].
    + change (0 <=? -1) with false. cbv iota. eexists. split; [reflexivity|]. cbn [ps_min ps_eos]. split; [|now split].
      right. cbn [ps_ninline ps_ext ps_seen]. rewrite H4, H5, H3. split; [reflexivity|]. split; [reflexivity|].
      intro q. cbn [app In]. rewrite in_app_iff. cbn [In]. tauto.
    + destruct (0 <=? ps_ninline s) eqn:E1; [|lia]. destruct (ps_ninline s <? 8) eqn:E2; [|lia].
      eexists. split; [reflexivity|]. cbn [ps_min ps_eos]. split; [|now split].
      left. cbn [ps_ninline ps_inline ps_ext ps_seen]. split; [lia|].
      unfold zlen in *. rewrite set_nth_length. split; [exact H2|]. split; [|now split].
      unfold slice in *. change (Z.to_nat 0) with 0%nat in *. cbn [skipn] in *.
      replace (Z.to_nat (ps_ninline s + 1)) with (S (Z.to_nat (ps_ninline s))) by lia.
      rewrite firstn_set_nth by lia. now rewrite H3.
  - destruct (Z.eqb_spec (ps_ninline s) 8) as [E|E]; [lia|].
    destruct (0 <=? ps_ninline s) eqn:E1; [lia|]. eexists. split; [reflexivity|]. cbn [ps_min ps_eos]. split; [|now split].
    right. cbn [ps_ninline ps_ext ps_seen]. split; [exact H1|]. split; [now rewrite H2|].
    intro q. cbn [In]. rewrite in_app_iff, H3. cbn [In]. tauto.
Qed.

Definition push_kept (hab : Z) (l : list Z) (p : Z) : list Z :=
  if kept hab p then (if mem_z p l then l else l ++ [p]) else l.

Definition add_extent (hab m p : Z) : Z := if is_immediate p then m else Z.max m (get_address hab p).

Lemma add_pointer_spec hab s l p :
  store_ok s l -> ps_eos s = existsb (stop_item hab) l ->
  exists s', add_pointer hab s p = Some s' /\ store_ok s' (push_kept hab l p) /\
    ps_eos s' = existsb (stop_item hab) (push_kept hab l p) /\
    ps_min s' = add_extent hab (ps_min s) p.
Proof.
  intros HS HE. unfold add_pointer, push_kept, kept.
  change PAYLOAD_LENGTH_ID with 4. cbv zeta.
  match goal with |- context [store_pointer ?x p] => set (s0 := x) end.
  assert (H0 : store_ok s0 l) by exact HS.
  assert (Hm : ps_min s0 = add_extent hab (ps_min s) p) by reflexivity.
  assert (He : ps_eos s0 = ps_eos s) by reflexivity.
  destruct ((get_id hab p =? 0) || (4 <? get_id hab p)) eqn:EK.
  - match goal with |- context [if ?c then Some s0 else _] => assert (ES : c = mem_z p l) end.
    { destruct H0 as [(H1 & H2 & H3 & H4 & H5)|(H1 & H2 & H3)].
      - destruct (0 <=? ps_ninline s0) eqn:E; [|lia]. now rewrite H3.
      - rewrite H1. change (0 <=? -1) with false. cbv iota. apply mem_z_ext, H3. }
    rewrite ES. destruct (mem_z p l) eqn:EM.
    + exists s0. repeat split; assumption.
    + destruct (store_pointer_spec s0 l p H0) as (s1 & -> & H1 & H2 & H3).
      assert (EX : existsb (stop_item hab) (l ++ [p]) = ps_eos s1 || stop_item hab p).
      { rewrite existsb_app. cbn [existsb]. rewrite orb_false_r. congruence. }
      assert (EC : (get_id hab p =? STREAM_CTRL_ID) && is_immediate p && (get_immediate hab p =? CTRL_STREAM_STOP)
                   = stop_item hab p).
      { unfold stop_item. change CTRL_STREAM_STOP with 2. f_equal. apply andb_comm. }
      rewrite EC. destruct (stop_item hab p) eqn:EST.
      * eexists. split; [reflexivity|]. cbn [ps_eos ps_min].
        split; [exact H1|]. split; [rewrite EX; now rewrite orb_true_r|congruence].
      * exists s1. split; [reflexivity|]. split; [exact H1|]. split; [rewrite EX; now rewrite orb_false_r|congruence].
  - exists s0. repeat split; assumption.
Qed.

Lemma add_pointers_spec hab ptrs : forall s l,
  store_ok s l -> ps_eos s = existsb (stop_item hab) l ->
  exists s', add_pointers hab s ptrs = Some s' /\ store_ok s' (fold_left (push_kept hab) ptrs l) /\
    ps_eos s' = existsb (stop_item hab) (fold_left (push_kept hab) ptrs l) /\
    ps_min s' = fold_left (add_extent hab) ptrs (ps_min s).
Proof.
  induction ptrs as [|p ptrs IH]; intros s l HS HE; cbn [add_pointers fold_left].
  - exists s. repeat split; assumption.
  - destruct (add_pointer_spec hab s l p HS HE) as (s1 & -> & H1 & H2 & H3).
    destruct (IH s1 _ H1 H2) as (s' & -> & H4 & H5 & H6).
    exists s'. split; [reflexivity|]. split; [exact H4|]. split; [exact H5|]. now rewrite H6, H3.
Qed.

Lemma fold_push_filter hab ptrs : forall l,
  fold_left (push_kept hab) ptrs l =
  fold_left (fun acc p => if mem_z p acc then acc else acc ++ [p]) (filter (kept hab) ptrs) l.
Proof.
  induction ptrs as [|p ptrs IH]; intro l; cbn [fold_left filter]; [reflexivity|].
  rewrite IH. unfold push_kept. destruct (kept hab p); reflexivity.
Qed.

Lemma first_occurrences_app l1 l2 :
  first_occurrences (l1 ++ l2) =
  fold_left (fun acc p => if mem_z p acc then acc else acc ++ [p]) l2 (first_occurrences l1).
Proof. unfold first_occurrences. now rewrite fold_left_app. Qed.

Lemma first_occurrences_push l p :
  first_occurrences (l ++ [p]) = if mem_z p (first_occurrences l) then first_occurrences l else first_occurrences l ++ [p].
Proof. rewrite first_occurrences_app. reflexivity. Qed.

Lemma first_occurrences_In l p : In p (first_occurrences l) <-> In p l.
Proof.
  revert p. induction l as [|x l IH] using rev_ind; intro p; [reflexivity|].
  rewrite first_occurrences_push, in_app_iff. cbn [In]. destruct (mem_z x (first_occurrences l)) eqn:E.
  - apply mem_z_In, IH in E. rewrite IH. split; [tauto|]. intros [H|[<-|[]]]; assumption.
  - rewrite in_app_iff, IH. cbn [In]. tauto.
Qed.

Lemma NoDup_app_single {A} (l : list A) x : NoDup l -> ~ In x l -> NoDup (l ++ [x]).
Proof.
  intros H1 H2. induction l as [|y l IH]; cbn [app].
  - constructor; [intros []|constructor].
  - inversion H1; subst. constructor.
    + rewrite in_app_iff. cbn [In]. intros [H|[->|[]]]; [contradiction|]. apply H2. now left.
    + apply IH; [assumption|]. intro H. apply H2. now right.
Qed.
Lemma first_occurrences_NoDup l : NoDup (first_occurrences l).
Proof.
  induction l as [|x l IH] using rev_ind; [constructor|].
  rewrite first_occurrences_push. destruct (mem_z x (first_occurrences l)) eqn:E; [exact IH|].
  apply NoDup_app_single; [exact IH|]. intro H. apply mem_z_In in H. congruence.
Qed.

(** ** The heap extent *)
Lemma zmax0_app l1 l2 : zmax0 (l1 ++ l2) = Z.max (zmax0 l1) (zmax0 l2).
Proof.
  unfold zmax0. induction l1 as [|x l1 IH]; cbn [app fold_right]; [|rewrite IH; lia].
  assert (0 <= fold_right Z.max 0 l2) by (induction l2; cbn [fold_right]; lia). lia.
Qed.
Lemma zmax0_nonneg l : 0 <= zmax0 l.
Proof. unfold zmax0. induction l; cbn [fold_right]; lia. Qed.
Lemma zmax0_ge l x : In x l -> x <= zmax0 l.
Proof. unfold zmax0. induction l as [|y l IH]; cbn [fold_right]; intros []; [subst; lia|specialize (IH H); lia]. Qed.
Lemma zmax0_le l b : 0 <= b -> (forall x, In x l -> x <= b) -> zmax0 l <= b.
Proof.
  unfold zmax0. intro Hb. induction l as [|y l IH]; cbn [fold_right]; intro H; [exact Hb|].
  pose proof (H y (or_introl eq_refl)). specialize (IH (fun x Hx => H x (or_intror Hx))). lia.
Qed.

Lemma fold_extent hab ptrs : forall m,
  fold_left (add_extent hab) ptrs m =
  fold_left Z.max (map (get_address hab) (filter (fun q => negb (is_immediate q)) ptrs)) m.
Proof.
  induction ptrs as [|p ptrs IH]; intro m; cbn [fold_left filter]; [reflexivity|].
  rewrite IH. unfold add_extent. destruct (is_immediate p); reflexivity.
Qed.
Lemma fold_left_max l : forall m, 0 <= m -> fold_left Z.max l m = Z.max m (zmax0 l).
Proof.
  unfold zmax0. induction l as [|x l IH]; intros m Hm; cbn [fold_left fold_right]; [lia|].
  rewrite IH by lia. lia.
Qed.

(** ** The invariant: what a heap knows about the packets added to it *)
Definition coverage (ooo : bool) (h : live_heap) (acc : list rpkt) : Prop :=
  if ooo then
    separated (lh_ranges h) /\ total_ranges (lh_ranges h) = lh_recv h /\
    forall x, in_ranges (lh_ranges h) x <-> exists p, In p acc /\ carries p x
  else
    lh_ranges h = [] /\ forall x, 0 <= x < lh_recv h <-> exists p, In p acc /\ carries p x.

Definition lh_store (h : live_heap) : pstore :=
  {| ps_min := lh_min h; ps_eos := lh_eos h; ps_ninline := lh_ninline h; ps_inline := lh_inline h;
     ps_ext := lh_ext h; ps_seen := lh_seen h |}.

Definition kept_of (hab : Z) (acc : list rpkt) : list Z :=
  filter (kept hab) (flat_map rp_ptrs acc).

Record heap_inv (ooo : bool) (h : live_heap) (acc : list rpkt) : Prop := {
  hi_pkts : Forall rpkt_ok acc;
  hi_hab : Forall (fun p => rp_hab p = lh_hab h) acc;
  hi_hlen : (lh_hlen h = -1 /\ Forall (fun p => rp_hlen p = -1) acc) \/
            (0 <= lh_hlen h /\ (exists p, In p acc /\ rp_hlen p = lh_hlen h) /\
             Forall (fun p => rp_hlen p = -1 \/ rp_hlen p = lh_hlen h) acc);
  hi_min : lh_min h = zmax0 (flat_map pkt_extent acc);
  hi_res : zlen (lh_mem h) = lh_reserved h;
  hi_len : lh_hlen h <= lh_reserved h;
  hi_fit : Forall (fun p => rp_off p + rp_plen p <= lh_reserved h) acc;
  hi_mem : Forall (fun p => forall i, 0 <= i < rp_plen p ->
             znth (lh_mem h) (rp_off p + i) = Some (znth (rp_payload p) i)) acc;
  hi_recv : lh_recv h = total_payload acc;
  hi_disj : ForallOrdPairs (fun p q => ~ overlap p q) acc;
  hi_cover : coverage ooo h acc;
  hi_ptrs : store_ok (lh_store h) (first_occurrences (kept_of (lh_hab h) acc));
  hi_eos : lh_eos h = existsb (stop_item (lh_hab h)) (first_occurrences (kept_of (lh_hab h) acc))
}.

Lemma heap_inv_new ooo p : heap_inv ooo (live_heap_new p) [].
Proof.
  constructor; cbn [live_heap_new lh_hlen lh_min lh_mem lh_reserved lh_recv]; try constructor; try reflexivity; try lia.
  - split; [reflexivity|constructor].
  - destruct ooo; cbn [coverage live_heap_new lh_ranges lh_recv].
    + split; [exact I|]. split; [reflexivity|]. intro x. split; [intro H; destruct (in_ranges_nil x H)|].
      intros (q & [] & _).
    + split; [reflexivity|]. intro x. split; [lia|]. intros (q & [] & _).
  - repeat split; try reflexivity; cbn [lh_store live_heap_new ps_ninline lh_ninline]; lia.
Qed.

Lemma reserve_for_spec ooo h acc p :
  heap_inv ooo h acc -> rpkt_ok p -> inconsistent h p = false ->
  exists hlen minl mem res,
    reserve_for h p = Some (hlen, minl, mem, res) /\
    zlen mem = res /\ lh_reserved h <= res /\ hlen <= res /\ rp_off p + rp_plen p <= res /\
    (forall i, 0 <= i < lh_reserved h -> znth mem i = znth (lh_mem h) i) /\
    minl = Z.max (lh_min h) (if 0 <=? rp_hlen p then rp_hlen p else rp_off p + rp_plen p) /\
    ((hlen = -1 /\ lh_hlen h = -1 /\ rp_hlen p = -1) \/
     (0 <= hlen /\ (rp_hlen p = hlen \/ (rp_hlen p = -1 /\ lh_hlen h = hlen)) /\
      (lh_hlen h = hlen \/ lh_hlen h = -1))).
Proof.
  intros HI Hp HC. unfold inconsistent in HC.
  pose proof (hi_res _ _ _ HI) as Hres. pose proof (hi_len _ _ _ HI) as Hlen.
  pose proof (ro_hlen p Hp) as Hph. pose proof (rp_plen_nonneg p Hp) as Hpl. pose proof (ro_off p Hp) as Hpo.
  assert (HhL : lh_hlen h = -1 \/ 0 <= lh_hlen h) by (destruct (hi_hlen _ _ _ HI) as [[H _]|[H _]]; auto).
  assert (Hhm : lh_hlen h <= lh_min h).
  { destruct (hi_hlen _ _ _ HI) as [[H _]|(H & (q & Hq & Eq) & _)].
    - rewrite (hi_min _ _ _ HI). pose proof (zmax0_nonneg (flat_map pkt_extent acc)). lia.
    - rewrite (hi_min _ _ _ HI). apply zmax0_ge. apply in_flat_map. exists q. split; [exact Hq|].
      unfold pkt_extent. rewrite Eq. destruct (0 <=? lh_hlen h) eqn:E; [now left|lia]. }
  clear HI. apply orb_false_elim in HC as [HC HC3]. apply orb_false_elim in HC as [HC1 HC2].
  unfold reserve_for. destruct (0 <=? rp_hlen p) eqn:E1.
  - destruct (lh_hlen h <? 0) eqn:E2.
    + destruct (payload_reserve_spec (lh_mem h) (lh_reserved h) (Z.max (lh_min h) (rp_hlen p)) true Hres)
        as (m & r & -> & H1 & H2 & H3 & H4).
      exists (rp_hlen p), (Z.max (lh_min h) (rp_hlen p)), m, r.
      split; [reflexivity|]. split; [exact H1|]. split; [exact H2|].
      split; [lia|]. split; [lia|]. split; [exact H4|]. split; [reflexivity|]. right. lia.
    + exists (lh_hlen h), (lh_min h), (lh_mem h), (lh_reserved h).
      split; [reflexivity|]. split; [exact Hres|]. split; [lia|]. split; [exact Hlen|]. split; [lia|].
      split; [reflexivity|]. split; [lia|]. right. lia.
  - destruct (payload_reserve_spec (lh_mem h) (lh_reserved h) (Z.max (lh_min h) (rp_off p + rp_plen p)) false Hres)
      as (m & r & -> & H1 & H2 & H3 & H4).
    exists (lh_hlen h), (Z.max (lh_min h) (rp_off p + rp_plen p)), m, r.
    split; [reflexivity|]. split; [exact H1|]. split; [exact H2|].
    split; [lia|]. split; [lia|]. split; [exact H4|]. split; [reflexivity|]. lia.
Qed.

Lemma kept_of_snoc hab acc p : kept_of hab (acc ++ [p]) = kept_of hab acc ++ filter (kept hab) (rp_ptrs p).
Proof. unfold kept_of. rewrite flat_map_app, filter_app. cbn [flat_map]. now rewrite app_nil_r. Qed.

Lemma ForallOrdPairs_snoc {A} (R : A -> A -> Prop) l x :
  ForallOrdPairs R l -> Forall (fun y => R y x) l -> ForallOrdPairs R (l ++ [x]).
Proof.
  intros H1 H2. induction H1 as [|y l Hy H1 IH]; cbn [app].
  - constructor; constructor.
  - inversion H2; subst. constructor; [|now apply IH].
    apply Forall_app. split; [exact Hy|]. constructor; [assumption|constructor].
Qed.

Lemma total_payload_snoc acc p : total_payload (acc ++ [p]) = total_payload acc + rp_plen p.
Proof. unfold total_payload. rewrite fold_right_app. cbn [fold_right]. generalize 0. intro z. induction acc as [|q acc IH]; cbn [fold_right]; [lia|]. lia. Qed.

Lemma le_plus_nonneg a b : 0 <= b -> a <= a + b.
Proof. lia. Qed.

(** The new ranges and the packets' coverage. *)
Lemma new_packet_spec ooo h acc p ranges :
  heap_inv ooo h acc -> rpkt_ok p -> new_packet h p ooo = Some ranges ->
  Forall (fun q => ~ overlap q p) acc /\
  forall h', lh_ranges h' = ranges -> lh_recv h' = lh_recv h + rp_plen p -> coverage ooo h' (acc ++ [p]).
Proof.
  intros HI Hp HN. pose proof (hi_cover _ _ _ HI) as HC. unfold coverage, new_packet in *.
  pose proof (rp_plen_nonneg p Hp) as Hpl. pose proof (ro_off p Hp) as Hpo.
  assert (HS : forall x, (exists q, In q (acc ++ [p]) /\ carries q x) <-> (exists q, In q acc /\ carries q x) \/ carries p x).
  { intro x. split.
    - intros (q & Hq & Hx). apply in_app_or in Hq as [Hq|[<-|[]]]; [left; eauto|now right].
    - intros [(q & Hq & Hx)|Hx]; [exists q|exists p]; split; try assumption; apply in_or_app; [now left|right; now left]. }
  destruct ooo.
  - destruct HC as (C1 & C2 & C3).
    destruct (add_range_some _ _ _ _ C1 (le_plus_nonneg _ _ Hpl) HN) as (A1 & A2 & A3 & A4).
    split.
    + rewrite Forall_forall. intros q Hq (x & Hx1 & Hx2). apply (A3 x); [apply C3; eauto|exact Hx2].
    + intros h' -> ->. split; [exact A1|]. split; [lia|]. intro x. rewrite A2, HS, C3. reflexivity.
  - destruct HC as (C1 & C2). destruct (Z.eqb_spec (rp_off p) (lh_recv h)) as [E|E]; [|discriminate].
    injection HN as <-. split.
    + rewrite Forall_forall. intros q Hq (x & Hx1 & Hx2).
      assert (0 <= x < lh_recv h) by (apply C2; eauto). unfold carries in Hx2. lia.
    + intros h' -> ->. split; [exact C1|]. intro x. rewrite HS, <- C2. unfold carries. lia.
Qed.

Lemma add_packet_step ooo h acc p :
  heap_inv ooo h acc -> rpkt_ok p ->
  add_packet h p ooo = Rejected \/
  exists h', add_packet h p ooo = Added h' /\ heap_inv ooo h' (acc ++ [p]) /\
    lh_cnt h' = lh_cnt h /\ lh_hab h' = lh_hab h /\
    inconsistent h p = false /\ new_packet h p ooo <> None.
Proof.
  intros HI Hp. unfold add_packet.
  destruct (inconsistent h p) eqn:EI; [now left|].
  destruct (new_packet h p ooo) as [ranges|] eqn:EN; [|now left].
  right.
  destruct (reserve_for_spec ooo h acc p HI Hp EI) as (hlen & minl & mem & res & -> & R1 & R2 & R3 & R4 & R5 & R6 & R7).
  destruct (add_pointers_spec (lh_hab h) (rp_ptrs p)
    {| ps_min := minl; ps_eos := lh_eos h; ps_ninline := lh_ninline h; ps_inline := lh_inline h;
       ps_ext := lh_ext h; ps_seen := lh_seen h |} _ (hi_ptrs _ _ _ HI) (hi_eos _ _ _ HI))
    as (s & -> & P1 & P2 & P3). cbn [ps_min] in P3.
  rewrite fold_push_filter, <- first_occurrences_app, <- kept_of_snoc in P1, P2.
  destruct (new_packet_spec ooo h acc p ranges HI Hp EN) as [N1 N2].
  pose proof (rp_plen_nonneg p Hp) as Hpl. pose proof (ro_off p Hp) as Hpo. pose proof (ro_plen p Hp) as Hpp.
  assert (Hhab : rp_hab p = lh_hab h).
  { unfold inconsistent in EI. apply orb_false_elim in EI as [_ EI]. lia. }
  assert (HM : exists mem', zlen mem' = res /\
     (forall i, 0 <= i -> znth mem' i = if (rp_off p <=? i) && (i <? rp_off p + rp_plen p)
                                         then znth (map Some (rp_payload p)) (i - rp_off p) else znth mem i) /\
     (if 0 <? rp_plen p then mem_write mem (rp_off p) (map Some (rp_payload p)) = Some mem' else mem' = mem)).
  { destruct (Z.ltb_spec 0 (rp_plen p)) as [H|H].
    - destruct (mem_write_spec mem (rp_off p) (map Some (rp_payload p))) as (mem' & M1 & M2 & M3);
        [exact Hpo|rewrite zlen_map; lia|].
      exists mem'. split; [lia|]. split; [|exact M1]. intros i Hi. rewrite (M3 i Hi), zlen_map, <- Hpp. reflexivity.
    - exists mem. split; [exact R1|]. split; [|reflexivity]. intros i Hi.
      destruct ((rp_off p <=? i) && (i <? rp_off p + rp_plen p)) eqn:E; [lia|reflexivity]. }
  destruct HM as (mem' & M1 & M2 & M3).
  set (h' := {| lh_cnt := lh_cnt h; lh_hab := lh_hab h; lh_hlen := hlen;
                lh_recv := lh_recv h + rp_plen p; lh_min := ps_min s; lh_eos := ps_eos s;
                lh_ninline := ps_ninline s; lh_inline := ps_inline s;
                lh_ext := ps_ext s; lh_seen := ps_seen s;
                lh_mem := mem'; lh_reserved := res; lh_ranges := ranges |}).
  exists h'. split.
  { destruct (0 <? rp_plen p) eqn:E; [rewrite M3; reflexivity|]. subst mem'. unfold h'.
    replace (lh_recv h + rp_plen p) with (lh_recv h) by lia. reflexivity. }
  split; [|repeat split; congruence].
  constructor.
  - apply Forall_app. split; [exact (hi_pkts _ _ _ HI)|]. constructor; [exact Hp|constructor].
  - apply Forall_app. split; [exact (hi_hab _ _ _ HI)|]. constructor; [exact Hhab|constructor].
  - unfold h'. cbn [lh_hlen]. pose proof (hi_hlen _ _ _ HI) as HH.
    destruct R7 as [(R7 & R8 & R9)|(R7 & R8 & R9)].
    + left. split; [exact R7|]. destruct HH as [[_ HH]|HH]; [|lia].
      apply Forall_app. split; [exact HH|]. constructor; [exact R9|constructor].
    + right. split; [exact R7|]. split.
      * destruct R8 as [R8|[R8 R10]].
        -- exists p. split; [apply in_or_app; right; now left|exact R8].
        -- destruct HH as [[HH _]|(_ & (q & Hq & Eq) & _)]; [lia|].
           exists q. split; [apply in_or_app; now left|congruence].
      * apply Forall_app. split.
        -- destruct HH as [[_ HH]|(_ & _ & HH)].
           ++ eapply Forall_impl; [|exact HH]. cbn. intros q ->. now left.
           ++ eapply Forall_impl; [|exact HH]. cbn. intros q [Hq|Hq]; [now left|]. destruct R9 as [R9|R9]; [right|left]; congruence.
        -- constructor; [|constructor]. destruct R8 as [R8|[R8 _]]; [now right|now left].
  - unfold h'. cbn [lh_min]. rewrite P3, flat_map_app. cbn [flat_map]. rewrite app_nil_r, zmax0_app.
    rewrite <- (hi_min _ _ _ HI). unfold pkt_extent. rewrite Hhab, fold_extent.
    pose proof (zmax0_nonneg (flat_map pkt_extent acc)). rewrite <- (hi_min _ _ _ HI) in H.
    rewrite fold_left_max by (rewrite R6; lia). rewrite R6.
    match goal with |- context [zmax0 (?x :: ?l)] => change (zmax0 (x :: l)) with (Z.max x (zmax0 l)) end. lia.
  - exact M1.
  - unfold h'. cbn [lh_hlen lh_reserved]. exact R3.
  - apply Forall_app. split; [|constructor; [exact R4|constructor]].
    eapply Forall_impl; [|exact (hi_fit _ _ _ HI)]. cbn. unfold h'. cbn [lh_reserved]. intros q Hq. lia.
  - unfold h'. cbn [lh_mem]. apply Forall_app. split.
    + rewrite Forall_forall. intros q Hq i Hi.
      pose proof (hi_fit _ _ _ HI) as HF. rewrite Forall_forall in HF. specialize (HF q Hq). cbn in HF.
      pose proof (hi_pkts _ _ _ HI) as HP. rewrite Forall_forall in HP. specialize (HP q Hq).
      pose proof (ro_off q HP) as Hqo.
      rewrite M2 by lia.
      destruct ((rp_off p <=? rp_off q + i) && (rp_off q + i <? rp_off p + rp_plen p)) eqn:E.
      * exfalso. rewrite Forall_forall in N1. apply (N1 q Hq). exists (rp_off q + i). unfold carries. lia.
      * rewrite R5 by lia. pose proof (hi_mem _ _ _ HI) as HMM. rewrite Forall_forall in HMM. now apply HMM.
    + constructor; [|constructor]. intros i Hi. rewrite M2 by lia.
      destruct ((rp_off p <=? rp_off p + i) && (rp_off p + i <? rp_off p + rp_plen p)) eqn:E; [|lia].
      replace (rp_off p + i - rp_off p) with i by lia. rewrite znth_map.
      unfold znth. destruct (i <? 0) eqn:E0; [lia|].
      destruct (nth_error (rp_payload p) (Z.to_nat i)) as [b|] eqn:EE; [reflexivity|].
      apply nth_error_None in EE. unfold zlen in Hpp. lia.
  - unfold h'. cbn [lh_recv]. rewrite total_payload_snoc, <- (hi_recv _ _ _ HI). reflexivity.
  - apply ForallOrdPairs_snoc; [exact (hi_disj _ _ _ HI)|exact N1].
  - apply N2; reflexivity.
  - exact P1.
  - exact P2.
Qed.

Lemma added_cons_true p pkts bs : added (p :: pkts) (true :: bs) = p :: added pkts bs.
Proof. reflexivity. Qed.
Lemma added_cons_false p pkts bs : added (p :: pkts) (false :: bs) = added pkts bs.
Proof. reflexivity. Qed.

Lemma add_packets_inv ooo pkts : forall h acc,
  heap_inv ooo h acc -> Forall rpkt_ok pkts ->
  exists h' bs, add_packets h ooo pkts = Some (h', bs) /\ length bs = length pkts /\
    heap_inv ooo h' (acc ++ added pkts bs) /\ lh_cnt h' = lh_cnt h /\ lh_hab h' = lh_hab h.
Proof.
  induction pkts as [|p pkts IH]; intros h acc HI HF; cbn [add_packets].
  - exists h, []. cbn [added combine filter map]. rewrite app_nil_r. split; [reflexivity|]. split; [reflexivity|]. split; [exact HI|]. now split.
  - inversion HF as [|? ? Hp HF']; subst.
    destruct (add_packet_step ooo h acc p HI Hp) as [->|(h1 & -> & HI1 & HC & HH & _)].
    + destruct (IH h acc HI HF') as (h' & bs & -> & HL & HI' & H1 & H2).
      exists h', (false :: bs). rewrite added_cons_false. cbn [length].
      split; [reflexivity|]. split; [lia|]. split; [exact HI'|]. now split.
    + destruct (IH h1 (acc ++ [p]) HI1 HF') as (h' & bs & -> & HL & HI' & H1 & H2).
      exists h', (true :: bs). rewrite added_cons_true. rewrite <- app_assoc in HI'. cbn [length app] in *.
      split; [reflexivity|]. split; [lia|]. split; [exact HI'|]. split; congruence.
Qed.

(** ** Consequences *)
Lemma slice_of_znth {A} (l : list A) off (r : list A) :
  0 <= off -> (forall i, 0 <= i < zlen r -> znth l (off + i) = znth r i) -> slice l off (zlen r) = r.
Proof.
  intros Ho H. apply znth_ext.
  - destruct (Z.eq_dec (zlen r) 0) as [E|E]; [rewrite E, slice_zero; reflexivity|].
    pose proof (zlen_nonneg r). apply zlen_slice; try lia.
    specialize (H (zlen r - 1) ltac:(lia)). destruct (Z.le_gt_cases (off + zlen r) (zlen l)); [assumption|].
    rewrite (znth_None l) in H by lia. symmetry in H. unfold znth in H.
    destruct (zlen r - 1 <? 0) eqn:E1; [lia|]. apply nth_error_None in H. unfold zlen in *. lia.
  - intros i Hi. pose proof (zlen_slice_le l off (zlen r) (zlen_nonneg r)).
    rewrite znth_slice by lia. destruct (i <? zlen r) eqn:E; [|lia]. apply H. lia.
Qed.

Lemma inv_slice ooo h acc p :
  heap_inv ooo h acc -> In p acc -> slice (lh_mem h) (rp_off p) (rp_plen p) = map Some (rp_payload p).
Proof.
  intros HI Hin. pose proof (hi_pkts _ _ _ HI) as HP. rewrite Forall_forall in HP. specialize (HP p Hin).
  pose proof (hi_mem _ _ _ HI) as HM. rewrite Forall_forall in HM. specialize (HM p Hin).
  rewrite (ro_plen p HP) in *. rewrite <- (zlen_map Some). apply slice_of_znth; [exact (ro_off p HP)|].
  rewrite zlen_map. intros i Hi. rewrite HM by lia. rewrite znth_map.
  unfold znth. destruct (i <? 0) eqn:E; [lia|].
  destruct (nth_error (rp_payload p) (Z.to_nat i)) as [b|] eqn:EE; [reflexivity|].
  apply nth_error_None in EE. unfold zlen in Hi. lia.
Qed.

Lemma separated_filter f m : separated m -> separated (filter f m).
Proof.
  induction m as [|r m IH]; cbn [filter separated]; [trivial|]. intros (H1 & H2 & H3).
  destruct (f r); [|now apply IH]. cbn [separated]. repeat split; [exact H1| |now apply IH].
  intros q Hq. apply filter_In in Hq as [Hq _]. now apply H2.
Qed.

Definition nonempty_range (r : Z * Z) : bool := fst r <? snd r.
Lemma filter_nonempty_ranges m :
  separated m ->
  total_ranges (filter nonempty_range m) = total_ranges m /\
  forall x, in_ranges (filter nonempty_range m) x <-> in_ranges m x.
Proof.
  induction m as [|r m IH]; cbn [filter separated]; [intros _; split; [reflexivity|tauto]|]. intros (H1 & H2 & H3).
  destruct (IH H3) as [I1 I2]. change (nonempty_range r) with (fst r <? snd r). destruct (Z.ltb_spec (fst r) (snd r)).
  - unfold total_ranges in *. cbn [fold_right]. split; [lia|]. intro x. rewrite !in_ranges_cons, I2. tauto.
  - unfold total_ranges in *. cbn [fold_right]. split; [lia|]. intro x. rewrite in_ranges_cons, I2. split; [tauto|].
    intros [H'|H']; [lia|exact H'].
Qed.

(** All packets end below min_length. *)
Lemma packet_end_le_min ooo h acc p : heap_inv ooo h acc -> In p acc -> rp_off p + rp_plen p <= lh_min h.
Proof.
  intros HI Hin. rewrite (hi_min _ _ _ HI).
  pose proof (hi_pkts _ _ _ HI) as HP. rewrite Forall_forall in HP. specialize (HP p Hin).
  pose proof (ro_hlen p HP) as Hh.
  assert (HE : (if 0 <=? rp_hlen p then rp_hlen p else rp_off p + rp_plen p) <= zmax0 (flat_map pkt_extent acc)).
  { apply zmax0_ge, in_flat_map. exists p. split; [exact Hin|]. now left. }
  destruct (0 <=? rp_hlen p) eqn:E; lia.
Qed.

(** Received bytes lie in [0, min_length), and when their number is
    min_length every byte was received. *)
Lemma received_bounds ooo h acc :
  heap_inv ooo h acc ->
  lh_recv h <= lh_min h /\
  (lh_recv h = lh_min h -> forall x, 0 <= x < lh_min h -> exists p, In p acc /\ carries p x).
Proof.
  intro HI. pose proof (hi_cover _ _ _ HI) as HC.
  pose proof (hi_min _ _ _ HI) as Hm. pose proof (zmax0_nonneg (flat_map pkt_extent acc)) as Hz. rewrite <- Hm in Hz. clear Hm.
  assert (Hc : forall x, (exists p, In p acc /\ carries p x) -> 0 <= x < lh_min h).
  { intros x (p & Hin & Hx). pose proof (packet_end_le_min ooo h acc p HI Hin).
    pose proof (hi_pkts _ _ _ HI) as HP. rewrite Forall_forall in HP. specialize (HP p Hin).
    pose proof (ro_off p HP). unfold carries in Hx. lia. }
  unfold coverage in HC. destruct ooo.
  - destruct HC as (C1 & C2 & C3).
    destruct (filter_nonempty_ranges _ C1) as [F1 F2].
    assert (HR : forall r, In r (filter nonempty_range (lh_ranges h)) -> 0 <= fst r /\ snd r <= lh_min h).
    { intros r Hr. apply filter_In in Hr as [Hr Hne]. unfold nonempty_range in Hne.
      assert (0 <= fst r < lh_min h) by (apply Hc, C3; exists r; split; [exact Hr|lia]).
      assert (0 <= snd r - 1 < lh_min h) by (apply Hc, C3; exists r; split; [exact Hr|lia]). lia. }
    destruct (total_full _ 0 (lh_min h) (separated_filter _ _ C1) Hz HR) as [T1 T2].
    rewrite F1, C2 in T1, T2. split; [lia|]. intros E x Hx. apply C3, F2, T2; lia.
  - destruct HC as (C1 & C2). split.
    + destruct (Z.le_gt_cases (lh_recv h) (lh_min h)); [assumption|].
      assert (0 <= lh_recv h - 1 < lh_min h) by (apply Hc, C2; lia). lia.
    + intros E x Hx. apply C2. lia.
Qed.

(** A contiguous heap has all of [0, min_length) in initialised memory. *)
Lemma contiguous_payload ooo h acc :
  heap_inv ooo h acc -> is_contiguous h = true ->
  lh_min h <= lh_reserved h /\
  forall x, 0 <= x < lh_min h -> exists p, In p acc /\ carries p x /\ znth (lh_mem h) x = Some (znth (rp_payload p) (x - rp_off p)).
Proof.
  intros HI HC. unfold is_contiguous in HC. apply Z.eqb_eq in HC.
  destruct (received_bounds ooo h acc HI) as [_ HB]. specialize (HB HC). split.
  - pose proof (zlen_nonneg (lh_mem h)) as Hz. rewrite (hi_res _ _ _ HI) in Hz.
    destruct (Z.le_gt_cases (lh_min h) 0); [lia|].
    destruct (HB (lh_min h - 1) ltac:(lia)) as (p & Hp & Hc).
    pose proof (hi_fit _ _ _ HI) as HF. rewrite Forall_forall in HF. specialize (HF p Hp). cbn in HF.
    unfold carries in Hc. lia.
  - intros x Hx. destruct (HB x Hx) as (p & Hp & Hc). exists p. split; [exact Hp|]. split; [exact Hc|].
    pose proof (hi_mem _ _ _ HI) as HM. rewrite Forall_forall in HM. specialize (HM p Hp (x - rp_off p)).
    unfold carries in Hc. replace (rp_off p + (x - rp_off p)) with x in HM by lia. apply HM. lia.
Qed.
