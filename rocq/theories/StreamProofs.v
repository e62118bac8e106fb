(** The hash table and the slots implement a list of live heaps. *)
From Coq Require Import ZArith List Lia Bool Permutation.
From Coq Require Import ZifyBool ZifyNat.
From Verif Require Import Base CodecModel RecvPacketModel LiveHeapModel StreamModel StreamSpec.
Import ListNotations.
Open Scope Z_scope.

(** Sizes small enough for the table to be addressable. *)
Definition config_ok (c : sconfig) : Prop :=
  (0 < sc_max_heaps c)%nat /\ (0 < sc_substreams c)%nat /\ Z.of_nat (total_heaps c) <= 2 ^ 59.

(** * The bucket number is in range *)
Lemma grow_pow fuel : forall m total, 0 <= m -> total <= 2 ^ 59 ->
  exists m', grow fuel (2 ^ m) total = 2 ^ m' /\ m <= m' <= Z.max m 59.
Proof.
  induction fuel as [|fuel IH]; intros m total Hm Ht; cbn [grow].
  - exists m. split; [reflexivity|lia].
  - destruct (2 ^ m <? total) eqn:E.
    + assert (m < 59).
      { apply (Z.pow_lt_mono_r_iff 2); lia. }
      replace (2 ^ m * 2) with (2 ^ (m + 1)) by (rewrite Z.pow_add_r by lia; lia).
      destruct (IH (m + 1) total ltac:(lia) Ht) as (m' & -> & H1). exists m'. split; [reflexivity|lia].
    + exists m. split; [reflexivity|lia].
Qed.

Lemma shift_loop_pow fuel : forall k sh, 0 <= k <= Z.of_nat fuel -> shift_loop fuel (2 ^ k) sh = sh - k.
Proof.
  induction fuel as [|fuel IH]; intros k sh Hk; cbn [shift_loop].
  - replace k with 0 by lia. lia.
  - destruct (Z.eq_dec k 0) as [->|Hk0].
    + change (1 <? 2 ^ 0) with false. cbv iota. lia.
    + assert (H1 : 2 ^ 1 <= 2 ^ k) by (apply Z.pow_le_mono_r; lia).
      destruct (1 <? 2 ^ k) eqn:E; [|lia].
      replace (2 ^ k / 2) with (2 ^ (k - 1)).
      * rewrite IH by lia. lia.
      * replace k with ((k - 1) + 1) at 2 by lia. rewrite Z.pow_add_r, Z.pow_1_r by lia. now rewrite Z.div_mul by lia.
Qed.

Lemma bucket_count_pow c : config_ok c -> exists k, 4 <= k <= 61 /\ bucket_count c = 2 ^ k.
Proof.
  intros (_ & _ & H). unfold bucket_count, compute_bucket_count. change 4 with (2 ^ 2).
  destruct (grow_pow 64 2 (Z.of_nat (total_heaps c)) ltac:(lia) H) as (m & -> & Hm).
  exists (m + 2). split; [lia|]. now rewrite <- Z.pow_add_r by lia.
Qed.

Lemma get_bucket_lt c cnt : config_ok c -> (get_bucket c cnt < Z.to_nat (bucket_count c))%nat.
Proof.
  intro Hc. unfold get_bucket. destruct (bucket_count_pow c Hc) as (k & Hk & ->).
  unfold compute_bucket_shift. rewrite shift_loop_pow by lia.
  rewrite Z.shiftr_div_pow2 by lia.
  pose proof (Z.mod_pos_bound (cnt * 11400714819323198485) (2 ^ 64) ltac:(lia)) as HB.
  assert (0 < 2 ^ (64 - k)) by (apply Z.pow_pos_nonneg; lia).
  assert (HL : (cnt * 11400714819323198485) mod 2 ^ 64 / 2 ^ (64 - k) < 2 ^ k).
  { apply Z.div_lt_upper_bound; [lia|]. rewrite <- Z.pow_add_r by lia. replace (64 - k + k) with 64 by lia. lia. }
  pose proof (Z.div_pos _ (2 ^ (64 - k)) (proj1 HB) ltac:(lia)). lia.
Qed.

Lemma get_substream_lt c cnt : config_ok c -> (get_substream c cnt < sc_substreams c)%nat.
Proof.
  intros (_ & H & _). unfold get_substream.
  replace (cnt - cnt / Z.of_nat (sc_substreams c) * Z.of_nat (sc_substreams c)) with (cnt mod Z.of_nat (sc_substreams c))
    by (rewrite Z.mod_eq by lia; lia).
  pose proof (Z.mod_pos_bound cnt (Z.of_nat (sc_substreams c)) ltac:(lia)). lia.
Qed.

(** * Lists *)
Lemma length_set_nth {A} (l : list A) n x : length (set_nth l n x) = length l.
Proof. revert n. induction l as [|y l IH]; intros [|n]; cbn [set_nth length]; auto. Qed.
Lemma nth_set_nth {A} (l : list A) n x m :
  nth_error (set_nth l n x) m = if Nat.eqb m n then (if Nat.ltb n (length l) then Some x else None) else nth_error l m.
Proof.
  revert n m. induction l as [|y l IH]; intros [|n] [|m]; cbn [set_nth nth_error length]; try reflexivity.
  - cbn [Nat.eqb]. destruct (Nat.eqb m n); reflexivity.
  - rewrite IH. reflexivity.
Qed.
Lemma nth_set_same {A} (l : list A) n x : (n < length l)%nat -> nth_error (set_nth l n x) n = Some x.
Proof. intro H. rewrite nth_set_nth, Nat.eqb_refl. destruct (Nat.ltb_spec n (length l)); [reflexivity|lia]. Qed.
Lemma nth_set_other {A} (l : list A) n x m : m <> n -> nth_error (set_nth l n x) m = nth_error l m.
Proof. intro H. rewrite nth_set_nth. destruct (Nat.eqb_spec m n); [contradiction|reflexivity]. Qed.

(** * Chains *)
Fixpoint chain (E : list entry) (l : link) (is : list nat) : Prop :=
  match is with
  | [] => l = LNull
  | i :: rest => l = LEntry i /\ exists e, nth_error E i = Some e /\ chain E (en_next e) rest
  end.

Lemma chain_frame E E' is : forall l,
  (forall i, In i is -> option_map en_next (nth_error E' i) = option_map en_next (nth_error E i)) ->
  chain E l is -> chain E' l is.
Proof.
  induction is as [|i is IH]; intros l H HC; cbn [chain] in *; [exact HC|].
  destruct HC as [-> (e & He & HC)]. split; [reflexivity|].
  pose proof (H i (or_introl eq_refl)) as HE. rewrite He in HE. cbn [option_map] in HE.
  destruct (nth_error E' i) as [e'|] eqn:E1; [|discriminate]. injection HE as HE.
  exists e'. split; [reflexivity|]. rewrite HE. apply IH; [|exact HC]. intros j Hj. apply H. now right.
Qed.

Lemma chain_tail E l pre : forall i post, chain E l (pre ++ i :: post) ->
  exists e, nth_error E i = Some e /\ chain E (en_next e) post.
Proof.
  revert l. induction pre as [|j pre IH]; intros l i post HC; cbn [app chain] in HC.
  - destruct HC as [_ HC]. exact HC.
  - destruct HC as [_ (e & _ & HC)]. now apply IH in HC.
Qed.

(** The link that leads to [i] when walking from place [p]. *)
Definition place_before (p : place) (pre : list nat) : place :=
  match pre with [] => p | _ => PNext (last pre 0%nat) end.

Lemma find_prev_chain s is : forall fuel p l pre i post,
  read_place s p = Some l -> is = pre ++ i :: post -> chain (st_entries s) l is -> ~ In i pre ->
  (length pre < fuel)%nat -> find_prev fuel s p i = Some (place_before p pre).
Proof.
  induction is as [|j is IH]; intros fuel p l pre i post Hp Hs HC Hni Hf; [destruct pre; discriminate|].
  destruct fuel as [|fuel]; [lia|]. cbn [find_prev]. rewrite Hp. cbn [chain] in HC. destruct HC as [-> (e & He & HC)].
  destruct pre as [|j' pre]; cbn [app] in Hs; injection Hs as <- Hs.
  - rewrite Nat.eqb_refl. reflexivity.
  - destruct (Nat.eqb_spec j i) as [->|Hji]; [exfalso; apply Hni; now left|].
    cbn [length] in Hf. rewrite (IH fuel (PNext j) (en_next e) pre i post); try assumption.
    + destruct pre as [|k pre]; cbn [place_before]; reflexivity.
    + cbn [read_place]. now rewrite He.
    + intro H. apply Hni. now right.
    + lia.
Qed.

Lemma write_next_nth E i x j :
  nth_error (write_next E i x) j =
  match nth_error E j with
  | None => None
  | Some e => Some (if Nat.eqb j i then {| en_next := x; en_heap := en_heap e; en_uid := en_uid e |} else e)
  end.
Proof.
  unfold write_next. destruct (nth_error E i) as [e|] eqn:Ei.
  - rewrite nth_set_nth. destruct (Nat.eqb_spec j i) as [->|Hj].
    + rewrite Ei. destruct (Nat.ltb_spec i (length E)); [reflexivity|]. apply nth_error_None in H. congruence.
    + destruct (nth_error E j); reflexivity.
  - destruct (Nat.eqb_spec j i) as [->|Hj]; [now rewrite Ei|]. destruct (nth_error E j); reflexivity.
Qed.
Lemma length_write_next E i x : length (write_next E i x) = length E.
Proof. unfold write_next. destruct (nth_error E i); [apply length_set_nth|reflexivity]. Qed.

(** Unlinking from the middle of a chain. *)
Lemma chain_unlink_next E : forall pre j l i post e,
  chain E l (pre ++ j :: i :: post) -> NoDup (pre ++ j :: i :: post) -> nth_error E i = Some e ->
  chain (write_next E j (en_next e)) l (pre ++ j :: post).
Proof.
  induction pre as [|k pre IH]; intros j l i post e HC HN He.
  - cbn [app chain] in *. destruct HC as [-> (ej & Hj & _ & e' & He' & HC)]. split; [reflexivity|].
    exists {| en_next := en_next e; en_heap := en_heap ej; en_uid := en_uid ej |}.
    split; [rewrite write_next_nth, Hj, Nat.eqb_refl; reflexivity|]. cbn [en_next].
    rewrite He in He'. injection He' as <-. eapply chain_frame; [|exact HC].
    intros m Hm. rewrite write_next_nth. destruct (Nat.eqb_spec m j) as [->|Hmj].
    + exfalso. inversion HN as [|? ? H1 _]; subst. apply H1. now right.
    + destruct (nth_error E m); reflexivity.
  - cbn [app chain] in *. destruct HC as [-> (ek & Hk & HC)]. split; [reflexivity|].
    inversion HN as [|? ? H1 H2]; subst.
    exists ek. split.
    + rewrite write_next_nth, Hk. destruct (Nat.eqb_spec k j) as [->|Hkj]; [|reflexivity].
      exfalso. apply H1. apply in_or_app. right. now left.
    + eapply IH; eassumption.
Qed.

(** * Representation *)
Definition bucket_of (c : sconfig) (a : aheap) : nat := get_bucket c (lh_cnt (ah_heap a)).
Definition slots_in (c : sconfig) (b : nat) (L : list aheap) : list nat :=
  map ah_slot (filter (fun a => Nat.eqb (bucket_of c a) b) L).

Record rep (c : sconfig) (E : list entry) (B : list link) (L : list aheap) : Prop := {
  rep_lenE : length E = total_heaps c;
  rep_lenB : length B = Z.to_nat (bucket_count c);
  rep_nodup : NoDup (map ah_slot L);
  rep_in : forall a, In a L -> exists e, nth_error E (ah_slot a) = Some e /\ en_heap e = Some (ah_heap a) /\
             en_uid e = ah_uid a /\ en_next e <> LInvalid;
  rep_free : forall i e, nth_error E i = Some e -> ~ In i (map ah_slot L) -> en_next e = LInvalid /\ en_heap e = None;
  rep_chain : forall b l, nth_error B b = Some l -> chain E l (slots_in c b L)
}.

Lemma slots_in_incl c b L i : In i (slots_in c b L) -> In i (map ah_slot L).
Proof.
  unfold slots_in. intro H. apply in_map_iff in H as (a & <- & Ha). apply filter_In in Ha as [Ha _]. now apply in_map.
Qed.

Lemma NoDup_map_filter {A B} (f : A -> B) g l : NoDup (map f l) -> NoDup (map f (filter g l)).
Proof.
  induction l as [|x l IH]; cbn [map filter]; [trivial|]. intro H. inversion H as [|? ? H1 H2]; subst.
  destruct (g x); [|now apply IH]. cbn [map]. constructor; [|now apply IH].
  intro Hin. apply H1. apply in_map_iff in Hin as (y & Hy & Hy2). apply filter_In in Hy2 as [Hy2 _].
  rewrite <- Hy. now apply in_map.
Qed.

Lemma slot_unique L a a' : NoDup (map ah_slot L) -> In a L -> In a' L -> ah_slot a = ah_slot a' -> a = a'.
Proof.
  induction L as [|x L IH]; cbn [map In]; [tauto|]. intros HN H1 H2 Hs. inversion HN as [|? ? N1 N2]; subst.
  destruct H1 as [->|H1], H2 as [->|H2]; [reflexivity| | |now apply IH].
  - exfalso. apply N1. rewrite Hs. now apply in_map.
  - exfalso. apply N1. rewrite <- Hs. now apply in_map.
Qed.

Lemma slot_heap_In i L a : slot_heap i L = Some a -> In a L /\ ah_slot a = i.
Proof. intro H. apply find_some in H as [H1 H2]. split; [exact H1|]. now apply Nat.eqb_eq. Qed.
Lemma slot_heap_of L a : NoDup (map ah_slot L) -> In a L -> slot_heap (ah_slot a) L = Some a.
Proof.
  intros HN Ha. destruct (slot_heap (ah_slot a) L) as [a'|] eqn:E.
  - apply slot_heap_In in E as [E1 E2]. now rewrite (slot_unique L a' a HN E1 Ha E2).
  - unfold slot_heap in E. pose proof (find_none _ _ E a Ha) as H. unfold in_slot in H. rewrite Nat.eqb_refl in H. discriminate.
Qed.
Lemma slot_heap_None L i : slot_heap i L = None <-> ~ In i (map ah_slot L).
Proof.
  split.
  - intros H Hin. apply in_map_iff in Hin as (a & <- & Ha). pose proof (find_none _ _ H a Ha) as HX.
    unfold in_slot in HX. rewrite Nat.eqb_refl in HX. discriminate.
  - intro H. destruct (slot_heap i L) as [a|] eqn:E; [|reflexivity]. apply slot_heap_In in E as [E1 <-].
    exfalso. apply H. now apply in_map.
Qed.

Lemma in_split_nodup L (a : aheap) : In a L -> NoDup (map ah_slot L) ->
  exists l1 l2, L = l1 ++ a :: l2 /\ without_slot (ah_slot a) L = l1 ++ l2 /\
    ~ In (ah_slot a) (map ah_slot (l1 ++ l2)).
Proof.
  intros Ha HN. apply in_split in Ha as (l1 & l2 & ->). exists l1, l2. split; [reflexivity|].
  rewrite map_app in HN. cbn [map] in HN. apply NoDup_remove_2 in HN. rewrite <- map_app in HN.
  split; [|exact HN]. unfold without_slot. rewrite filter_app. cbn [filter]. unfold in_slot at 2. rewrite Nat.eqb_refl. cbn [negb].
  rewrite map_app in HN.
  assert (G : forall l, (forall b, In b l -> ah_slot b <> ah_slot a) -> filter (fun b => negb (in_slot (ah_slot a) b)) l = l).
  { induction l as [|b l IH]; intro H; cbn [filter]; [reflexivity|]. unfold in_slot at 1.
    destruct (Nat.eqb_spec (ah_slot b) (ah_slot a)) as [E|E]; [exfalso; apply (H b); [now left|exact E]|].
    cbn [negb]. now rewrite IH by (intros; apply H; now right). }
  rewrite !G; [reflexivity| |].
  - intros b Hb E. apply HN. apply in_or_app. right. rewrite <- E. now apply in_map.
  - intros b Hb E. apply HN. apply in_or_app. left. rewrite <- E. now apply in_map.
Qed.

Definition destroy_entries (E : list entry) (i : nat) : list entry :=
  match nth_error E i with
  | None => E
  | Some e => set_nth E i {| en_next := en_next e; en_heap := None; en_uid := en_uid e |}
  end.
Lemma destroy_heap_eq s i : destroy_heap s i = set_entries s (destroy_entries (st_entries s) i).
Proof. unfold destroy_heap, destroy_entries. destruct (nth_error (st_entries s) i); [reflexivity|]. destruct s; reflexivity. Qed.
Lemma destroy_nth E i j :
  nth_error (destroy_entries E i) j =
  match nth_error E j with
  | None => None
  | Some e => Some (if Nat.eqb j i then {| en_next := en_next e; en_heap := None; en_uid := en_uid e |} else e)
  end.
Proof.
  unfold destroy_entries. destruct (nth_error E i) as [e|] eqn:Ei.
  - rewrite nth_set_nth. destruct (Nat.eqb_spec j i) as [->|Hj].
    + rewrite Ei. destruct (Nat.ltb_spec i (length E)); [reflexivity|]. apply nth_error_None in H. congruence.
    + destruct (nth_error E j); reflexivity.
  - destruct (Nat.eqb_spec j i) as [->|Hj]; [now rewrite Ei|]. destruct (nth_error E j); reflexivity.
Qed.
Lemma length_destroy E i : length (destroy_entries E i) = length E.
Proof. unfold destroy_entries. destruct (nth_error E i); [apply length_set_nth|reflexivity]. Qed.

Lemma filter_length_le {A} (f : A -> bool) l : (length (filter f l) <= length l)%nat.
Proof. induction l as [|x l IH]; cbn [filter length]; [lia|]. destruct (f x); cbn [length]; lia. Qed.

Lemma live_length c E B L : rep c E B L -> (length L <= length E)%nat.
Proof.
  intro R. rewrite <- (map_length ah_slot L).
  assert (HI : incl (map ah_slot L) (seq 0 (length E))).
  { intros i Hi. apply in_map_iff in Hi as (a & <- & Ha). destruct (rep_in _ _ _ _ R a Ha) as (e & He & _).
    apply in_seq. assert (ah_slot a < length E)%nat by (apply nth_error_Some; congruence). lia. }
  pose proof (NoDup_incl_length (rep_nodup _ _ _ _ R) HI) as H. rewrite seq_length in H. exact H.
Qed.

(** Unlinking a live heap and destroying it removes it from the list. *)
Lemma unlink_rep c s L a :
  config_ok c -> rep c (st_entries s) (st_buckets s) L -> In a L ->
  exists E1 B1, unlink_entry c s (ah_slot a) = Some (set_entries (set_buckets s B1) E1) /\
    rep c (destroy_entries E1 (ah_slot a)) B1 (without_slot (ah_slot a) L).
Proof.
  intros Hc R Ha. destruct (rep_in _ _ _ _ R a Ha) as (e & He & Hh & Hu & Hn).
  set (i := ah_slot a) in *. set (b := get_bucket c (lh_cnt (ah_heap a))).
  assert (Hb : (b < length (st_buckets s))%nat) by (rewrite (rep_lenB _ _ _ _ R); now apply get_bucket_lt).
  destruct (nth_error (st_buckets s) b) as [l|] eqn:El; [|apply nth_error_None in El; lia].
  pose proof (rep_chain _ _ _ _ R b l El) as HC.
  destruct (in_split_nodup L a Ha (rep_nodup _ _ _ _ R)) as (L1 & L2 & EL & EW & Hni). fold i in EW, Hni.
  set (P := slots_in c b L1). set (Q := slots_in c b L2).
  assert (ES : slots_in c b L = P ++ i :: Q).
  { unfold P, Q, slots_in. rewrite EL, filter_app, map_app. cbn [filter]. unfold bucket_of at 2. fold b. rewrite Nat.eqb_refl. reflexivity. }
  assert (EWs : slots_in c b (L1 ++ L2) = P ++ Q) by (unfold P, Q, slots_in; now rewrite filter_app, map_app).
  assert (HND : NoDup (slots_in c b L)) by (apply NoDup_map_filter; exact (rep_nodup _ _ _ _ R)).
  rewrite ES in HC, HND.
  assert (HNP : ~ In i P).
  { apply NoDup_remove_2 in HND. intro H. apply HND. apply in_or_app. now left. }
  assert (HLenP : (length P < S (length (st_entries s)))%nat).
  { unfold P, slots_in. rewrite map_length. pose proof (filter_length_le (fun a => Nat.eqb (bucket_of c a) b) L1).
    pose proof (live_length _ _ _ _ R) as HLL. rewrite EL, app_length in HLL. lia. }
  assert (HFP : find_prev (S (length (st_entries s))) s (PBucket b) i = Some (place_before (PBucket b) P)).
  { eapply find_prev_chain; [exact El|reflexivity|exact HC|exact HNP|exact HLenP]. }
  assert (HUn : unlink_entry c s i =
    Some (let s1 := write_place s (place_before (PBucket b) P) (en_next e) in set_entries s1 (write_next (st_entries s1) i LInvalid))).
  { unfold unlink_entry. rewrite He. destruct e as [n h u]; cbn [en_next en_heap en_uid] in *. subst h. fold b. rewrite HFP.
    destruct n; [contradiction| |]; reflexivity. }
  destruct (chain_tail _ _ _ _ _ HC) as (e' & He' & HQ). rewrite He in He'. injection He' as <-.
  (* the entries and buckets after unlinking *)
  set (E0 := match P with [] => st_entries s | _ => write_next (st_entries s) (last P 0%nat) (en_next e) end).
  set (B1 := match P with [] => set_nth (st_buckets s) b (en_next e) | _ => st_buckets s end).
  exists (write_next E0 i LInvalid), B1. split.
  { rewrite HUn. f_equal. unfold E0, B1. destruct P as [|x P]; cbn [place_before write_place]; destruct s; reflexivity. }
  assert (HE0 : forall j, option_map (fun x => (en_heap x, en_uid x)) (nth_error E0 j) =
                          option_map (fun x => (en_heap x, en_uid x)) (nth_error (st_entries s) j)).
  { intro j. unfold E0. destruct P; [reflexivity|]. rewrite write_next_nth. destruct (nth_error (st_entries s) j); [|reflexivity].
    destruct (Nat.eqb j _); reflexivity. }
  assert (HE0n : forall j, ~ (exists x P', P = x :: P' /\ j = last P 0%nat) -> nth_error E0 j = nth_error (st_entries s) j).
  { intros j Hj. unfold E0. destruct P as [|x P'] eqn:EP; [reflexivity|]. rewrite write_next_nth. destruct (nth_error (st_entries s) j); [|reflexivity].
    destruct (Nat.eqb_spec j (last (x :: P') 0%nat)) as [E|E]; [|reflexivity]. exfalso. apply Hj. eauto. }
  assert (HlastP : forall x P', P = x :: P' -> In (last P 0%nat) P).
  { intros x P' ->. destruct (exists_last (l := x :: P') ltac:(discriminate)) as (q & y & Ey). rewrite Ey, last_last. apply in_or_app. right. now left. }
  assert (HE1 : forall j, nth_error (destroy_entries (write_next E0 i LInvalid) i) j =
     match nth_error E0 j with None => None | Some x => Some (if Nat.eqb j i then {| en_next := LInvalid; en_heap := None; en_uid := en_uid x |} else x) end).
  { intro j. rewrite destroy_nth, write_next_nth. destruct (nth_error E0 j) as [x|]; [|reflexivity]. destruct (Nat.eqb j i); reflexivity. }
  rewrite EW. constructor.
  - rewrite length_destroy, length_write_next. unfold E0. destruct P; rewrite ?length_write_next; exact (rep_lenE _ _ _ _ R).
  - unfold B1. destruct P; rewrite ?length_set_nth; exact (rep_lenB _ _ _ _ R).
  - pose proof (rep_nodup _ _ _ _ R) as HN. rewrite EL, map_app in HN. cbn [map] in HN. apply NoDup_remove_1 in HN. now rewrite map_app.
  - intros a' Ha'. assert (Ha'L : In a' L).
    { rewrite EL. apply in_app_or in Ha' as [H|H]; apply in_or_app; [now left|right; now right]. }
    assert (Hneq : ah_slot a' <> i).
    { intro E. apply Hni. rewrite <- E. now apply in_map. }
    destruct (rep_in _ _ _ _ R a' Ha'L) as (x & Hx & X1 & X2 & X3).
    pose proof (HE0 (ah_slot a')) as HZ. rewrite Hx in HZ. cbn [option_map] in HZ.
    destruct (nth_error E0 (ah_slot a')) as [y|] eqn:Ey; [|discriminate]. injection HZ as Z1 Z2.
    exists y. rewrite HE1, Ey. destruct (Nat.eqb_spec (ah_slot a') i); [contradiction|].
    split; [reflexivity|]. split; [congruence|]. split; [congruence|].
    unfold E0 in Ey. destruct P as [|p0 P'] eqn:EP; [rewrite Hx in Ey; injection Ey as <-; exact X3|].
    rewrite write_next_nth, Hx in Ey. injection Ey as <-. destruct (Nat.eqb (ah_slot a') _); [exact Hn|exact X3].
  - intros j x Hx Hj. rewrite HE1 in Hx. destruct (nth_error E0 j) as [y|] eqn:Ey; [|discriminate]. injection Hx as <-.
    destruct (Nat.eqb_spec j i) as [->|Hji]; [split; reflexivity|].
    assert (HjL : ~ In j (map ah_slot L)).
    { rewrite EL, map_app. cbn [map]. rewrite map_app in Hj. intro H. apply Hj. apply in_app_or in H as [H|[H|H]];
        [apply in_or_app; now left|exfalso; apply Hji; symmetry; exact H|apply in_or_app; now right]. }
    rewrite HE0n in Ey; [now apply (rep_free _ _ _ _ R j)|].
    intros (p0 & P' & EP & Ej). apply HjL. apply (slots_in_incl c b). rewrite ES. apply in_or_app. left. rewrite Ej. eapply HlastP; exact EP.
  - intros b' l' Hl'.
    destruct (Nat.eq_dec b' b) as [->|Hbb].
    + rewrite EWs.
      apply (chain_frame E0).
      { intros j Hj. rewrite HE1. destruct (nth_error E0 j) as [y|]; [|reflexivity]. destruct (Nat.eqb_spec j i) as [->|]; [|reflexivity].
        exfalso. apply NoDup_remove_2 in HND. now apply HND. }
      unfold E0, B1 in *. destruct P as [|p0 P'] eqn:EP.
      * rewrite nth_set_same in Hl' by exact Hb. injection Hl' as <-. exact HQ.
      * rewrite El in Hl'. injection Hl' as <-.
        destruct (exists_last (l := p0 :: P') ltac:(discriminate)) as (P0 & j & EP0). rewrite EP0 in *. rewrite last_last.
        rewrite <- app_assoc in HC, HND |- *. cbn [app] in *.
        eapply chain_unlink_next; [exact HC|exact HND|exact He].
    + assert (EB : nth_error (st_buckets s) b' = Some l').
      { unfold B1 in Hl'. destruct P; [rewrite nth_set_other in Hl' by exact Hbb|]; exact Hl'. }
      pose proof (rep_chain _ _ _ _ R b' l' EB) as HC'.
      assert (ES' : slots_in c b' L = slots_in c b' (L1 ++ L2)).
      { unfold slots_in. rewrite EL, !filter_app. cbn [filter]. unfold bucket_of at 2. fold b.
        destruct (Nat.eqb_spec b b'); [congruence|reflexivity]. }
      rewrite ES' in HC'. eapply chain_frame; [|exact HC'].
      intros j Hj. rewrite HE1.
      assert (Hjn : j <> i) by (intros ->; apply Hni; now apply (slots_in_incl c b')).
      assert (Hj0 : nth_error E0 j = nth_error (st_entries s) j).
      { apply HE0n. intros (p0 & P' & EP & Ej).
        assert (HjP : In j P) by (rewrite Ej; eapply HlastP; exact EP).
        unfold P, slots_in in HjP. apply in_map_iff in HjP as (a1 & A1 & A2). apply filter_In in A2 as [A2 A3].
        unfold slots_in in Hj. apply in_map_iff in Hj as (a2 & C1 & C2). apply filter_In in C2 as [C2 C3].
        assert (a1 = a2).
        { apply (slot_unique L); [exact (rep_nodup _ _ _ _ R)| | |congruence].
          - rewrite EL. apply in_or_app. now left.
          - rewrite EL. apply in_app_or in C2 as [C2|C2]; apply in_or_app; [now left|right; now right]. }
        subst a2. apply Nat.eqb_eq in A3, C3. congruence. }
      rewrite Hj0. destruct (nth_error (st_entries s) j) as [y|]; [|reflexivity].
      destruct (Nat.eqb_spec j i); [contradiction|reflexivity].
Qed.

(** * Substream rings *)
Record subs_ok (c : sconfig) (subs : list (nat * nat)) : Prop := {
  so_len : length subs = S (sc_substreams c);
  so_start : forall k x, nth_error subs k = Some x -> fst x = (k * sc_max_heaps c)%nat;
  so_head : forall k x, (k < sc_substreams c)%nat -> nth_error subs k = Some x ->
              (k * sc_max_heaps c <= snd x < S k * sc_max_heaps c)%nat
}.

Lemma subs_ok_new c : config_ok c -> subs_ok c (st_subs (stream_new c)).
Proof.
  intros (Hm & _ & _). cbn [stream_new st_subs]. 
  assert (G : forall k x, nth_error (map (fun i => ((i * sc_max_heaps c)%nat, (i * sc_max_heaps c)%nat)) (seq 0 (sc_substreams c + 1))) k = Some x ->
     x = ((k * sc_max_heaps c)%nat, (k * sc_max_heaps c)%nat)).
  { intros k x H. rewrite nth_error_map in H. destruct (nth_error (seq 0 (sc_substreams c + 1)) k) as [j|] eqn:E; [|discriminate].
    cbn [option_map] in H. injection H as <-.
    assert (k < sc_substreams c + 1)%nat by (rewrite <- (seq_length (sc_substreams c + 1) 0); apply nth_error_Some; congruence).
    rewrite (nth_error_nth' (seq 0 (sc_substreams c + 1)) 0%nat) in E by (now rewrite seq_length).
    rewrite seq_nth in E by assumption. injection E as <-. reflexivity. }
  constructor.
  - rewrite map_length, seq_length. lia.
  - intros k x H. now rewrite (G k x H).
  - intros k x Hk H. rewrite (G k x H). cbn [snd]. lia.
Qed.

Lemma next_head_ok c subs k : subs_ok c subs -> (k < sc_substreams c)%nat -> (0 < sc_max_heaps c)%nat ->
  exists i, next_head subs k = Some ((k * sc_max_heaps c)%nat, i) /\
    (k * sc_max_heaps c <= i < S k * sc_max_heaps c)%nat /\ (i < total_heaps c)%nat /\
    subs_ok c (set_nth subs k ((k * sc_max_heaps c)%nat, i)) /\
    nth_error (set_nth subs k ((k * sc_max_heaps c)%nat, i)) k = Some ((k * sc_max_heaps c)%nat, i) /\
    exists h, nth_error subs k = Some ((k * sc_max_heaps c)%nat, h) /\
      i = (if Nat.eqb (S h) (S k * sc_max_heaps c) then k * sc_max_heaps c else S h)%nat.
Proof.
  intros [HL HS HH] Hk Hm. unfold next_head.
  destruct (nth_error subs k) as [[st hd]|] eqn:E1; [|apply nth_error_None in E1; lia].
  destruct (nth_error subs (S k)) as [[st' hd']|] eqn:E2; [|apply nth_error_None in E2; lia].
  pose proof (HS _ _ E1) as S1. pose proof (HS _ _ E2) as S2. pose proof (HH _ _ Hk E1) as H1.
  cbn [fst snd] in *. subst st st'.
  set (i := if Nat.eqb (S hd) (S k * sc_max_heaps c) then (k * sc_max_heaps c)%nat else S hd).
  assert (Hi : (k * sc_max_heaps c <= i < S k * sc_max_heaps c)%nat).
  { unfold i. destruct (Nat.eqb_spec (S hd) (S k * sc_max_heaps c)); lia. }
  exists i. split; [reflexivity|]. split; [exact Hi|]. split.
  { unfold total_heaps. assert (S k * sc_max_heaps c <= sc_substreams c * sc_max_heaps c)%nat by (apply Nat.mul_le_mono_r; lia). lia. }
  split.
  { constructor.
    - now rewrite length_set_nth.
    - intros j x Hj. destruct (Nat.eq_dec j k) as [->|Hjk].
      + rewrite nth_set_same in Hj by lia. injection Hj as <-. reflexivity.
      + rewrite nth_set_other in Hj by exact Hjk. now apply HS.
    - intros j x Hjs Hj. destruct (Nat.eq_dec j k) as [->|Hjk].
      + rewrite nth_set_same in Hj by lia. injection Hj as <-. exact Hi.
      + rewrite nth_set_other in Hj by exact Hjk. now apply HH. }
  split; [rewrite nth_set_same by lia; reflexivity|]. exists hd. split; reflexivity.
Qed.

(** * Refinement *)
Record refines (c : sconfig) (s : stream) (a : astream) : Prop := {
  rf_rep : rep c (st_entries s) (st_buckets s) (as_live a);
  rf_subs : st_subs s = as_subs a;
  rf_stopped : st_stopped s = as_stopped a;
  rf_stats : st_stats s = as_stats a;
  rf_hist : st_hist s = as_hist a;
  rf_out : st_out s = as_out a;
  rf_dropped : st_dropped s = as_dropped a;
  rf_log : st_log s = as_log a
}.

Lemma nth_error_repeat {A} (x : A) n i y : nth_error (repeat x n) i = Some y -> y = x.
Proof. intro H. apply nth_error_In in H. now apply repeat_spec in H. Qed.

Lemma refines_new c : config_ok c -> refines c (stream_new c) (astream_new c).
Proof.
  intro Hc. constructor; try reflexivity. cbn [stream_new st_entries st_buckets astream_new as_live]. constructor.
  - apply repeat_length.
  - apply repeat_length.
  - constructor.
  - intros a [].
  - intros i e He _. apply nth_error_repeat in He. subst e. split; reflexivity.
  - intros b l Hl. apply nth_error_repeat in Hl. subst l. reflexivity.
Qed.

Lemma rep_slot c E B L i e : rep c E B L -> nth_error E i = Some e ->
  match slot_heap i L with
  | None => en_next e = LInvalid /\ en_heap e = None
  | Some a => en_next e <> LInvalid /\ en_heap e = Some (ah_heap a) /\ en_uid e = ah_uid a /\ In a L /\ ah_slot a = i
  end.
Proof.
  intros R He. destruct (slot_heap i L) as [a|] eqn:Es.
  - apply slot_heap_In in Es as [Ha Hi]. destruct (rep_in _ _ _ _ R a Ha) as (e' & He' & H1 & H2 & H3).
    rewrite Hi, He in He'. injection He' as <-. auto.
  - apply slot_heap_None in Es. now apply (rep_free _ _ _ _ R i).
Qed.

(** The step common to eviction and flushing. *)
Lemma eject_refines c s a why i :
  config_ok c -> refines c s a -> (i < total_heaps c)%nat ->
  exists e, nth_error (st_entries s) i = Some e /\
  match en_next e with
  | LInvalid => a_eject a why i = (a, 0)
  | _ => exists s' a', eject c s why i = Some s' /\ a_eject a why i = (a', 1) /\ refines c s' a'
  end.
Proof.
  intros Hc R Hi. pose proof (rf_rep _ _ _ R) as RP.
  destruct (nth_error (st_entries s) i) as [e|] eqn:He; [|apply nth_error_None in He; rewrite (rep_lenE _ _ _ _ RP) in He; lia].
  exists e. split; [reflexivity|]. pose proof (rep_slot _ _ _ _ _ _ RP He) as HS. unfold a_eject.
  destruct (slot_heap i (as_live a)) as [x|] eqn:Ex.
  - destruct HS as (H1 & H2 & H3 & H4 & H5). subst i.
    destruct (unlink_rep c s (as_live a) x Hc RP H4) as (E1 & B1 & HU & HR).
    assert (HJ : eject c s why (ah_slot x) =
      Some (set_entries (heap_ready (set_entries (set_buckets s B1) E1) (ah_uid x) why (ah_heap x)) (destroy_entries E1 (ah_slot x)))).
    { unfold eject. rewrite He. destruct e as [n h u]; cbn [en_next en_heap en_uid] in *. subst h u. rewrite HU.
      rewrite destroy_heap_eq. reflexivity. }
    assert (HG : exists s' a', eject c s why (ah_slot x) = Some s' /\
       (a_ready (a_set_live a (without_slot (ah_slot x) (as_live a))) (ah_uid x) why (ah_heap x), 1) = (a', 1) /\ refines c s' a').
    { eexists. eexists. split; [exact HJ|]. split; [reflexivity|].
      constructor; cbn [set_entries heap_ready set_buckets st_entries st_buckets st_subs st_stopped st_stats st_hist st_out st_dropped st_log
        a_ready a_set_live as_live as_subs as_stopped as_stats as_hist as_out as_dropped as_log]; try (apply R).
      - exact HR.
      - now rewrite (rf_out _ _ _ R). }
    destruct (en_next e); [contradiction|exact HG|exact HG].
  - destruct HS as (-> & _). reflexivity.
Qed.

(** Linking a new heap into a free slot. *)
Lemma link_rep c E B L i h u first :
  config_ok c -> rep c E B L -> (i < length E)%nat -> ~ In i (map ah_slot L) ->
  nth_error B (get_bucket c (lh_cnt h)) = Some first ->
  rep c (set_nth E i {| en_next := first; en_heap := Some h; en_uid := u |}) (set_nth B (get_bucket c (lh_cnt h)) (LEntry i))
    ({| ah_slot := i; ah_uid := u; ah_heap := h |} :: L).
Proof.
  intros Hc R Hi Hni Hf. set (b := get_bucket c (lh_cnt h)) in *.
  assert (Hb : (b < length B)%nat) by (apply nth_error_Some; congruence).
  pose proof (rep_chain _ _ _ _ R b first Hf) as HCf.
  assert (Hfr : first <> LInvalid).
  { destruct (slots_in c b L) as [|j r]; cbn [chain] in HCf; [subst first; discriminate|]. destruct HCf as [-> _]. discriminate. }
  assert (FR : forall l b', chain E l (slots_in c b' L) -> chain (set_nth E i {| en_next := first; en_heap := Some h; en_uid := u |}) l (slots_in c b' L)).
  { intros l b'. apply chain_frame. intros j Hj. rewrite nth_set_other; [reflexivity|].
    intros ->. apply Hni. now apply (slots_in_incl c b'). }
  constructor.
  - rewrite length_set_nth. apply (rep_lenE _ _ _ _ R).
  - rewrite length_set_nth. apply (rep_lenB _ _ _ _ R).
  - cbn [map ah_slot]. constructor; [exact Hni|exact (rep_nodup _ _ _ _ R)].
  - intros a [<-|Ha]; cbn [ah_slot ah_heap ah_uid].
    + eexists. split; [apply nth_set_same; exact Hi|]. cbn. auto.
    + destruct (rep_in _ _ _ _ R a Ha) as (e & He & H1). exists e. split; [|exact H1].
      rewrite nth_set_other; [exact He|]. intro E1. apply Hni. rewrite <- E1. now apply in_map.
  - intros j e He Hj. cbn [map ah_slot In] in Hj. rewrite nth_set_other in He by (intros ->; apply Hj; now left).
    apply (rep_free _ _ _ _ R j); [exact He|]. intro Hj'. apply Hj. now right.
  - intros b' l Hl. unfold slots_in. cbn [filter]. unfold bucket_of at 1. cbn [ah_heap]. fold b.
    destruct (Nat.eqb_spec b b') as [<-|Hbb].
    + rewrite nth_set_same in Hl by exact Hb. injection Hl as <-. cbn [map ah_slot chain]. split; [reflexivity|].
      eexists. split; [apply nth_set_same; exact Hi|]. cbn [en_next]. now apply FR.
    + rewrite nth_set_other in Hl by congruence. apply FR. now apply (rep_chain _ _ _ _ R).
Qed.

Lemma without_not_in i L : ~ In i (map ah_slot (without_slot i L)).
Proof.
  intro H. apply in_map_iff in H as (a & Ha & Hin). apply filter_In in Hin as [_ Hin]. unfold in_slot in Hin.
  rewrite Ha, Nat.eqb_refl in Hin. discriminate.
Qed.

Lemma new_entry_refines c s a p :
  config_ok c -> refines c s a -> subs_ok c (as_subs a) ->
  exists s' a' i n, new_entry c s p = Some (s', i, n) /\ a_new_entry c a p = Some (a', i, n) /\ refines c s' a'.
Proof.
  intros Hc R HS. pose proof (get_substream_lt c (rp_cnt p) Hc) as Hk. set (k := get_substream c (rp_cnt p)) in *.
  destruct (next_head_ok c (as_subs a) k HS Hk (proj1 Hc)) as (i & HN & Hi & Hit & HS' & _ & _).
  unfold new_entry, a_new_entry. fold k. rewrite HN.
  unfold next_head in HN. rewrite (rf_subs _ _ _ R).
  destruct (nth_error (as_subs a) k) as [[st hd]|] eqn:E1; [|discriminate].
  destruct (nth_error (as_subs a) (S k)) as [[st' hd']|] eqn:E2; [|discriminate].
  assert (HN1 : (if Nat.eqb (S hd) st' then st else S hd) = i) by congruence.
  assert (HN2 : st = (k * sc_max_heaps c)%nat) by congruence. rewrite HN1. clear HN HN1. subst st.
  set (subs' := set_nth (as_subs a) k ((k * sc_max_heaps c)%nat, i)) in *.
  set (s1 := set_subs s subs'). set (a1 := a_set_subs a subs').
  assert (R1 : refines c s1 a1).
  { constructor; cbn; try apply R. reflexivity. }
  destruct (eject_refines c s1 a1 Evicted i Hc R1 Hit) as (e & He & HE). rewrite He.
  assert (G : exists s2 a2 n, (match en_next e with LInvalid => Some (s1, 0) | _ => option_map (fun s2 => (s2, 1)) (eject c s1 Evicted i) end) = Some (s2, n)
    /\ a_eject a1 Evicted i = (a2, n) /\ refines c s2 a2 /\ ~ In i (map ah_slot (as_live a2))).
  { assert (HA : ~ In i (map ah_slot (as_live (fst (a_eject a1 Evicted i))))).
    { unfold a_eject. destruct (slot_heap i (as_live a1)) as [x|] eqn:Ex; cbn [fst]; [apply without_not_in|now apply slot_heap_None]. }
    destruct (en_next e); [exists s1, a1, 0|destruct HE as (s' & a' & J1 & J2 & J3); exists s', a', 1|destruct HE as (s' & a' & J1 & J2 & J3); exists s', a', 1].
    - rewrite HE in *. split; [reflexivity|]. split; [reflexivity|]. split; [exact R1|exact HA].
    - rewrite J1, J2 in *. split; [reflexivity|]. split; [reflexivity|]. split; [exact J3|exact HA].
    - rewrite J1, J2 in *. split; [reflexivity|]. split; [reflexivity|]. split; [exact J3|exact HA]. }
  destruct G as (s2 & a2 & n & -> & -> & R2 & Hni).
  pose proof (rf_rep _ _ _ R2) as RP.
  assert (Hb : (get_bucket c (rp_cnt p) < length (st_buckets s2))%nat) by (rewrite (rep_lenB _ _ _ _ RP); now apply get_bucket_lt).
  destruct (nth_error (st_buckets s2) (get_bucket c (rp_cnt p))) as [first|] eqn:Ef; [|apply nth_error_None in Ef; lia].
  eexists. eexists. exists i, n. split; [reflexivity|]. split; [reflexivity|].
  constructor; cbn [set_entries add_hist set_buckets st_entries st_buckets st_subs st_stopped st_stats st_hist st_out st_dropped st_log
        a_add_hist a_set_live as_live as_subs as_stopped as_stats as_hist as_out as_dropped as_log]; try apply R2.
  - rewrite (rf_hist _ _ _ R2). apply (link_rep c _ _ _ i (live_heap_new p) (length (as_hist a2)) first Hc RP); try assumption.
    rewrite (rep_lenE _ _ _ _ RP). exact Hit.
  - now rewrite (rf_hist _ _ _ R2).
Qed.

(** Changing the heap in a slot, with the same heap count. *)
Lemma set_heap_rep c E B L i a h e :
  rep c E B L -> slot_heap i L = Some a -> lh_cnt h = lh_cnt (ah_heap a) -> nth_error E i = Some e ->
  rep c (set_nth E i {| en_next := en_next e; en_heap := Some h; en_uid := en_uid e |}) B (with_heap i h L).
Proof.
  intros R Ha Hc He. apply slot_heap_In in Ha as [Ha Hi]. pose proof (rep_slot _ _ _ _ _ _ R He) as HS.
  assert (Hlen : (i < length E)%nat) by (apply nth_error_Some; congruence).
  assert (EM : map ah_slot (with_heap i h L) = map ah_slot L).
  { unfold with_heap. rewrite map_map. apply map_ext. intro x. destruct (in_slot i x); reflexivity. }
  assert (EB : forall b, slots_in c b (with_heap i h L) = slots_in c b L).
  { intro b. unfold slots_in, with_heap.
    assert (G : forall l, (forall x, In x l -> In x L) ->
       map ah_slot (filter (fun a => Nat.eqb (bucket_of c a) b) (map (fun a0 => if in_slot i a0 then {| ah_slot := ah_slot a0; ah_uid := ah_uid a0; ah_heap := h |} else a0) l))
       = map ah_slot (filter (fun a => Nat.eqb (bucket_of c a) b) l)).
    { induction l as [|x l IH]; intro Hl; [reflexivity|]. cbn [map filter].
      assert (Hx : bucket_of c (if in_slot i x then {| ah_slot := ah_slot x; ah_uid := ah_uid x; ah_heap := h |} else x) = bucket_of c x).
      { destruct (in_slot i x) eqn:Ex; [|reflexivity]. apply Nat.eqb_eq in Ex.
        assert (x = a) by (apply (slot_unique L); [exact (rep_nodup _ _ _ _ R)|apply Hl; now left|exact Ha|congruence]).
        subst x. unfold bucket_of. cbn [ah_heap]. now rewrite Hc. }
      rewrite Hx. specialize (IH (fun y Hy => Hl y (or_intror Hy))).
      destruct (Nat.eqb (bucket_of c x) b); [|exact IH]. cbn [map]. rewrite IH. f_equal. destruct (in_slot i x); reflexivity. }
    apply G. trivial. }
  constructor.
  - rewrite length_set_nth. apply (rep_lenE _ _ _ _ R).
  - apply (rep_lenB _ _ _ _ R).
  - rewrite EM. apply (rep_nodup _ _ _ _ R).
  - intros x Hx. unfold with_heap in Hx. apply in_map_iff in Hx as (y & <- & Hy). unfold in_slot.
    destruct (rep_in _ _ _ _ R y Hy) as (e' & He' & H1 & H2 & H3).
    destruct (Nat.eqb_spec (ah_slot y) i) as [Ey|Ey]; cbn [ah_slot ah_uid ah_heap].
    + rewrite Ey in *. rewrite He in He'. injection He' as <-. eexists. split; [apply nth_set_same; exact Hlen|]. cbn. auto.
    + exists e'. rewrite nth_set_other by exact Ey. auto.
  - intros j x Hx Hj. rewrite EM in Hj. assert (j <> i) by (intros ->; apply Hj; rewrite <- Hi; now apply in_map).
    rewrite nth_set_other in Hx by assumption. now apply (rep_free _ _ _ _ R j).
  - intros b l Hl. rewrite EB. eapply chain_frame; [|exact (rep_chain _ _ _ _ R b l Hl)].
    intros j Hj. destruct (Nat.eq_dec j i) as [->|Hji].
    + rewrite nth_set_same by exact Hlen. now rewrite He.
    + now rewrite nth_set_other.
Qed.

Lemma add_packet_cnt h p ooo h' : add_packet h p ooo = Added h' -> lh_cnt h' = lh_cnt h.
Proof.
  unfold add_packet. destruct (inconsistent h p); [discriminate|]. destruct (new_packet h p ooo); [|discriminate].
  destruct (reserve_for h p) as [[[[hl ml] mem] res]|]; [|discriminate]. destruct (add_pointers _ _ _); [|discriminate].
  destruct (0 <? rp_plen p).
  - destruct (mem_write _ _ _); [|discriminate]. intro H. injection H as <-. reflexivity.
  - intro H. injection H as <-. reflexivity.
Qed.

Lemma without_with i h L : without_slot i (with_heap i h L) = without_slot i L.
Proof.
  unfold without_slot, with_heap. induction L as [|x L IH]; [reflexivity|]. cbn [map filter].
  assert (E : in_slot i (if in_slot i x then {| ah_slot := ah_slot x; ah_uid := ah_uid x; ah_heap := h |} else x) = in_slot i x).
  { destruct (in_slot i x) eqn:Ex; [exact Ex|exact Ex]. }
  rewrite E, IH. destruct (in_slot i x); reflexivity.
Qed.

Lemma feed_refines c s a b i p :
  config_ok c -> refines c s a -> slot_heap i (as_live a) <> None ->
  (forall x, slot_heap i (as_live a) = Some x -> add_packet (ah_heap x) p (sc_allow_ooo c) <> Fault) ->
  exists s' a' b' r, feed_entry c s b i p = Some (s', b', r) /\ a_feed c a b i p = Some (a', b', r) /\ refines c s' a'.
Proof.
  intros Hc R Hs HF. destruct (slot_heap i (as_live a)) as [x|] eqn:Ex; [|contradiction]. specialize (HF x eq_refl).
  pose proof (rf_rep _ _ _ R) as RP. pose proof (slot_heap_In _ _ _ Ex) as [Hx Hxi].
  destruct (rep_in _ _ _ _ RP x Hx) as (e & He & H1 & H2 & H3). rewrite Hxi in He.
  unfold feed_entry, a_feed. rewrite Ex, He. destruct e as [n hh u]; cbn [en_next en_heap en_uid] in *. subst hh u.
  destruct (add_packet (ah_heap x) p (sc_allow_ooo c)) as [| |h'] eqn:EA; [contradiction| |].
  - eexists. eexists. eexists. eexists. split; [reflexivity|]. split; [reflexivity|].
    constructor; cbn; try apply R. now rewrite (rf_log _ _ _ R).
  - pose proof (add_packet_cnt _ _ _ _ EA) as Hcnt.
    pose proof (set_heap_rep c _ _ _ i x h' _ RP Ex Hcnt He) as R'. cbn [en_next en_uid] in R'.
    set (s1 := add_log (set_heap s i h') (ah_uid x) p true).
    assert (Es1 : s1 = add_log (set_entries s (set_nth (st_entries s) i {| en_next := n; en_heap := Some h'; en_uid := ah_uid x |})) (ah_uid x) p true).
    { unfold s1, set_heap. now rewrite He. }
    destruct (is_complete h') eqn:EC.
    + set (x' := {| ah_slot := i; ah_uid := ah_uid x; ah_heap := h' |}).
      assert (Hx' : In x' (with_heap i h' (as_live a))).
      { unfold with_heap. apply in_map_iff. exists x. split; [|exact Hx]. unfold in_slot. rewrite Hxi, Nat.eqb_refl. reflexivity. }
      destruct (unlink_rep c s1 (with_heap i h' (as_live a)) x' Hc) as (E1 & B1 & HU & HR); [rewrite Es1; exact R'|exact Hx'|].
      cbn [x' ah_slot] in HU, HR. rewrite HU. rewrite without_with in HR.
      eexists. eexists. eexists. eexists. split; [reflexivity|]. split; [reflexivity|].
      rewrite destroy_heap_eq, Es1.
      destruct (sc_stop_item c && lh_eos h');
        constructor; cbn [set_entries heap_ready drop_heap add_log set_buckets st_entries st_buckets st_subs st_stopped st_stats st_hist st_out st_dropped st_log
        a_ready a_drop a_add_log a_set_live as_live as_subs as_stopped as_stats as_hist as_out as_dropped as_log]; try (apply R); try exact HR.
      * now rewrite (rf_dropped _ _ _ R).
      * now rewrite (rf_log _ _ _ R).
      * now rewrite (rf_out _ _ _ R).
      * now rewrite (rf_log _ _ _ R).
    + eexists. eexists. eexists. eexists. split; [reflexivity|]. split; [reflexivity|].
      rewrite Es1. constructor; cbn [set_entries add_log st_entries st_buckets st_subs st_stopped st_stats st_hist st_out st_dropped st_log
        a_add_log a_set_live as_live as_subs as_stopped as_stats as_hist as_out as_dropped as_log]; try apply R; [exact R'|].
      now rewrite (rf_log _ _ _ R).
Qed.

Lemma search_chain c s L0 B0 cnt : rep c (st_entries s) B0 L0 -> forall F fuel l d,
  (forall a, In a F -> In a L0) -> chain (st_entries s) l (map ah_slot F) -> (length F < fuel)%nat ->
  exists d', search fuel s l cnt d = Some (option_map ah_slot (find (fun a => lh_cnt (ah_heap a) =? cnt) F), d').
Proof.
  intro R. induction F as [|a F IH]; intros fuel l d HF HC Hf; (destruct fuel as [|fuel]; [cbn in Hf; lia|]); cbn [map chain] in HC.
  - subst l. cbn [search find option_map]. eauto.
  - destruct HC as [-> (e & He & HC)]. cbn [search]. rewrite He.
    destruct (rep_in _ _ _ _ R a (HF a (or_introl eq_refl))) as (e' & He' & H1 & _). rewrite He in He'. injection He' as <-.
    destruct e as [n hh u]; cbn [en_heap en_next] in *. subst hh. cbn [find].
    destruct (lh_cnt (ah_heap a) =? cnt); [cbn [option_map]; eauto|].
    apply IH; [intros; apply HF; now right|exact HC|cbn in Hf; lia].
Qed.

Lemma find_bucket c cnt L :
  find (fun a => lh_cnt (ah_heap a) =? cnt) (filter (fun a => Nat.eqb (bucket_of c a) (get_bucket c cnt)) L) =
  find (fun a => lh_cnt (ah_heap a) =? cnt) L.
Proof.
  induction L as [|a L IH]; [reflexivity|]. cbn [filter find].
  destruct (Z.eqb_spec (lh_cnt (ah_heap a)) cnt) as [E|E].
  - unfold bucket_of. rewrite E, Nat.eqb_refl. cbn [find]. rewrite E, Z.eqb_refl. reflexivity.
  - destruct (Nat.eqb (bucket_of c a) (get_bucket c cnt)); [|exact IH]. cbn [find].
    destruct (Z.eqb_spec (lh_cnt (ah_heap a)) cnt); [contradiction|exact IH].
Qed.

(** C17's core: the chain search finds the most recent live heap. *)
Lemma search_refines c s a cnt : config_ok c -> refines c s a ->
  exists l d, nth_error (st_buckets s) (get_bucket c cnt) = Some l /\
    search (S (length (st_entries s))) s l cnt 1 = Some (a_search a cnt, d).
Proof.
  intros Hc R. pose proof (rf_rep _ _ _ R) as RP.
  assert (Hb : (get_bucket c cnt < length (st_buckets s))%nat) by (rewrite (rep_lenB _ _ _ _ RP); now apply get_bucket_lt).
  destruct (nth_error (st_buckets s) (get_bucket c cnt)) as [l|] eqn:El; [|apply nth_error_None in El; lia].
  pose proof (rep_chain _ _ _ _ RP _ _ El) as HC. unfold slots_in in HC.
  destruct (search_chain c s (as_live a) (st_buckets s) cnt RP (filter (fun a => Nat.eqb (bucket_of c a) (get_bucket c cnt)) (as_live a))
     (S (length (st_entries s))) l 1) as (d & Hd).
  - intros x Hx. now apply filter_In in Hx.
  - exact HC.
  - pose proof (filter_length_le (fun a => Nat.eqb (bucket_of c a) (get_bucket c cnt)) (as_live a)).
    pose proof (live_length _ _ _ _ RP). lia.
  - exists l, d. split; [reflexivity|]. rewrite Hd, find_bucket. reflexivity.
Qed.

(** What keeps add_packet on live heaps free of undefined behaviour. *)
Definition safe_heaps (c : sconfig) (a : astream) (p : rpkt) : Prop :=
  (forall x, In x (as_live a) -> add_packet (ah_heap x) p (sc_allow_ooo c) <> Fault) /\
  add_packet (live_heap_new p) p (sc_allow_ooo c) <> Fault.

Lemma a_search_slot a cnt i : NoDup (map ah_slot (as_live a)) -> a_search a cnt = Some i ->
  exists x, slot_heap i (as_live a) = Some x /\ In x (as_live a) /\ lh_cnt (ah_heap x) = cnt /\
    find (fun a => lh_cnt (ah_heap a) =? cnt) (as_live a) = Some x.
Proof.
  unfold a_search. intros HN H. destruct (find _ (as_live a)) as [x|] eqn:E; [|discriminate]. cbn [option_map] in H. injection H as <-.
  pose proof (find_some _ _ E) as [Hx Hc]. exists x. split; [now apply slot_heap_of|]. split; [exact Hx|]. split; [lia|reflexivity].
Qed.

Lemma a_new_entry_slot c a p a' i n : a_new_entry c a p = Some (a', i, n) ->
  slot_heap i (as_live a') = Some {| ah_slot := i; ah_uid := length (as_hist a); ah_heap := live_heap_new p |}.
Proof.
  unfold a_new_entry. destruct (next_head _ _) as [[st j]|]; [|discriminate].
  unfold a_eject. destruct (slot_heap j (as_live _)) as [x|]; intro H; injection H as <- <- <-; cbn;
    unfold slot_heap; cbn [find]; unfold in_slot at 1; cbn [ah_slot]; now rewrite Nat.eqb_refl.
Qed.

Lemma add_packet_refines c s a b p :
  config_ok c -> refines c s a -> subs_ok c (as_subs a) -> safe_heaps c a p ->
  exists d s' a' b' r, stream_add_packet c s b p = Some (s', b', r) /\ a_add_packet c d a b p = Some (a', b', r) /\ refines c s' a'.
Proof.
  intros Hc R HS [HF1 HF2]. unfold stream_add_packet, a_add_packet.
  destruct ((rp_hlen p <? 0) && negb (sc_allow_unsized c)).
  { exists 0. eexists. eexists. eexists. eexists. split; [reflexivity|]. split; [reflexivity|]. exact R. }
  assert (G : exists d, (if single_packet p then Some (None, 0)
           else match nth_error (st_buckets s) (get_bucket c (rp_cnt p)) with
                | None => None
                | Some l => search (S (length (st_entries s))) s l (rp_cnt p) 1
                end) = Some (if single_packet p then None else a_search a (rp_cnt p), d)).
  { destruct (single_packet p); [now exists 0|]. destruct (search_refines c s a (rp_cnt p) Hc R) as (l & d & -> & ->). now exists d. }
  destruct G as (d & ->). exists d. cbv zeta. cbn [ba_packets ba_complete ba_evicted ba_single ba_dist ba_stopped].
  destruct (if single_packet p then None else a_search a (rp_cnt p)) as [i|] eqn:EF.
  - destruct (single_packet p); [discriminate|].
    destruct (a_search_slot _ _ _ (rep_nodup _ _ _ _ (rf_rep _ _ _ R)) EF) as (x & Hx & Hin & _).
    apply feed_refines; [exact Hc|exact R|congruence|]. intros y Hy. rewrite Hx in Hy. injection Hy as <-. now apply HF1.
  - destruct (negb (sc_allow_ooo c) && negb (rp_off p =? 0)).
    { eexists. eexists. eexists. eexists. split; [reflexivity|]. split; [reflexivity|]. exact R. }
    destruct (new_entry_refines c s a p Hc R HS) as (s' & a' & i & n & -> & HA & R'). rewrite HA.
    pose proof (a_new_entry_slot _ _ _ _ _ _ HA) as Hslot.
    apply feed_refines; [exact Hc|exact R'|congruence|]. intros y Hy. rewrite Hslot in Hy. injection Hy as <-. exact HF2.
Qed.

Lemma flush_steps_refines c k : config_ok c -> (k < sc_substreams c)%nat -> forall n s a f,
  refines c s a -> subs_ok c (as_subs a) ->
  exists s' a' f', flush_steps c n k s f = Some (s', f') /\ a_flush_steps n k a f = Some (a', f') /\ refines c s' a' /\ subs_ok c (as_subs a').
Proof.
  intros Hc Hk. induction n as [|n IH]; intros s a f R HS; cbn [flush_steps a_flush_steps].
  - eexists. eexists. eexists. split; [reflexivity|]. split; [reflexivity|]. now split.
  - destruct (next_head_ok c (as_subs a) k HS Hk (proj1 Hc)) as (i & HN & Hi & Hit & HS' & _ & _). rewrite HN.
    unfold next_head in HN. rewrite (rf_subs _ _ _ R).
    destruct (nth_error (as_subs a) k) as [[st hd]|] eqn:E1; [|discriminate].
    destruct (nth_error (as_subs a) (S k)) as [[st' hd']|] eqn:E2; [|discriminate].
    assert (HN1 : (if Nat.eqb (S hd) st' then st else S hd) = i) by congruence.
    assert (HN2 : st = (k * sc_max_heaps c)%nat) by congruence. rewrite HN1. clear HN HN1. subst st.
    set (subs' := set_nth (as_subs a) k ((k * sc_max_heaps c)%nat, i)) in *.
    set (s1 := set_subs s subs'). set (a1 := a_set_subs a subs').
    assert (R1 : refines c s1 a1).
    { constructor; cbn; try apply R. reflexivity. }
    assert (HSub : as_subs (fst (a_eject a1 Flushed i)) = subs').
    { unfold a_eject. destruct (slot_heap i (as_live a1)); reflexivity. }
    destruct (eject_refines c s1 a1 Flushed i Hc R1 Hit) as (e & He & HE). cbv zeta. rewrite He.
    destruct (en_next e); [|destruct HE as (s2 & a2 & J1 & J2 & J3)|destruct HE as (s2 & a2 & J1 & J2 & J3)].
    + rewrite HE in *. cbn [fst] in *. replace (f + 0) with f by lia. apply IH; [exact R1|]. exact HS'.
    + rewrite J1, J2 in *. cbn [fst] in *. apply IH; [exact J3|]. rewrite HSub. exact HS'.
    + rewrite J1, J2 in *. cbn [fst] in *. apply IH; [exact J3|]. rewrite HSub. exact HS'.
Qed.

Lemma flush_subs_refines c ks : config_ok c -> (forall k, In k ks -> (k < sc_substreams c)%nat) -> forall s a f,
  refines c s a -> subs_ok c (as_subs a) ->
  exists s' a' f', flush_subs c ks s f = Some (s', f') /\ a_flush_subs c ks a f = Some (a', f') /\ refines c s' a' /\ subs_ok c (as_subs a').
Proof.
  intro Hc. induction ks as [|k ks IH]; intros Hks s a f R HS; cbn [flush_subs a_flush_subs].
  - eexists. eexists. eexists. split; [reflexivity|]. split; [reflexivity|]. now split.
  - pose proof (Hks k (or_introl eq_refl)) as Hk. rewrite (rf_subs _ _ _ R).
    destruct (nth_error (as_subs a) k) as [[st hd]|] eqn:E1; [|apply nth_error_None in E1; rewrite (so_len _ _ HS) in E1; lia].
    destruct (nth_error (as_subs a) (S k)) as [[st' hd']|] eqn:E2; [|apply nth_error_None in E2; rewrite (so_len _ _ HS) in E2; lia].
    pose proof (so_start _ _ HS _ _ E1) as S1. pose proof (so_start _ _ HS _ _ E2) as S2. cbn [fst] in *. subst st st'.
    replace (S k * sc_max_heaps c - k * sc_max_heaps c)%nat with (sc_max_heaps c) by lia.
    destruct (flush_steps_refines c k Hc Hk (sc_max_heaps c) s a f R HS) as (s1 & a1 & f1 & -> & -> & R1 & HS1).
    apply IH; [intros; apply Hks; now right|exact R1|exact HS1].
Qed.

Lemma flush_refines c s a : config_ok c -> refines c s a -> subs_ok c (as_subs a) ->
  exists s' a', flush_unlocked c s = Some s' /\ a_flush c a = Some a' /\ refines c s' a'.
Proof.
  intros Hc R HS. unfold flush_unlocked, a_flush.
  destruct (flush_subs_refines c (seq 0 (sc_substreams c)) Hc) with (s := s) (a := a) (f := 0) as (s1 & a1 & n & -> & -> & R1 & _);
    [intros k Hk; apply in_seq in Hk; lia|exact R|exact HS|].
  eexists. eexists. split; [reflexivity|]. split; [reflexivity|].
  constructor; cbn; try apply R1. now rewrite (rf_stats _ _ _ R1).
Qed.
