(** Lemmas for the send stream: wrapping indices, the circular array of queue
    items, and the order of the packets of a group. *)
From Coq Require Import ZArith List Bool Lia.
From Verif Require Import Base ConcBase SendStreamModel SendStreamSpec.
Import ListNotations.
Open Scope Z_scope.

(** *** Wrapping *)
Lemma w64_add a b : w64 (w64 a + b) = w64 (a + b).
Proof. unfold w64. now rewrite Zplus_mod_idemp_l. Qed.
Lemma w64_sub a b : w64 (w64 a - b) = w64 (a - b).
Proof. unfold w64. now rewrite Zminus_mod_idemp_l. Qed.
Lemma w64_sub2 a b : w64 (w64 a - w64 b) = w64 (a - b).
Proof. unfold w64. now rewrite Zminus_mod_idemp_l, Zminus_mod_idemp_r. Qed.
Lemma w64_small a : 0 <= a < 2 ^ 64 -> w64 a = a.
Proof. intro H. unfold w64. now apply Z.mod_small. Qed.
Lemma w64_inj a b : Z.abs (a - b) <= 2 ^ 63 -> w64 a = w64 b -> a = b.
Proof.
  unfold w64. intros H E. assert (N : 2 ^ 64 = 2 * 2 ^ 63) by reflexivity. set (H63 := 2 ^ 63) in *. rewrite N in E.
  assert (P : 0 < H63) by reflexivity. clearbody H63. clear N.
  pose proof (Z.div_mod a (2 * H63) ltac:(lia)) as Ea. pose proof (Z.div_mod b (2 * H63) ltac:(lia)) as Eb. rewrite E in Ea.
  assert (D : a - b = 2 * H63 * (a / (2 * H63) - b / (2 * H63))) by lia.
  assert (a / (2 * H63) - b / (2 * H63) = 0) by nia. nia.
Qed.
Lemma w64_range a : 0 <= w64 a < 2 ^ 64.
Proof. apply Z.mod_pos_bound. reflexivity. Qed.

Lemma slot_w64 p a : 0 <= p <= 63 -> slot_of (2 ^ p - 1) (w64 a) = Z.to_nat (a mod 2 ^ p).
Proof.
  intro Hp. unfold slot_of, w64. f_equal. replace (2 ^ p - 1) with (Z.ones p) by (rewrite Z.ones_equiv; lia). rewrite Z.land_ones by lia.
  assert (E : 2 ^ 64 = 2 ^ (64 - p) * 2 ^ p) by (rewrite <- Z.pow_add_r by lia; f_equal; lia).
  assert (P : 0 < 2 ^ p) by (apply Z.pow_pos_nonneg; lia).
  assert (P64 : 0 < 2 ^ 64) by reflexivity.
  pose proof (Z.div_mod a (2 ^ 64) ltac:(lia)) as Ea.
  replace a with (a mod 2 ^ 64 + (a / 2 ^ 64 * 2 ^ (64 - p)) * 2 ^ p) at 2 by (rewrite E in Ea |- *; lia).
  now rewrite Z.mod_add by lia.
Qed.

(** *** [upd] and [++] *)
Lemma upd_app1 {A} (a b : list A) i x : (i < length a)%nat -> upd (a ++ b) i x = upd a i x ++ b.
Proof. revert i. induction a as [|y a IH]; intros [|i] H; cbn [length app upd] in *; try lia; auto. rewrite IH by lia. reflexivity. Qed.
Lemma upd_app2 {A} (a b : list A) i x : upd (a ++ b) (length a + i) x = a ++ upd b i x.
Proof. induction a as [|y a IH]; cbn [length app upd Nat.add]; auto. now rewrite IH. Qed.

(** *** Circular array *)
Section Circ.
Variable p : Z.
Hypothesis Hp : 0 <= p <= 63.
Let M := 2 ^ p.
Let Mpos : 0 < M. Proof. apply Z.pow_pos_nonneg; lia. Qed.
Let Mle : M <= 2 ^ 63. Proof. apply Z.pow_le_mono_r; lia. Qed.

Definition circ (sl : list (option qitem)) (h : Z) (items : list qitem) : Prop :=
  length sl = Z.to_nat M /\ 0 <= h /\ Z.of_nat (length items) <= M
  /\ (forall k q, nth_error items k = Some q -> nth_error sl (Z.to_nat ((h + Z.of_nat k) mod M)) = Some (Some q))
  /\ (forall k, (length items <= k)%nat -> Z.of_nat k < M -> nth_error sl (Z.to_nat ((h + Z.of_nat k) mod M)) = Some None).

Lemma mod_inj h j k : 0 <= j < M -> 0 <= k < M -> (h + j) mod M = (h + k) mod M -> j = k.
Proof.
  intros Hj Hk E. pose proof (Z.div_mod (h + j) M ltac:(lia)) as Ej. pose proof (Z.div_mod (h + k) M ltac:(lia)) as Ek. rewrite E in Ej.
  assert (D : j - k = M * ((h + j) / M - (h + k) / M)) by lia. assert ((h + j) / M - (h + k) / M = 0) by nia. nia.
Qed.
Lemma slot_lt a : (Z.to_nat (a mod M) < Z.to_nat M)%nat.
Proof. pose proof (Z.mod_pos_bound a M ltac:(lia)). lia. Qed.
Lemma slot_ne h j k : 0 <= j < M -> 0 <= k < M -> j <> k -> Z.to_nat ((h + j) mod M) <> Z.to_nat ((h + k) mod M).
Proof.
  intros Hj Hk N E. apply N. apply (mod_inj h); auto. pose proof (Z.mod_pos_bound (h + j) M ltac:(lia)). pose proof (Z.mod_pos_bound (h + k) M ltac:(lia)). lia.
Qed.

Lemma circ_get sl h items k q : circ sl h items -> nth_error items k = Some q -> get_queue (M - 1) sl (w64 (h + Z.of_nat k)) = Some q.
Proof. intros (L & H0 & Hn & HG & HF) K. unfold get_queue. unfold M. rewrite slot_w64 by lia. fold M. now rewrite (HG k q K). Qed.
Lemma circ_set sl h items k q : circ sl h items -> (k < length items)%nat -> circ (put_queue (M - 1) sl (w64 (h + Z.of_nat k)) q) h (upd items k q).
Proof.
  intros (L & H0 & Hn & HG & HF) K. unfold put_queue. unfold M at 1. rewrite slot_w64 by lia. fold M.
  split; [now rewrite upd_length|]. split; [exact H0|]. split; [now rewrite upd_length|]. split.
  - intros j x J. rewrite nth_upd in J. destruct (Nat.eqb_spec j k) as [->|N].
    + destruct (Nat.ltb_spec k (length items)); [|lia]. injection J as <-. apply upd_same. rewrite L. apply slot_lt.
    + rewrite upd_other; [now apply HG|]. assert (j < length items)%nat by (apply nth_error_Some; congruence). apply slot_ne; lia.
  - intros j J1 J2. rewrite upd_length in J1. rewrite upd_other; [now apply HF|]. apply slot_ne; lia.
Qed.
Lemma circ_push sl h items q : circ sl h items -> Z.of_nat (length items) < M ->
  exists sl', construct (M - 1) sl (w64 (h + Z.of_nat (length items))) q = Some sl' /\ circ sl' h (items ++ [q]).
Proof.
  intros (L & H0 & Hn & HG & HF) K. eexists. unfold construct, put_queue. unfold M at 1 2. rewrite slot_w64 by lia. fold M.
  rewrite (HF (length items)) by lia. split; [reflexivity|].
  split; [now rewrite upd_length|]. split; [exact H0|]. split; [rewrite app_length; cbn [length]; lia|]. split.
  - intros j x J. destruct (Nat.eq_dec j (length items)) as [->|N].
    + rewrite nth_error_app2, Nat.sub_diag in J by lia. injection J as <-. apply upd_same. rewrite L. apply slot_lt.
    + assert (j < length (items ++ [q]))%nat by (apply nth_error_Some; congruence). rewrite app_length in *. cbn [length] in *.
      rewrite nth_error_app1 in J by lia. rewrite upd_other; [now apply HG|]. apply slot_ne; lia.
  - intros j J1 J2. rewrite app_length in J1. cbn [length] in J1. rewrite upd_other; [apply HF; lia|]. apply slot_ne; lia.
Qed.
Lemma circ_pop sl h q items : circ sl h (q :: items) ->
  exists sl', destroy (M - 1) sl (w64 h) = Some sl' /\ circ sl' (h + 1) items /\ length sl' = length sl.
Proof.
  intros (L & H0 & Hn & HG & HF). eexists. unfold destroy. unfold M at 1 2. rewrite slot_w64 by lia. fold M. cbn [length] in *.
  pose proof (HG O q eq_refl) as G. rewrite Z.add_0_r in G. rewrite G. split; [reflexivity|]. split; [|now rewrite upd_length].
  split; [now rewrite upd_length|]. split; [lia|]. split; [lia|].
  assert (S0 : forall k, (h + 1 + Z.of_nat k) = h + Z.of_nat (S k)) by (intro; lia).
  assert (E0 : Z.to_nat (h mod M) = Z.to_nat ((h + 0) mod M)) by now rewrite Z.add_0_r.
  split.
  - intros k x K. rewrite S0. assert (k < length items)%nat by (apply nth_error_Some; congruence).
    rewrite upd_other; [now apply HG|]. rewrite E0. apply slot_ne; lia.
  - intros k K1 K2. rewrite S0. destruct (Z.eq_dec (Z.of_nat (S k)) M) as [E|N].
    + rewrite E. replace ((h + M) mod M) with (h mod M) by (rewrite <- (Z.mod_add h 1 M) by lia; f_equal; lia). apply upd_same. rewrite L. apply slot_lt.
    + rewrite upd_other; [apply HF; lia|]. rewrite E0. apply slot_ne; lia.
Qed.
End Circ.

(** *** Round robin *)
Section RR.
Context {A : Type}.
Implicit Types L : list (list A).
Lemma column_S r L : column (S r) L = column r (map (@tl A) L).
Proof. unfold column. induction L as [|l L IH]; cbn [flat_map map]; [reflexivity|]. rewrite IH. destruct l; cbn [skipn tl]; [now destruct r|reflexivity]. Qed.
Lemma max_len_tl L : max_len (map (@tl A) L) = Nat.pred (max_len L).
Proof.
  unfold max_len. induction L as [|l L IH]; cbn [map list_max fold_right]; [reflexivity|]. unfold list_max in *. rewrite IH. destruct l; cbn [length tl]; lia.
Qed.
Lemma max_len_0 L : max_len L = O -> Forall (fun l => l = []) L.
Proof.
  unfold max_len, list_max. induction L as [|l L IH]; cbn [map fold_right]; constructor; [|apply IH; lia]. destruct l; cbn [length] in *; [reflexivity|lia].
Qed.
Lemma column_empty r L : Forall (fun l => l = []) L -> column r L = [].
Proof. unfold column. induction 1 as [|l L -> _ IH]; cbn [flat_map]; [reflexivity|]. rewrite IH. now destruct r. Qed.
Lemma round_robin_unfold L : round_robin L = column 0 L ++ round_robin (map (@tl A) L).
Proof.
  unfold round_robin. rewrite max_len_tl. destruct (max_len L) as [|m] eqn:E; cbn [Nat.pred seq flat_map].
  - now rewrite (column_empty 0 L (max_len_0 L E)).
  - f_equal. rewrite <- seq_shift. rewrite !flat_map_concat_map, map_map. f_equal. apply map_ext. intro. apply column_S.
Qed.
Lemma round_robin_empty L : Forall (fun l => l = []) L -> round_robin L = [].
Proof.
  intro H. unfold round_robin. generalize (seq 0 (max_len L)). intro s. induction s as [|x s IH]; cbn [flat_map]; [reflexivity|]. now rewrite IH, column_empty.
Qed.
(** What remains when the heaps before [a] have had their turn in this round. *)
Definition rr_rest (a : nat) L : list A := column 0 (skipn a L) ++ round_robin (firstn a L ++ map (@tl A) (skipn a L)).
Lemma rr_rest_0 L : rr_rest 0 L = round_robin L.
Proof. unfold rr_rest. cbn [skipn firstn app]. symmetry. apply round_robin_unfold. Qed.
Lemma rr_rest_end L : rr_rest (length L) L = rr_rest 0 L.
Proof. rewrite rr_rest_0. unfold rr_rest. rewrite skipn_all, firstn_all. cbn [column flat_map map app]. now rewrite app_nil_r. Qed.
Lemma split_nth L a l : nth_error L a = Some l -> exists L1 L2, L = L1 ++ l :: L2 /\ length L1 = a.
Proof. apply nth_error_split. Qed.
Lemma rr_rest_app L1 L2 : rr_rest (length L1) (L1 ++ L2) = column 0 L2 ++ round_robin (L1 ++ map (@tl A) L2).
Proof. unfold rr_rest. rewrite skipn_app, Nat.sub_diag, skipn_all, firstn_app, Nat.sub_diag, firstn_all. cbn [skipn firstn app]. now rewrite app_nil_r. Qed.
Lemma rr_rest_app1 L1 l L2 : rr_rest (S (length L1)) (L1 ++ l :: L2) = column 0 L2 ++ round_robin (L1 ++ l :: map (@tl A) L2).
Proof.
  replace (S (length L1)) with (length (L1 ++ [l])) by (rewrite app_length; cbn [length]; lia).
  replace (L1 ++ l :: L2) with ((L1 ++ [l]) ++ L2) by now rewrite <- app_assoc. rewrite rr_rest_app. now rewrite <- app_assoc.
Qed.
Lemma rr_rest_take a L x l : nth_error L a = Some (x :: l) -> rr_rest a L = x :: rr_rest (S a) (upd L a l).
Proof.
  intro H. apply split_nth in H as (L1 & L2 & -> & <-).
  assert (U : upd (L1 ++ (x :: l) :: L2) (length L1) l = L1 ++ l :: L2) by (rewrite <- (Nat.add_0_r (length L1)) at 1; now rewrite upd_app2).
  rewrite U, rr_rest_app, rr_rest_app1. reflexivity.
Qed.
Lemma rr_rest_skip a L : nth_error L a = Some [] -> rr_rest a L = rr_rest (S a) L.
Proof. intro H. apply split_nth in H as (L1 & L2 & -> & <-). rewrite rr_rest_app, rr_rest_app1. reflexivity. Qed.
(** Cyclic versions. *)
Lemma mod_succ a n : (0 < n)%nat -> ((S a) mod n)%nat = (if Nat.eqb (S (a mod n)) n then 0 else S (a mod n))%nat.
Proof.
  intro H. pose proof (Nat.div_mod a n ltac:(lia)) as E. pose proof (Nat.mod_upper_bound a n ltac:(lia)) as B.
  destruct (Nat.eqb_spec (S (a mod n)) n) as [K|K].
  - assert (Q : S a = (0 + (a / n + 1) * n)%nat) by (rewrite Nat.mul_comm in E; lia). rewrite Q, Nat.mod_add by lia. apply Nat.mod_0_l. lia.
  - assert (Q : S a = (S (a mod n) + (a / n) * n)%nat) by (rewrite Nat.mul_comm in E; lia). rewrite Q, Nat.mod_add by lia. apply Nat.mod_small. lia.
Qed.
Lemma rr_rest_wrap a L : (0 < length L)%nat -> (a <= length L)%nat -> rr_rest (a mod length L) L = rr_rest a L.
Proof.
  intros H1 H. destruct (Nat.eq_dec a (length L)) as [->|N]; [|rewrite Nat.mod_small by lia; reflexivity].
  rewrite Nat.mod_same by lia. symmetry. apply rr_rest_end.
Qed.
Lemma rr_rest_cyc a L : (0 < length L)%nat -> nth_error L (a mod length L) = Some [] -> rr_rest (a mod length L) L = rr_rest (S a mod length L) L.
Proof.
  intros Hn H. rewrite (rr_rest_skip _ _ H), mod_succ by auto. destruct (Nat.eqb_spec (S (a mod length L)) (length L)) as [K|K]; [|reflexivity].
  rewrite K. apply rr_rest_end.
Qed.
Lemma rr_rest_cycs a L k : (0 < length L)%nat -> (forall e, (e < k)%nat -> nth_error L ((a + e) mod length L) = Some []) ->
  rr_rest (a mod length L) L = rr_rest ((a + k) mod length L) L.
Proof.
  intros Hn. induction k as [|k IH]; intro H; [now rewrite Nat.add_0_r|]. rewrite IH by (intros; apply H; lia).
  rewrite rr_rest_cyc; [now rewrite Nat.add_succ_r|auto|apply H; lia].
Qed.
Lemma rr_rest_empty a L : Forall (fun l => l = []) L -> rr_rest a L = [].
Proof.
  intro H. unfold rr_rest. rewrite <- (firstn_skipn a L) in H. apply Forall_app in H as [H1 H2]. rewrite column_empty by auto. cbn [app].
  apply round_robin_empty. apply Forall_app. split; [auto|]. clear - H2. induction H2 as [|l L' -> _ IH]; cbn [map]; constructor; auto.
Qed.
End RR.
