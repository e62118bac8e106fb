(** C42: non-temporal copies copy, and touch nothing else. *)
From Coq Require Import ZArith List Bool Arith Lia.
From Verif Require Import Base MemcpyModel.
Import ListNotations.
Open Scope Z_scope.

(** What a copy of [n] bytes from [a] to [d] has to do. *)
Definition copied (m0 : memory) (d a n : Z) (m : memory) : Prop := forall x, m x = if (d <=? x) && (x <? d + n) then m0 (a + (x - d)) else m0 x.
Definition within (lo n p k : Z) : Prop := 0 <= k /\ lo <= p /\ p + k <= lo + n.
Definition allowed (d a n : Z) (x : access) : Prop :=
  match x with Rd p k => within a n p k | Wr p k => within d n p k | Wv p k => within d n p k /\ p mod k = 0 end.
Definition disjoint (d a n : Z) : Prop := a + n <= d \/ d + n <= a.

Definition st_ok (m0 : memory) (d a n o : Z) (s : mst) : Prop := copied m0 d a o (m_mem s) /\ Forall (allowed d a n) (m_tr s).

Lemma length_load m a n : length (load m a n) = n. Proof. unfold load. now rewrite map_length, seq_length. Qed.
Lemma nth_load m a n i : (i < n)%nat -> nth i (load m a n) 0 = m (a + Z.of_nat i).
Proof.
  intro H. unfold load. rewrite (nth_indep _ 0 (m (a + Z.of_nat 0))) by (now rewrite map_length, seq_length). rewrite (map_nth (fun i => m (a + Z.of_nat i))). now rewrite seq_nth by exact H.
Qed.
Ltac cases := repeat match goal with
  | |- context [?p <=? ?q] => destruct (Z.leb_spec p q)
  | |- context [?p <? ?q] => destruct (Z.ltb_spec p q)
  end; cbn [andb].
(** Storing the next [k] source bytes (as they were at the start). *)
Lemma copied_step m0 d a o k m l : 0 <= o -> 0 <= k -> copied m0 d a o m -> l = load m0 (a + o) (Z.to_nat k) -> copied m0 d a (o + k) (store m (d + o) l).
Proof.
  intros Ho Hk C -> x. unfold store. unfold zlen. rewrite length_load, Z2Nat.id by exact Hk. specialize (C x). rewrite C. cases; try lia; try reflexivity. rewrite nth_load by lia. f_equal. lia.
Qed.
(** The source is still what it was. *)
Lemma load_src m0 d a n o m p k : disjoint d a n -> 0 <= o <= n -> copied m0 d a o m -> within a n p (Z.of_nat k) -> load m p k = load m0 p k.
Proof.
  intros D O C (_ & W1 & W2). unfold load. apply map_ext_in. intros i Hi. apply in_seq in Hi. rewrite C. destruct D; cases; try lia; reflexivity.
Qed.
Lemma plain_ok m0 d a n o k s : disjoint d a n -> 0 <= o -> 0 <= k -> o + k <= n -> st_ok m0 d a n o s -> st_ok m0 d a n (o + k) (plain (d + o) (a + o) k s).
Proof.
  intros D Ho Hk Hn [C T]. split.
  - cbn [plain m_mem]. apply copied_step; auto. apply (load_src m0 d a n o); [exact D|lia|exact C|]. unfold within. lia.
  - cbn [plain m_tr]. apply Forall_app. split; [exact T|]. repeat constructor; cbn; unfold within; lia.
Qed.
Lemma stores_ok m0 d a n w : 0 < w -> forall k o s, 0 <= o -> o + Z.of_nat k * w <= n -> (d + o) mod w = 0 -> st_ok m0 d a n o s ->
  forall vals, vals = map (fun i => load m0 (a + o + Z.of_nat i * w) (Z.to_nat w)) (seq 0 k) -> st_ok m0 d a n (o + Z.of_nat k * w) (stores (d + o) w vals s).
Proof.
  intro Hw. induction k as [|k IH]; intros o s Ho Hn Al [C T] vals ->; [cbn [seq map stores]; now rewrite Z.mul_0_l, Z.add_0_r|]. cbn [seq map stores]. rewrite <- Z.add_assoc. replace (o + Z.of_nat (S k) * w) with (o + w + Z.of_nat k * w) by lia. apply IH; [lia|lia| | |].
  - rewrite Z.add_assoc. rewrite <- (Z.mul_1_l w) at 1. now rewrite Z.mod_add by lia.
  - split; [cbn [m_mem]; apply copied_step; auto; [lia|f_equal; lia]|]. cbn [m_tr]. apply Forall_app. split; [exact T|]. constructor; [|constructor]. cbn. unfold within. split; [lia|exact Al].
  - rewrite <- seq_shift, map_map. apply map_ext. intro i. f_equal. lia.
Qed.
Lemma block_ok m0 d a n u w o s : disjoint d a n -> 0 < w -> 0 <= o -> o + Z.of_nat u * w <= n -> (d + o) mod w = 0 -> st_ok m0 d a n o s -> st_ok m0 d a n (o + Z.of_nat u * w) (block u w (d + o) (a + o) s).
Proof.
  intros D Hw Ho Hn Al [C T]. unfold block. assert (B : forall i, In i (seq 0 u) -> within a n (a + o + Z.of_nat i * w) w).
  { intros i Hi. apply in_seq in Hi. unfold within. assert (Z.of_nat (S i) * w <= Z.of_nat u * w) by (apply Z.mul_le_mono_nonneg_r; lia). lia. }
  apply stores_ok; auto.
  - split; [exact C|]. cbn [note m_tr]. apply Forall_app. split; [exact T|]. apply Forall_forall. intros x Hx. apply in_map_iff in Hx as (i & <- & Hi). cbn. now apply B.
  - apply map_ext_in. intros i Hi. apply (load_src m0 d a n o); [exact D|lia|exact C|]. rewrite Z2Nat.id by lia. now apply B.
Qed.
Lemma blocks_ok m0 d a n u w : disjoint d a n -> 0 < w -> (0 < u)%nat -> forall fuel base off s, 0 <= base -> 0 <= off -> base + off <= n -> (d + base + off) mod w = 0 -> st_ok m0 d a n (base + off) s ->
  exists off' s', blocks fuel u w (d + base) (a + base) (n - base) off s = (off', s') /\ st_ok m0 d a n (base + off') s' /\ 0 <= off' /\ base + off' <= n /\ (d + base + off') mod w = 0.
Proof.
  intros D Hw Hu. induction fuel as [|f IH]; intros base off s Hb Ho Hn Al S; cbn [blocks]; [eauto 10|]. destruct (Z.leb_spec (off + Z.of_nat u * w) (n - base)) as [L|L]; [|eauto 10].
  apply IH; auto; try lia.
  - rewrite Z.add_assoc. now rewrite Z.mod_add by lia.
  - rewrite Z.add_assoc. rewrite <- (Z.add_assoc d), <- (Z.add_assoc a). apply block_ok; auto; try lia. rewrite <- Al. f_equal. lia.
Qed.

Lemma and_not_63 v : 0 <= v < 2 ^ 64 -> Z.land v (Z.lxor (2 ^ 64 - 1) 63) = v - v mod 64.
Proof.
  intro H. assert (E : v - v mod 64 = Z.shiftl (Z.shiftr v 6) 6). { rewrite Z.shiftl_mul_pow2, Z.shiftr_div_pow2 by lia. change (2 ^ 6) with 64. pose proof (Z.div_mod v 64 ltac:(lia)). lia. }
  rewrite E. apply Z.bits_inj'. intros i Hi. rewrite Z.land_spec, Z.lxor_spec. change (2 ^ 64 - 1) with (Z.ones 64). change 63 with (Z.ones 6). rewrite !Z.testbit_ones_nonneg by lia. rewrite Z.shiftl_spec by lia.
  destruct (Z.ltb_spec i 6); [rewrite (Z.testbit_neg_r _ (i - 6)) by lia; destruct (Z.ltb_spec i 64); [apply andb_false_r|lia]|]. rewrite Z.shiftr_spec by lia. replace (i - 6 + 6) with i by lia.
  destruct (Z.ltb_spec i 64); [apply andb_true_r|]. rewrite andb_false_r. symmetry. destruct (Z.eq_dec v 0) as [->|]; [apply Z.testbit_0_l|]. apply Z.bits_above_log2; [lia|]. apply Z.log2_lt_pow2; [lia|]. apply Z.lt_le_trans with (2 ^ 64); [lia|]. apply Z.pow_le_mono_r; lia.
Qed.

(** All sizes, all alignments; any vector size that divides the cache line and any unrolling. *)
Theorem C42_x86 u1 u2 w d a n m0 : (0 < u1)%nat -> (0 < u2)%nat -> 0 < w -> 64 mod w = 0 -> 0 <= n -> 0 <= d -> d + 63 < 2 ^ 64 -> disjoint d a n ->
  let r := memcpy_x86 u1 u2 w d a n {| m_mem := m0; m_tr := [] |} in copied m0 d a n (m_mem r) /\ Forall (allowed d a n) (m_tr r).
Proof.
  intros Hu1 Hu2 Hw Dw Hn Hd Hd2 D r. change (st_ok m0 d a n n r). subst r. unfold memcpy_x86.
  assert (S0 : st_ok m0 d a n 0 {| m_mem := m0; m_tr := [] |}). { split; [|constructor]. intro x. cbn [m_mem]. cases; try lia; reflexivity. }
  rewrite (Z.mod_small (d + 63)) by lia. rewrite and_not_63 by lia. set (head := d + 63 - (d + 63) mod 64 - d). pose proof (Z.mod_pos_bound (d + 63) 64 ltac:(lia)) as MB. assert (H0 : 0 <= head) by (unfold head; lia).
  assert (A64 : (d + head) mod 64 = 0). { unfold head. replace (d + (d + 63 - (d + 63) mod 64 - d)) with (d + 63 - (d + 63) mod 64) by lia. pose proof (Z.div_mod (d + 63) 64 ltac:(lia)). replace (d + 63 - (d + 63) mod 64) with ((d + 63) / 64 * 64) by lia. apply Z.mod_mul. lia. }
  assert (Aw : (d + head) mod w = 0). { apply Z.mod_divide; [lia|]. apply Z.divide_trans with 64; apply Z.mod_divide; auto; lia. }
  clearbody head. destruct ((0 <? head) && (n <=? head)) eqn:EH.
  { pose proof (plain_ok m0 d a n 0 n _ D ltac:(lia) Hn ltac:(lia) S0) as P. rewrite !Z.add_0_r in P. exact P. }
  assert (X : exists s, (if 0 <? head then (d + head, a + head, n - head, plain d a head {| m_mem := m0; m_tr := [] |}) else (d, a, n, {| m_mem := m0; m_tr := [] |})) = (d + head, a + head, n - head, s) /\ st_ok m0 d a n head s /\ head <= n).
  { destruct (Z.ltb_spec 0 head) as [P|P]; cbn [andb] in EH.
    - apply Z.leb_gt in EH. eexists. split; [reflexivity|]. split; [|lia]. pose proof (plain_ok m0 d a n 0 head _ D ltac:(lia) H0 ltac:(lia) S0) as Q. rewrite !Z.add_0_r, Z.add_0_l in Q. exact Q.
    - assert (head = 0) by lia. subst head. rewrite !Z.add_0_r, Z.sub_0_r. eexists. split; [reflexivity|]. split; [exact S0|lia]. }
  destruct X as (s & -> & S & Hh).
  destruct (blocks_ok m0 d a n u1 w D Hw Hu1 (Z.to_nat (n - head)) head 0 s) as (off & s1 & -> & S1 & O1 & O2 & A1); auto; try lia; try (rewrite Z.add_0_r; assumption).
  assert (X : exists off' s', (if (u2 <? u1)%nat then blocks (Z.to_nat (n - head)) u2 w (d + head) (a + head) (n - head) off s1 else (off, s1)) = (off', s') /\ st_ok m0 d a n (head + off') s' /\ 0 <= off' /\ head + off' <= n).
  { destruct (u2 <? u1)%nat; [|exists off, s1; auto]. destruct (blocks_ok m0 d a n u2 w D Hw Hu2 (Z.to_nat (n - head)) head off s1) as (off' & s' & -> & S' & P1 & P2 & _); auto; try lia. exists off', s'. auto. }
  destruct X as (off' & s' & -> & S' & P1 & P2). rewrite <- (Z.add_assoc d), <- (Z.add_assoc a). replace n with (head + off' + (n - head - off')) at 2 by lia. apply plain_ok; auto; lia.
Qed.
Corollary C42_sse2 d a n m0 : 0 <= n -> 0 <= d -> d + 63 < 2 ^ 64 -> disjoint d a n -> let r := memcpy_sse2 d a n {| m_mem := m0; m_tr := [] |} in copied m0 d a n (m_mem r) /\ Forall (allowed d a n) (m_tr r).
Proof. intros. apply C42_x86; auto; lia. Qed.
Corollary C42_avx d a n m0 : 0 <= n -> 0 <= d -> d + 63 < 2 ^ 64 -> disjoint d a n -> let r := memcpy_avx d a n {| m_mem := m0; m_tr := [] |} in copied m0 d a n (m_mem r) /\ Forall (allowed d a n) (m_tr r).
Proof. intros. apply C42_x86; auto; lia. Qed.
Corollary C42_avx512 d a n m0 : 0 <= n -> 0 <= d -> d + 63 < 2 ^ 64 -> disjoint d a n -> let r := memcpy_avx512 d a n {| m_mem := m0; m_tr := [] |} in copied m0 d a n (m_mem r) /\ Forall (allowed d a n) (m_tr r).
Proof. intros. apply C42_x86; auto; lia. Qed.

(** *** SVE *)
Lemma sv_copy_ok m0 d a n o k s : disjoint d a n -> 0 <= o -> 0 <= k -> o + k <= n -> st_ok m0 d a n o s -> st_ok m0 d a n (o + k) (sv_copy (d + o) (a + o) k s).
Proof. intros D Ho Hk Hn S. unfold sv_copy. destruct (Z.eqb_spec k 0) as [->|N]; [now rewrite Z.add_0_r|]. now apply plain_ok. Qed.
Lemma sve_loop_ok m0 d a n vl : disjoint d a n -> 0 < vl -> forall fuel i s, 0 <= i <= n -> st_ok m0 d a n i s -> exists i' s', sve_loop fuel vl d a n i s = (i', s') /\ st_ok m0 d a n i' s' /\ 0 <= i' <= n.
Proof.
  intros D V. induction fuel as [|f IH]; intros i s Hi S; cbn [sve_loop]; [eauto|]. destruct (Z.leb_spec (i + 2 * vl) n) as [L|L]; [|eauto]. apply IH; [lia|]. destruct S as [C T]. replace (i + 2 * vl) with (i + vl + vl) by lia. split.
  - cbn [m_mem]. rewrite <- (Z.add_assoc d). apply copied_step; [lia|lia| |].
    + apply copied_step; [lia|lia|exact C|]. apply (load_src m0 d a n i); [exact D|lia|exact C|unfold within; lia].
    + rewrite <- (Z.add_assoc a). apply (load_src m0 d a n i); [exact D|lia|exact C|unfold within; lia].
  - cbn [m_tr]. apply Forall_app. split; [exact T|]. repeat constructor; cbn; unfold within; lia.
Qed.
Lemma sve_tail_ok m0 d a n vl : disjoint d a n -> 0 < vl -> forall fuel i s, 0 <= i <= n -> (Z.to_nat (n - i) < fuel)%nat -> st_ok m0 d a n i s -> st_ok m0 d a n n (sve_tail fuel vl d a n i s).
Proof.
  intros D V. induction fuel as [|f IH]; intros i s Hi Hf S; [lia|]. cbn [sve_tail]. set (k := lanes vl i n). assert (Hk : 0 <= k /\ i + k <= n /\ k <= vl) by (unfold k, lanes; lia).
  pose proof (sv_copy_ok m0 d a n i k s D ltac:(lia) ltac:(lia) ltac:(lia) S) as S'. destruct (Z.ltb_spec 0 (lanes vl (i + vl) n)) as [L|L].
  - assert (k = vl) by (unfold k, lanes in *; lia). apply IH; [unfold lanes in L; lia|unfold lanes in L; lia|]. now replace (i + vl) with (i + k) by lia.
  - replace n with (i + k) at 2; [exact S'|]. unfold k, lanes in *. lia.
Qed.
Theorem C42_sve vl d a n m0 : 0 < vl -> 0 <= n -> disjoint d a n -> let r := memcpy_sve vl d a n {| m_mem := m0; m_tr := [] |} in copied m0 d a n (m_mem r) /\ Forall (allowed d a n) (m_tr r).
Proof.
  intros V Hn D r. change (st_ok m0 d a n n r). subst r. unfold memcpy_sve.
  assert (S0 : st_ok m0 d a n 0 {| m_mem := m0; m_tr := [] |}). { split; [|constructor]. intro x. cbn [m_mem]. cases; try lia; reflexivity. }
  destruct (Z.leb_spec (4 * vl) n) as [L|L]; [|apply sve_tail_ok; auto; lia]. set (head := Z.land ((- a) mod 2 ^ 64) (vl - 1)).
  assert (H : 0 <= head <= vl - 1).
  { unfold head. pose proof (Z.mod_pos_bound (- a) (2 ^ 64) ltac:(lia)) as MB. split; [apply Z.land_nonneg; lia|]. 
    assert (SUB : Z.land ((- a) mod 2 ^ 64) (vl - 1) = (vl - 1) - Z.ldiff (vl - 1) ((- a) mod 2 ^ 64)).
    { rewrite Z.land_comm. symmetry. apply Z.sub_move_r. rewrite <- Z.lor_ldiff_and at 1. rewrite Z.lor_comm.
      assert (AD : Z.land (Z.land (vl - 1) ((- a) mod 2 ^ 64)) (Z.ldiff (vl - 1) ((- a) mod 2 ^ 64)) = 0).
      { apply Z.bits_inj'. intros i Hi. rewrite !Z.land_spec, Z.ldiff_spec, Z.bits_0. destruct (Z.testbit (vl - 1) i), (Z.testbit ((- a) mod 2 ^ 64) i); reflexivity. }
      rewrite Z.add_nocarry_lxor by exact AD. rewrite Z.lxor_lor by exact AD. reflexivity. }
    rewrite SUB. assert (0 <= Z.ldiff (vl - 1) ((- a) mod 2 ^ 64)) by (apply Z.ldiff_nonneg; lia). lia. }
  clearbody head. assert (E : lanes vl 0 head = head) by (unfold lanes; lia). rewrite E. pose proof (sv_copy_ok m0 d a n 0 head _ D ltac:(lia) ltac:(lia) ltac:(lia) S0) as S1. rewrite !Z.add_0_r, Z.add_0_l in S1.
  destruct (sve_loop_ok m0 d a n vl D V (Z.to_nat n) head _ ltac:(lia) S1) as (i & s & -> & S & Hi). apply sve_tail_ok; auto; lia.
Qed.

(** *** Examples: 300 bytes at 1000 copied to 5003; the memory holds its addresses modulo 251. *)
Definition ex_mem : memory := fun x => x mod 251.
Example C42_ex : disjoint 5003 1000 300 /\
  (let r := memcpy_avx 5003 1000 300 {| m_mem := ex_mem; m_tr := [] |} in
   firstn 6 (m_tr r) = [Rd 1000 53; Wr 5003 53; Rd 1053 32; Rd 1085 32; Wv 5056 32; Wv 5088 32] /\ m_mem r 5302 = ex_mem 1299 /\ m_mem r 5303 = ex_mem 5303)
  /\ m_mem (memcpy_sve 48 5003 1000 300 {| m_mem := ex_mem; m_tr := [] |}) 5302 = ex_mem 1299.
Proof. split; [left; lia|]. split; [split; [vm_compute; reflexivity|split; vm_compute; reflexivity]|vm_compute; reflexivity]. Qed.

Print Assumptions C42_x86.
Print Assumptions C42_sve.
